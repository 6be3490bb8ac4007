(** NATS subjects with wildcards.

    Subjects are configured as plain strings (nats_subject, [[rule]] subject, downsample_suffix) and handed to NATS as
    they are: downsampler/downsampler.go:79-93, 141; writer/writer.go:94-112; filter/filter.go:86-95.  NATS is not in the
    repository; the meaning of subjects is that of its documentation: words separated by dots, an asterisk as a word
    stands for any one word, a final greater-than sign for one or more words.  In the subject of a published message
    they mean nothing special. *)
From Verif Require Import Base.
Local Open Scope nat_scope.

Definition dot : ascii := "."%char.

(** strings.Split(s, "."). *)
Fixpoint tokens (s : bytes) : list bytes :=
  match s with
  | [] => [[]]
  | c :: r =>
      if Ascii.eqb c dot then [] :: tokens r
      else match tokens r with [] => [[c]] | w :: ws => (c :: w) :: ws end
  end.

(** Matching of the words of a subscription's subject with the words of a message's (gnatsd, server/sublist.go matchLevel,
    for one subscription). *)
Fixpoint match_tokens (p s : list bytes) : bool :=
  match p, s with
  | [], [] => true
  | t :: p', x :: s' =>
      (beqs t (lit ">") && match p' with [] => true | _ => false end) ||
      ((beqs t (lit "*") || beqs t x) && match_tokens p' s')
  | _, _ => false
  end.
Definition subject_match (p s : bytes) : bool := match_tokens (tokens p) (tokens s).

(** ** Specification *)

(** Words joined by dots. *)
Fixpoint join_dots (ws : list bytes) : bytes :=
  match ws with
  | [] => []
  | w :: ws' => match ws' with [] => w | _ => w ++ dot :: join_dots ws' end
  end.
(** [ws] are the words of [s]. *)
Definition words (s : bytes) (ws : list bytes) : Prop := ws <> [] /\ Forall (fun w => ~ In dot w) ws /\ s = join_dots ws.

(** Which words a pattern covers. *)
Inductive Covers : list bytes -> list bytes -> Prop :=
| cv_nil : Covers [] []
| cv_word w p s : Covers p s -> Covers (w :: p) (w :: s)
| cv_star w p s : Covers p s -> Covers (lit "*" :: p) (w :: s)
| cv_rest w s : Covers [lit ">"] (w :: s).
(** A subscription to [p] gets the messages published on [s]. *)
Definition subject_gets (p s : bytes) : Prop := exists pw sw, words p pw /\ words s sw /\ Covers pw sw.

(** A subject one can subscribe to: no empty words, and the greater-than sign as a word only at the end. *)
Definition subscribable (p : bytes) : Prop := exists ws, words p ws /\ Forall (fun w => w <> []) ws /\ ~ In (lit ">") (removelast ws).
(** No word is a wildcard. *)
Definition literal (p : bytes) : Prop := exists ws, words p ws /\ ~ In (lit "*") ws /\ ~ In (lit ">") ws.
(** The last word of [p] is [w]. *)
Definition last_word (p w : bytes) : Prop := ~ In dot w /\ (p = w \/ exists pre, p = pre ++ dot :: w).

(** ** Proofs *)

Lemma tokens_nonempty s : tokens s <> [].
Proof. destruct s as [|c s]; cbn [tokens]; [discriminate|]. destruct (Ascii.eqb c dot); [discriminate|]. destruct (tokens s); discriminate. Qed.

Lemma tokens_words s : words s (tokens s).
Proof.
  split; [apply tokens_nonempty|]. induction s as [|c s [IH1 IH2]].
  - split; [constructor; [intros []|constructor]|reflexivity].
  - cbn [tokens]. destruct (Ascii.eqb_spec c dot) as [->|N].
    + split; [constructor; [intros []|exact IH1]|]. cbn [join_dots]. pose proof (tokens_nonempty s). destruct (tokens s); [contradiction|]. cbn [app]. rewrite IH2. reflexivity.
    + pose proof (tokens_nonempty s) as Ne. destruct (tokens s) as [|w ws]; [contradiction|]. inversion IH1 as [|? ? Hw Hws]; subst.
      split; [constructor; [|exact Hws]; intros [E|E]; [exact (N E)|exact (Hw E)]|].
      cbn [join_dots]. destruct ws; [reflexivity|]. reflexivity.
Qed.

Lemma app_dot_unique (a b x y : bytes) : ~ In dot a -> ~ In dot b -> a ++ dot :: x = b ++ dot :: y -> a = b /\ x = y.
Proof.
  revert b. induction a as [|c a IH]; intros [|d b] Ha Hb E; cbn [app] in E.
  - injection E as <-. auto.
  - injection E as <- _. exfalso. apply Hb. left. reflexivity.
  - injection E as -> _. exfalso. apply Ha. left. reflexivity.
  - injection E as -> E. destruct (IH b) as [-> ->]; auto; [intros X; apply Ha; right; exact X|intros X; apply Hb; right; exact X].
Qed.

Lemma words_unique s ws ws' : words s ws -> words s ws' -> ws = ws'.
Proof.
  intros (N & F & E) (N' & F' & E'). rewrite E in E'. clear E. revert ws' N' F' E'. induction ws as [|w ws IH]; intros ws' N' F' E; [contradiction|].
  destruct ws' as [|v vs]; [contradiction|]. inversion F as [|? ? Fw Fws]; subst. inversion F' as [|? ? Fv Fvs]; subst.
  cbn [join_dots] in E. destruct ws as [|w2 ws]; destruct vs as [|v2 vs].
  - rewrite E. reflexivity.
  - exfalso. apply Fw. rewrite E. apply in_app_iff. right. left. reflexivity.
  - exfalso. apply Fv. rewrite <- E. apply in_app_iff. right. left. reflexivity.
  - apply app_dot_unique in E; auto. destruct E as [-> E]. f_equal. apply IH; auto; discriminate.
Qed.

Lemma match_covers p : forall s, match_tokens p s = true <-> Covers p s.
Proof.
  induction p as [|t p IH]; intros [|x s]; cbn [match_tokens].
  - split; [constructor|reflexivity].
  - split; [discriminate|intros H; inversion H].
  - split; [discriminate|intros H; inversion H].
  - rewrite orb_true_iff, !andb_true_iff, orb_true_iff, IH, !beqs_eq. split.
    + intros [[-> Hp]|[[->| ->] C]]; [destruct p; [constructor|discriminate]|constructor; exact C|constructor; exact C].
    + intros H. inversion H; subst; auto.
Qed.

Lemma subject_match_iff p s : subject_match p s = true <-> subject_gets p s.
Proof.
  unfold subject_match. rewrite match_covers. split.
  - intros H. exists (tokens p), (tokens s). split; [apply tokens_words|]. split; [apply tokens_words|exact H].
  - intros (pw & sw & P & Q & C). rewrite <- (words_unique p pw (tokens p) P (tokens_words p)), <- (words_unique s sw (tokens s) Q (tokens_words s)). exact C.
Qed.

Lemma covers_literal p : ~ In (lit "*") p -> ~ In (lit ">") p -> forall s, Covers p s <-> p = s.
Proof.
  induction p as [|w p IH]; intros N1 N2 s.
  - split; [intros H; inversion H; reflexivity|intros <-; constructor].
  - assert (IHp := IH (fun X => N1 (or_intror X)) (fun X => N2 (or_intror X))). split.
    + intros H. inversion H; subst.
      * f_equal. apply IHp. assumption.
      * exfalso. apply N1. left. reflexivity.
      * exfalso. apply N2. left. reflexivity.
    + intros <-. constructor. apply IHp. reflexivity.
Qed.

Lemma literal_gets p s : literal p -> (subject_gets p s <-> p = s).
Proof.
  intros (ws & W & N1 & N2). split.
  - intros (pw & sw & P & Q & C). rewrite (words_unique _ _ _ P W) in C. apply (covers_literal ws N1 N2) in C. subst sw. destruct W as (_ & _ & ->). destruct Q as (_ & _ & ->). reflexivity.
  - intros <-. exists ws, ws. split; [exact W|]. split; [exact W|]. apply (covers_literal ws N1 N2). reflexivity.
Qed.

(** Words of a subject with a suffix. *)
Lemma join_snoc ws w : ws <> [] -> join_dots (ws ++ [w]) = join_dots ws ++ dot :: w.
Proof.
  induction ws as [|v ws IH]; [contradiction|]. intros _. destruct ws as [|v2 ws]; [reflexivity|].
  change (join_dots ((v :: v2 :: ws) ++ [w])) with (v ++ dot :: join_dots ((v2 :: ws) ++ [w])). rewrite IH by discriminate.
  change (join_dots (v :: v2 :: ws)) with (v ++ dot :: join_dots (v2 :: ws)). rewrite <- app_assoc. reflexivity.
Qed.

Lemma words_suffix p init w suf w1 more : words p (init ++ [w]) -> words suf (w1 :: more) -> words (p ++ suf) (init ++ (w ++ w1) :: more).
Proof.
  intros (_ & F & E) (_ & F' & E'). apply Forall_app in F. destruct F as [Fi Fw]. inversion Fw as [|? ? Hw _]; subst. inversion F' as [|? ? Hw1 Fm]; subst.
  split; [destruct init; discriminate|]. split.
  - apply Forall_app. split; [exact Fi|]. constructor; [|exact Fm]. intros X. apply in_app_iff in X. tauto.
  - assert (J : join_dots ((w ++ w1) :: more) = w ++ join_dots (w1 :: more)) by (cbn [join_dots]; destruct more; [reflexivity|rewrite <- app_assoc; reflexivity]).
    clear - J. induction init as [|v init IH]; [cbn [app]; rewrite J; reflexivity|].
    cbn [app join_dots]. destruct (init ++ [w]) eqn:E1; [destruct init; discriminate|]. destruct (init ++ (w ++ w1) :: more) eqn:E2; [destruct init; discriminate|].
    rewrite <- IH. rewrite <- app_assoc. reflexivity.
Qed.

Lemma last_word_iff p init w v : words p (init ++ [w]) -> (last_word p v <-> v = w).
Proof.
  intros W. pose proof W as (Ne & F & E). apply Forall_app in F. destruct F as [Fi Fw]. inversion Fw as [|? ? Hw _]; subst. split.
  - intros (Nv & H). assert (G : exists init', words (join_dots (init ++ [w])) (init' ++ [v])).
    { destruct H as [H|(pre & H)].
      - exists []. split; [discriminate|]. split; [constructor; [exact Nv|constructor]|exact H].
      - exists (tokens pre). destruct (tokens_words pre) as (N1 & F1 & E1). split; [destruct (tokens pre); discriminate|]. split; [apply Forall_app; auto|].
        rewrite H, join_snoc by exact N1. rewrite <- E1. reflexivity. }
    destruct G as (init' & G). pose proof (words_unique _ _ _ W G) as X. apply app_inj_tail in X. symmetry. apply X.
  - intros ->. split; [exact Hw|]. destruct init as [|i init]; [left; reflexivity|]. right. exists (join_dots (i :: init)). apply join_snoc. discriminate.
Qed.

Lemma no_dot_words s : ~ In dot s -> words s [s].
Proof. intros H. split; [discriminate|]. split; [constructor; [exact H|constructor]|reflexivity]. Qed.

(** Covering one's own beginning. *)
Lemma covers_self init w x more : ~ In (lit ">") init -> (Covers (init ++ [w]) (init ++ x :: more) <-> Covers [w] (x :: more)).
Proof.
  intros N. induction init as [|v init IH]; [reflexivity|]. cbn [app].
  assert (IH' := IH (fun X => N (or_intror X))). rewrite <- IH'. clear IH IH'. split.
  - intros H. inversion H as [|? ? ? C|? ? ? C|? ? E1 E2]; subst; [exact C|exact C|].
    exfalso. apply N. left. reflexivity.
  - intros C. constructor. exact C.
Qed.

Lemma covers_one w x more : Covers [w] (x :: more) <-> w = lit ">" \/ (more = [] /\ (w = lit "*" \/ w = x)).
Proof.
  split.
  - intros H. inversion H as [|? ? ? C|? ? ? C|? ? E1 E2]; subst; [| |left; reflexivity]; inversion C; subst; right; auto.
  - intros [->|(-> & [->| ->])]; [constructor|constructor; constructor|constructor; constructor].
Qed.

(** A subscription gets what is published on its own subject with a suffix: exactly with a wildcard at the end. *)
Lemma own_output p suf : subscribable p -> suf <> [] ->
  (subject_gets p (p ++ suf) <-> last_word p (lit ">") \/ (last_word p (lit "*") /\ ~ In dot suf)).
Proof.
  intros (ws & W & Nn & Ng) Hs. pose proof W as (Ne & _). destruct (exists_last Ne) as (init & w & ->). rewrite removelast_last in Ng.
  pose proof (tokens_words suf) as Ws. pose proof (tokens_nonempty suf) as Nt. destruct (tokens suf) as [|w1 more] eqn:Et; [contradiction|].
  pose proof (words_suffix p init w suf w1 more W Ws) as Wo.
  rewrite !(last_word_iff p init w _ W).
  assert (G : subject_gets p (p ++ suf) <-> Covers (init ++ [w]) (init ++ (w ++ w1) :: more)).
  { split; [|intros C; exists (init ++ [w]), (init ++ (w ++ w1) :: more); auto].
    intros (pw & sw & P & Q & C). rewrite (words_unique _ _ _ P W), (words_unique _ _ _ Q Wo) in C. exact C. }
  rewrite G, covers_self, covers_one by exact Ng. split.
  - intros [->|(-> & Hw)]; [left; reflexivity|]. destruct Hw as [->|Hw].
    + right. split; [reflexivity|]. destruct Ws as (_ & F & E). cbn [join_dots] in E. subst w1. inversion F; assumption.
    + exfalso. apply (f_equal (@length _)) in Hw. rewrite app_length in Hw. destruct Ws as (_ & _ & E). cbn [join_dots] in E. subst suf.
      destruct w1; [apply Hs; reflexivity|cbn [length] in Hw; lia].
  - intros [<-|(<- & Nd)]; [left; reflexivity|]. right. split; [|left; reflexivity].
    pose proof (words_unique _ _ _ Ws (no_dot_words suf Nd)) as X. injection X as _ ->. reflexivity.
Qed.

(** The subjects a downsampler subscribes to and those it publishes on (downsampler/downsampler.go:79, 141). *)
Definition outSubject (subject suffix : bytes) : bytes := subject ++ suffix.
(** The output of the worker of subject [p] comes back as input of the worker of [q]. *)
Definition comes_back (subjects : list bytes) (suffix p q : bytes) : Prop :=
  In p subjects /\ In q subjects /\ subject_gets q (outSubject p suffix).

Lemma literal_comes_back subjects suffix p q : Forall literal subjects ->
  (comes_back subjects suffix p q <-> In p subjects /\ In q subjects /\ q = p ++ suffix).
Proof.
  intros F. rewrite Forall_forall in F. unfold comes_back, outSubject. split; intros (P & Q & H); (split; [exact P|]; split; [exact Q|]); apply (literal_gets q _ (F q Q)); exact H.
Qed.

Lemma literal_not_own subjects suffix p : Forall literal subjects -> suffix <> [] -> ~ comes_back subjects suffix p p.
Proof.
  intros F N H. apply literal_comes_back in H; [|exact F]. destruct H as (_ & _ & E). apply N. apply (f_equal (@length _)) in E. rewrite app_length in E. destruct suffix; [reflexivity|cbn [length] in E; lia].
Qed.

(** Literal subjects never form a loop, however many workers pass the data on. *)
Inductive reaches (subjects : list bytes) (suffix : bytes) : bytes -> bytes -> Prop :=
| re_one p q : comes_back subjects suffix p q -> reaches subjects suffix p q
| re_more p q r : reaches subjects suffix p q -> comes_back subjects suffix q r -> reaches subjects suffix p r.

Lemma literal_no_loop subjects suffix p q : Forall literal subjects -> suffix <> [] -> reaches subjects suffix p q -> length p < length q.
Proof.
  intros F N H. assert (G : forall x y, comes_back subjects suffix x y -> length x < length y).
  { intros x y X. apply literal_comes_back in X; [|exact F]. destruct X as (_ & _ & ->). rewrite app_length. destruct suffix; [contradiction|cbn; lia]. }
  induction H as [p q H|p q r _ IH H]; [exact (G _ _ H)|]. specialize (G _ _ H). lia.
Qed.
