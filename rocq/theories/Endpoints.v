(** Adding and removing components while data flow (README.md:23, Key features).

    What each component subscribes to is taken from the code; the broker is modelled from knowledge of gnatsd (server/sublist.go, as in
    Nats.v and Copies.v): every plain subscription whose subject matches gets a message, and of the matching members of a queue group,
    whatever their subjects, one does.  Components come and go at any time.  A message is delivered at the moment it is published: what is
    lost with broken connections and full buffers is the subject of Outage.v and Pending.v. *)
From Verif Require Import Base Subjects.
Local Open Scope nat_scope.

(** A subscription: subject (wildcards allowed) and queue group. *)
Definition sub := (bytes * option bytes)%type.
(** The components by what they subscribe to. *)
Inductive endpoint :=
| Filter (subject : bytes)                                  (* filter/filter.go:92-97 *)
| Writer (subjects : list bytes) (queue_group : bytes)      (* writer/writer.go:91-109 *)
| Downsampler (subjects : list bytes)                       (* downsampler/downsampler.go:80-96 *)
| Monitor (subject : bytes)                                 (* monitor/monitor.go:51 *)
| Tap (subject : bytes).                                    (* cmd/influx-spout-tap/influx-spout-tap.go:48 *)
(** Their subscriptions, at the lines given above. *)
Definition subs (e : endpoint) : list sub :=
  match e with
  | Filter s => [(s, Some (lit "filter"))]
  | Writer ss g => map (fun s => (s, match g with [] => None | _ => Some g end)) ss
  | Downsampler ss => map (fun s => (s, None)) ss
  | Monitor s | Tap s => [(s, None)]
  end.

(** What happens: a component starts (it has not been running), it stops, a message is published.  Which member of a queue group
    gets the message - its component and which of its subscriptions - is the broker's choice, [pick]. *)
Inductive event :=
| Start (id : nat) (e : endpoint)
| Stop (id : nat)
| Publish (subject data : bytes) (pick : bytes -> nat * nat).

(** Which component runs as [id]. *)
Definition running := nat -> option endpoint.
Definition change (r : running) (e : event) : running :=
  match e with
  | Start id x => fun i => if Nat.eqb i id then Some x else r i
  | Stop id => fun i => if Nat.eqb i id then None else r i
  | Publish _ _ _ => r
  end.

(** The subscriptions of component [i] by which it gets a message. *)
Fixpoint hits (i k : nat) (pick : bytes -> nat * nat) (subject : bytes) (ss : list sub) : list nat :=
  match ss with
  | [] => []
  | (s, g) :: rest =>
      (if subject_match s subject &&
          match g with None => true | Some g => Nat.eqb (fst (pick g)) i && Nat.eqb (snd (pick g)) k end
       then [k] else []) ++ hits i (S k) pick subject rest
  end.
(** What component [i] receives: the subscription, the subject and the data, in order. *)
Definition gets (i : nat) (r : running) (e : event) : list (nat * bytes * bytes) :=
  match e, r i with
  | Publish s d pick, Some x => map (fun k => (k, s, d)) (hits i 0 pick s (subs x))
  | _, _ => []
  end.
Fixpoint received (i : nat) (r : running) (h : list event) : list (nat * bytes * bytes) :=
  match h with [] => [] | e :: h => gets i r e ++ received i (change r e) h end.
Definition nobody : running := fun _ => None.

(** ** Specification *)
(** A component which shares its messages with no other. *)
Definition alone (e : endpoint) : Prop := forall s g, In (s, g) (subs e) -> g = None.
(** Member of a queue group for a subject, by its [k]-th subscription. *)
Definition member (r : running) (g subject : bytes) (i k : nat) : Prop :=
  exists x s, r i = Some x /\ nth_error (subs x) k = Some (s, Some g) /\ subject_gets s subject.
(** The broker picks a member whenever there is one. *)
Fixpoint honest (r : running) (h : list event) : Prop :=
  match h with
  | [] => True
  | e :: h =>
      match e with
      | Publish s _ pick => forall g, (exists i k, member r g s i k) -> member r g s (fst (pick g)) (snd (pick g))
      | _ => True
      end /\ honest (change r e) h
  end.
(** The events which concern component [i]: its own starts and stops, and what is published. *)
Inductive concern := CStart (e : endpoint) | CStop | CPublish (subject data : bytes).
Definition concerns (i : nat) (e : event) : list concern :=
  match e with
  | Start id x => if Nat.eqb i id then [CStart x] else []
  | Stop id => if Nat.eqb i id then [CStop] else []
  | Publish s d _ => [CPublish s d]
  end.
(** The history without the component [j]. *)
Definition without (j : nat) (h : list event) : list event :=
  filter (fun e => match e with Start id _ | Stop id => negb (Nat.eqb id j) | Publish _ _ _ => true end) h.
Definition starts_alone (i : nat) (h : list event) : Prop := forall x, In (Start i x) h -> alone x.

(** What a lone component receives, said directly: every message published while it runs, once for each of its subjects that match. *)
Fixpoint expected (i : nat) (me : option endpoint) (h : list concern) : list (nat * bytes * bytes) :=
  match h with
  | [] => []
  | CStart x :: h => expected i (Some x) h
  | CStop :: h => expected i None h
  | CPublish s d :: h =>
      match me with
      | Some x => map (fun k => (k, s, d)) (filter (fun k => match nth_error (subs x) k with Some (p, _) => subject_match p s | None => false end) (seq 0 (length (subs x))))
      | None => []
      end ++ expected i me h
  end.

(** ** Proofs *)
Lemma hits_alone i pick s ss : (forall a g, In (a, g) ss -> g = None) -> forall k (all : nat -> option sub),
  (forall n, nth_error ss n = all (k + n)) ->
  hits i k pick s ss = filter (fun k => match all k with Some (p, _) => subject_match p s | None => false end) (seq k (length ss)).
Proof.
  induction ss as [|[p g] ss IH]; intros Ha k all Hn; [reflexivity|].
  cbn [hits length seq filter]. rewrite (Ha p g (or_introl eq_refl)).
  pose proof (Hn 0) as H0. rewrite Nat.add_0_r in H0. cbn in H0. rewrite <- H0. cbv iota beta.
  rewrite Bool.andb_true_r. rewrite (IH (fun a g' Hi => Ha a g' (or_intror Hi)) (S k) all).
  - destruct (subject_match p s); reflexivity.
  - intros n. specialize (Hn (S n)). cbn in Hn. rewrite Hn. f_equal. lia.
Qed.

Lemma received_alone i : forall h r, (forall x, r i = Some x -> alone x) -> starts_alone i h ->
  received i r h = expected i (r i) (flat_map (concerns i) h).
Proof.
  induction h as [|e h IH]; intros r Hr Hs; [reflexivity|].
  assert (Hs' : starts_alone i h) by (intros x Hx; apply Hs; right; exact Hx).
  cbn [received flat_map]. rewrite IH; [| |exact Hs'].
  - destruct e as [id x|id|s d pick]; cbn [concerns change gets].
    + rewrite (Nat.eqb_sym i id). destruct (Nat.eqb_spec id i) as [->|N].
      * reflexivity.
      * reflexivity.
    + destruct (Nat.eqb_spec i id) as [->|N]; reflexivity.
    + cbn [app expected]. f_equal. destruct (r i) as [x|] eqn:E; [|reflexivity].
      f_equal. apply (hits_alone i pick s (subs x) (Hr x eq_refl)). reflexivity.
  - intros x Hx. destruct e as [id y|id|s d pick]; cbn [change] in Hx.
    + destruct (Nat.eqb_spec i id) as [->|N]; [injection Hx as ->; apply Hs; left; reflexivity|apply Hr; exact Hx].
    + destruct (Nat.eqb i id); [discriminate|apply Hr; exact Hx].
    + apply Hr; exact Hx.
Qed.

Lemma without_concerns i j h : i <> j -> flat_map (concerns i) (without j h) = flat_map (concerns i) h.
Proof.
  intros N. induction h as [|e h IH]; [reflexivity|]. cbn [without filter flat_map]. fold (without j h).
  destruct e as [id x|id|s d pick]; cbn [concerns].
  - destruct (Nat.eqb_spec id j) as [->|M]; cbn [negb flat_map concerns].
    + destruct (Nat.eqb_spec i j); [contradiction|]. exact IH.
    + rewrite IH. reflexivity.
  - destruct (Nat.eqb_spec id j) as [->|M]; cbn [negb flat_map concerns].
    + destruct (Nat.eqb_spec i j); [contradiction|]. exact IH.
    + rewrite IH. reflexivity.
  - cbn [flat_map concerns]. rewrite IH. reflexivity.
Qed.

Lemma expected_skip i s : forall me h, (forall x, me = Some x -> forall p g, In (p, g) (subs x) -> subject_match p s = false) ->
  (forall x, In (CStart x) h -> forall p g, In (p, g) (subs x) -> subject_match p s = false) ->
  expected i me h = expected i me (filter (fun c => match c with CPublish s' _ => negb (beqs s' s) | _ => true end) h).
Proof.
  intros me h. revert me. induction h as [|c h IH]; intros me Hm Hh; [reflexivity|].
  assert (Hh' : forall x, In (CStart x) h -> forall p g, In (p, g) (subs x) -> subject_match p s = false) by (intros x Hx; apply Hh; right; exact Hx).
  destruct c as [x| |s' d]; cbn [filter expected].
  - apply IH; [|exact Hh']. intros y Hy. injection Hy as <-. apply Hh. left. reflexivity.
  - apply IH; [discriminate|exact Hh'].
  - destruct (beqs s' s) eqn:E; cbn [negb].
    + apply beqs_eq in E. subst s'.
      assert (Z0 : match me with Some x => map (fun k => (k, s, d)) (filter (fun k => match nth_error (subs x) k with Some (p, _) => subject_match p s | None => false end) (seq 0 (length (subs x)))) | None => [] end = []).
      { destruct me as [x|]; [|reflexivity].
        assert (F : forall l, filter (fun k => match nth_error (subs x) k with Some (p, _) => subject_match p s | None => false end) l = []).
        { induction l as [|k l IHl]; [reflexivity|]. cbn [filter]. destruct (nth_error (subs x) k) as [[p g]|] eqn:En; [|exact IHl].
          rewrite (Hm x eq_refl p g (nth_error_In _ _ En)). exact IHl. }
        rewrite F. reflexivity. }
      rewrite Z0. cbn [app]. apply IH; assumption.
    + cbn [expected]. f_equal. apply IH; assumption.
Qed.

(** ** Queue groups *)
Lemma hits_in i pick s ss : forall k j, In j (hits i k pick s ss) <->
  exists p g, k <= j /\ nth_error ss (j - k) = Some (p, g) /\ subject_gets p s /\ match g with None => True | Some g => pick g = (i, j) end.
Proof.
  induction ss as [|[p g'] ss IH]; intros k j; cbn [hits].
  - split; [intros []|]. intros (p & g & _ & H & _). destruct (j - k); discriminate H.
  - rewrite in_app_iff, IH. split.
    + intros [H|(p' & g & H1 & H2 & H3)].
      * destruct (subject_match p s) eqn:Em; cbn [andb] in H; [|destruct H].
        assert (Hm : subject_gets p s) by (apply subject_match_iff; exact Em).
        destruct g' as [g'|]; cbn [andb] in H.
        -- destruct (Nat.eqb_spec (fst (pick g')) i) as [E1|]; cbn [andb] in H; [|destruct H].
           destruct (Nat.eqb_spec (snd (pick g')) k) as [E2|]; [|destruct H]. destruct H as [<-|[]].
           exists p, (Some g'). split; [lia|]. rewrite Nat.sub_diag. split; [reflexivity|]. split; [exact Hm|].
           destruct (pick g'); cbn in *; congruence.
        -- destruct H as [<-|[]]. exists p, None. split; [lia|]. rewrite Nat.sub_diag. auto.
      * exists p', g. split; [lia|]. replace (j - k) with (S (j - S k)) by lia. auto.
    + intros (p' & g & H1 & H2 & H3 & H4). destruct (Nat.eq_dec j k) as [->|N].
      * left. rewrite Nat.sub_diag in H2. cbn in H2. injection H2 as -> ->. apply subject_match_iff in H3. rewrite H3. cbn [andb].
        destruct g as [g|]; [rewrite H4; cbn [fst snd]; rewrite !Nat.eqb_refl|]; left; reflexivity.
      * right. exists p', g. split; [lia|]. replace (j - k) with (S (j - S k)) in H2 by lia. auto.
Qed.

Lemma hits_nodup i pick s ss : forall k, NoDup (hits i k pick s ss).
Proof.
  induction ss as [|[p g'] ss IH]; intros k; cbn [hits]; [constructor|].
  destruct (subject_match p s && _); [|exact (IH (S k))]. cbn [app]. constructor; [|apply IH].
  intros H. apply hits_in in H. destruct H as (_ & _ & H & _). lia.
Qed.

Definition after (r : running) (h : list event) : running := fold_left change h r.

Lemma honest_at : forall pre r s d pick post, honest r (pre ++ Publish s d pick :: post) ->
  forall g, (exists i k, member (after r pre) g s i k) -> member (after r pre) g s (fst (pick g)) (snd (pick g)).
Proof.
  induction pre as [|e pre IH]; intros r s d pick post H; [exact (proj1 H)|].
  cbn [app honest] in H. destruct H as [_ H]. exact (IH _ _ _ _ _ H).
Qed.

Lemma received_app i : forall h1 r h2, received i r (h1 ++ h2) = received i r h1 ++ received i (after r h1) h2.
Proof.
  induction h1 as [|e h1 IH]; intros r h2; [reflexivity|]. cbn [app received]. rewrite IH, <- app_assoc. reflexivity.
Qed.

(** A member which is picked gets the message, the others do not. *)
Lemma group_gets r g s d pick i k : member r g s i k ->
  (In (k, s, d) (gets i r (Publish s d pick)) <-> pick g = (i, k)).
Proof.
  intros (x & p & E & En & Hg). cbn [gets]. rewrite E. rewrite in_map_iff. split.
  - intros (k' & H & Hh). injection H as ->. apply hits_in in Hh. destruct Hh as (p' & g' & _ & H2 & _ & H4).
    rewrite Nat.sub_0_r, En in H2. injection H2 as _ <-. exact H4.
  - intros H. exists k. split; [reflexivity|]. apply hits_in. exists p, (Some g). rewrite Nat.sub_0_r. split; [lia|]. auto.
Qed.

(** ** A component which shares no group with another *)
Definition shares (x y : endpoint) (s : bytes) : Prop :=
  exists g p q, In (p, Some g) (subs x) /\ In (q, Some g) (subs y) /\ subject_gets p s /\ subject_gets q s.

(** The same components run, but for [j]. *)
Definition same_but (j : nat) (r r' : running) : Prop := r' j = None /\ forall i, i <> j -> r' i = r i.

Lemma change_same j r r' e : same_but j r r' ->
  match e with Start id _ | Stop id => id <> j | _ => True end -> same_but j (change r e) (change r' e).
Proof.
  intros [A B] He. destruct e as [id x|id|s d pick]; cbn [change]; [| |split; assumption];
    (split; [destruct (Nat.eqb_spec j id); [congruence|exact A]|intros i Hi; destruct (Nat.eqb i id); [reflexivity|apply B; exact Hi]]).
Qed.
Lemma change_skip j r r' e : same_but j r r' ->
  match e with Start id _ | Stop id => id = j | _ => False end -> same_but j (change r e) r'.
Proof.
  intros [A B] He. destruct e as [id x|id|s d pick]; cbn [change]; [subst id|subst id|destruct He];
    (split; [exact A|intros i Hi; destruct (Nat.eqb_spec i j); [contradiction|apply B; exact Hi]]).
Qed.

Lemma received_without i j : i <> j -> forall h r r', same_but j r r' -> received i r' (without j h) = received i r h.
Proof.
  intros N. induction h as [|e h IH]; intros r r' S0; [reflexivity|].
  cbn [without filter received]. fold (without j h).
  assert (G : gets i r' e = gets i r e) by (destruct S0 as [_ B]; unfold gets; rewrite (B i N); reflexivity).
  destruct e as [id x|id|s d pick].
  - destruct (Nat.eqb_spec id j) as [->|M]; cbn [negb received gets app].
    + apply IH. apply (change_skip j r r' (Start j x) S0). reflexivity.
    + apply IH. apply change_same; assumption.
  - destruct (Nat.eqb_spec id j) as [->|M]; cbn [negb received gets app].
    + apply IH. apply (change_skip j r r' (Stop j) S0). reflexivity.
    + apply IH. apply change_same; assumption.
  - cbn [received]. rewrite G. f_equal. apply IH. exact S0.
Qed.

Lemma honest_without j : forall h r r', same_but j r r' -> honest r h ->
  (forall s x y i, i <> j -> (In (Start j x) h \/ r j = Some x) -> (In (Start i y) h \/ r i = Some y) -> ~ shares x y s) ->
  honest r' (without j h).
Proof.
  induction h as [|e h IH]; intros r r' S0 Hh Hs; [exact Logic.I|].
  cbn [honest] in Hh. destruct Hh as [He Hh]. cbn [without filter]. fold (without j h).
  assert (Hs' : forall s x y i, i <> j -> (In (Start j x) h \/ change r e j = Some x) -> (In (Start i y) h \/ change r e i = Some y) -> ~ shares x y s).
  { assert (Back : forall i x, In (Start i x) h \/ change r e i = Some x -> In (Start i x) (e :: h) \/ r i = Some x).
    { intros i x [H|H]; [left; right; exact H|]. destruct e as [id z|id|s d pick]; cbn [change] in H.
      - destruct (Nat.eqb_spec i id) as [->|]; [injection H as <-; left; left; reflexivity|right; exact H].
      - destruct (Nat.eqb i id); [discriminate|right; exact H].
      - right; exact H. }
    intros s x y i Hi Hx Hy. apply (Hs s x y i Hi); apply Back; assumption. }
  destruct e as [id x|id|s d pick].
  - destruct (Nat.eqb_spec id j) as [->|M]; cbn [negb honest].
    + apply (IH (change r (Start j x)) r'); [|exact Hh|exact Hs']. apply (change_skip j r r' (Start j x) S0). reflexivity.
    + split; [exact Logic.I|]. apply (IH (change r (Start id x))); [|exact Hh|exact Hs']. apply change_same; assumption.
  - destruct (Nat.eqb_spec id j) as [->|M]; cbn [negb honest].
    + apply (IH (change r (Stop j)) r'); [|exact Hh|exact Hs']. apply (change_skip j r r' (Stop j) S0). reflexivity.
    + split; [exact Logic.I|]. apply (IH (change r (Stop id))); [|exact Hh|exact Hs']. apply change_same; assumption.
  - cbn [honest]. split; [|apply (IH r); [exact S0|exact Hh|exact Hs']].
    destruct S0 as [A B]. intros g (i & k & y & p & E1 & E2 & E3).
    assert (Hi : i <> j) by (intros ->; rewrite A in E1; discriminate).
    assert (Em : exists i k, member r g s i k) by (exists i, k, y, p; rewrite <- (B i Hi); auto).
    destruct (He g Em) as (z & q & F1 & F2 & F3).
    exists z, q. split; [|split; assumption]. rewrite B; [exact F1|]. intros Ej. rewrite Ej in F1.
    apply (Hs s z y i Hi (or_intror F1)); [right; rewrite <- (B i Hi); exact E1|].
    exists g, q, p. split; [apply (nth_error_In _ _ F2)|]. split; [apply (nth_error_In _ _ E2)|]. auto.
Qed.
