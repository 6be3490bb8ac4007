(** What a component does with data does not depend on data it is done with: the filter between messages, the
    downsampler beyond its three open periods; and what the monitor keeps. *)
From Verif Require Import Base LinesSpec NumSpec Text TextSpec TextProofs GrammarSpec GrammarProofs Rules RulesSpec FilterWorker FilterSpec FilterProofs Assigner
  AssignerSpec AssignerProofs Avg AvgSpec AvgProofs.
Local Open Scope Z_scope.

(* ------------------------------------------------------------------ *)
(** * Filter *)

Lemma worker_fresh gs c jobs : fst (run_worker gs c (newFilterWorker c) jobs) = newFilterWorker c.
Proof.
  induction jobs as [|[[oks now] m] js IH]; auto. cbn [run_worker].
  pose proof (processBatch_fresh gs c oks now m) as F.
  destruct (processBatch gs c oks now (newFilterWorker c) m) as [st1 a1]. cbn [fst] in F. subst st1.
  destruct (run_worker gs c (newFilterWorker c) js) as [st2 a2]. exact IH.
Qed.

Lemma filter_forgets gs c jobs later :
  snd (run_worker gs c (fst (run_worker gs c (newFilterWorker c) jobs)) later) = snd (run_worker gs c (newFilterWorker c) later).
Proof. rewrite worker_fresh. reflexivity. Qed.

(* ------------------------------------------------------------------ *)
(** * Downsampler *)

Section Ds.
  Variables (B E : Type).
  Variable newBucket : Z -> B.
  Variable addLine : B -> bytes -> B * list E.

  Lemma takes_fun p e0 (Hp : 0 < p) k l ps errs l1 : takes B E newBucket addLine p e0 k l ps errs l1 ->
    forall errs' l2, takes B E newBucket addLine p e0 k l ps errs' l2 -> l1 = l2.
  Proof.
    pose proof (stamped_fun B E newBucket addLine p e0 Hp) as SF.
    induction 1 as [l | l line now ts body rest errs l1 St H0 H1 IH | l line now ts body rest errs l1 St H0 H1 IH
                    | l line now ts body i rest errs l1 St Hi H0 H1 IH]; intros errs' l2 T; inversion T; subst; auto.
    all: try match goal with A : stamped ?x ?n _ _, C : stamped ?x ?n _ _ |- _ =>
           lazymatch A with C => fail | _ => destruct (SF _ _ _ _ _ _ A C); subst end end; first [solve [eauto] | exfalso; nia].
  Qed.

  Lemma history_fun p e0 (Hp : 0 < p) cs ans k l : history B E newBucket addLine p e0 cs ans k l ->
    forall ans' k' l', history B E newBucket addLine p e0 cs ans' k' l' -> k = k' /\ l = l'.
  Proof.
    induction 1 as [| cs ans k l data clk errs l1 H IH T | cs ans k l now H IH L | cs ans k l now H IH L]; intros ans' k' l' H'.
    - inversion H'; auto; match goal with X : _ ++ [_] = [] |- _ => destruct (app_cons_not_nil _ _ _ (eq_sym X)) end.
    - inversion H' as [X | ? ? ? ? ? ? ? ? Hh Tt X | ? ? ? ? ? Hh Ll X | ? ? ? ? ? Hh Ll X];
        [destruct (app_cons_not_nil _ _ _ X) | | |]; apply app_inj_tail in X; destruct X as [-> X]; inversion X; subst.
      destruct (IH _ _ _ Hh) as [-> ->]. split; auto. eapply takes_fun; eauto.
    - inversion H' as [X | ? ? ? ? ? ? ? ? Hh Tt X | ? ? ? ? ? Hh Ll X | ? ? ? ? ? Hh Ll X];
        [destruct (app_cons_not_nil _ _ _ X) | | |]; apply app_inj_tail in X; destruct X as [-> X]; inversion X; subst;
        destruct (IH _ _ _ Hh) as [-> ->]; [auto|lia].
    - inversion H' as [X | ? ? ? ? ? ? ? ? Hh Tt X | ? ? ? ? ? Hh Ll X | ? ? ? ? ? Hh Ll X];
        [destruct (app_cons_not_nil _ _ _ X) | | |]; apply app_inj_tail in X; destruct X as [-> X]; inversion X; subst;
        destruct (IH _ _ _ Hh) as [-> ->]; [lia|auto].
  Qed.

  Notation state p now cs := (fst (do_calls B E newBucket addLine (newAssigner B newBucket p now) cs)).

  (** The state after any history described by the specification. *)
  Lemma state_inv p now0 e0 cs ans k l : 0 < p -> period_end p now0 e0 -> history B E newBucket addLine p e0 cs ans k l ->
    Inv B E newBucket addLine p e0 (state p now0 cs) k l.
  Proof.
    intros Hp P H. destruct (refines B E newBucket addLine p e0 Hp (proj2 P) now0 cs P) as (k' & l' & H' & _ & I).
    destruct (history_fun p e0 Hp cs ans k l H _ _ _ H') as [-> ->]. exact I.
  Qed.

  (** The accepted lines with timestamps not before [t]. *)
  Definition recent (t : Z) (l : log) : log := filter (fun x => t <=? fst x) l.

  Lemma contents_recent p t l e : t <= e - p -> contents B E newBucket addLine p (recent t l) e = contents B E newBucket addLine p l e.
  Proof.
    intros H. unfold contents. f_equal. unfold recent. induction l as [|x l IH]; auto. cbn [filter].
    destruct (Z.leb_spec t (fst x)); cbn [filter]; rewrite IH; auto.
    replace ((e - p <=? fst x) && (fst x <? e)) with false by lia. auto.
  Qed.

  Lemma ds_forgets p now0 e0 cs ans k l now0' e0' cs' ans' k' l' later : 0 < p -> period_end p now0 e0 -> period_end p now0' e0' ->
    history B E newBucket addLine p e0 cs ans k l -> history B E newBucket addLine p e0' cs' ans' k' l' ->
    e0 + k * p = e0' + k' * p -> recent (e0 + k * p - 2 * p) l = recent (e0 + k * p - 2 * p) l' ->
    snd (do_calls B E newBucket addLine (state p now0 cs) later) = snd (do_calls B E newBucket addLine (state p now0' cs') later).
  Proof.
    intros Hp P P' H H' Ek R. f_equal. f_equal.
    destruct (state_inv _ _ _ _ _ _ _ Hp P H) as [-> _]. destruct (state_inv _ _ _ _ _ _ _ Hp P' H') as [-> _].
    assert (S1 : forall i j, e0 + i * p = e0' + j * p -> e0 + (k - 1) * p <= e0 + i * p ->
                             slot B E newBucket addLine p e0 l i = slot B E newBucket addLine p e0' l' j).
    { intros i j Eij Le. unfold slot. rewrite <- Eij. f_equal.
      rewrite <- (contents_recent p (e0 + k * p - 2 * p) l) by lia. rewrite R. apply contents_recent. lia. }
    f_equal; try (apply S1; lia). lia.
  Qed.

  (** Three turns after the ends of the next periods and nothing received: as new. *)
  Lemma ds_silence p now0 e0 cs ans k l n1 n2 n3 : 0 < p -> period_end p now0 e0 -> history B E newBucket addLine p e0 cs ans k l ->
    e0 + k * p <= n1 -> e0 + (k + 1) * p <= n2 -> e0 + (k + 2) * p <= n3 ->
    let a := state p now0 (cs ++ [CBytes n1; CBytes n2; CBytes n3]) in
    forall eb, In eb [a_prev B a; a_curr B a; a_next B a] -> snd eb = newBucket (fst eb).
  Proof.
    intros Hp P H L1 L2 L3 a.
    assert (H3 : exists ans', history B E newBucket addLine p e0 (cs ++ [CBytes n1; CBytes n2; CBytes n3]) ans' (k + 1 + 1 + 1) l).
    { eexists. change [CBytes n1; CBytes n2; CBytes n3] with ([CBytes n1] ++ [CBytes n2] ++ [CBytes n3]).
      rewrite !app_assoc. apply h_emit; [apply h_emit; [apply h_emit; [exact H|]|]|]; lia. }
    destruct H3 as [ans' H3]. pose proof (state_inv _ _ _ _ _ _ _ Hp P H3) as [Ea _]. fold a in Ea.
    destruct (history_emitted B E newBucket addLine p e0 Hp (proj2 P) _ _ _ _ H) as (_ & _ & _ & F).
    assert (X : forall i, k + 2 <= i -> snd (slot B E newBucket addLine p e0 l i) = newBucket (fst (slot B E newBucket addLine p e0 l i))).
    { intros i Hi. unfold slot. cbn [fst snd]. unfold contents. replace (filter _ l) with (@nil (Z * bytes)); auto. symmetry.
      clear - F Hi Hp. induction F as [|x l Hx F IH]; auto. cbn [filter].
      replace ((e0 + i * p - p <=? fst x) && (fst x <? e0 + i * p)) with false by nia. auto. }
    intros eb I. rewrite Ea in I. cbn [a_prev a_curr a_next] in I. destruct I as [<-|[<-|[<-|[]]]]; apply X; lia.
  Qed.
End Ds.

(** ** The series held *)

(** [key] is the measurement and tags of a line: everything before the first space not preceded by a backslash. *)
Definition series (body key : bytes) : Prop :=
  (exists raw, body = key ++ raw /\ part_before true [sp] key raw /\ (raw = [] \/ exists r, raw = sp :: r)) \/
  (key = [] /\ (body = [] \/ body = [sp])).

Lemma series_token body : forall key, series body key <-> key = fst (TokenEscaped (lit " ") body).
Proof.
  intros key. change (lit " ") with [sp]. split.
  - intros [(raw & -> & P & R)|[-> [->| ->]]]; [rewrite split_key; auto | |]; reflexivity.
  - intros ->. destruct (TokenEscaped [sp] body) as [tok rest] eqn:T. cbn [fst].
    destruct tok as [|c tok].
    + right. split; auto. destruct body as [|x [|y body]]; auto.
      * rewrite TokenEscaped_single in T. destruct (memb [sp] x) eqn:M; [|discriminate].
        right. apply memb_In in M. destruct M as [->|[]]. auto.
      * exfalso. apply (TokenEscaped_nonempty _ _ _ _ T); auto. simpl. lia.
    + left. exists rest. destruct (token_part [sp] body (c :: tok) rest T ltac:(discriminate)) as (Eb & P & R).
      split; auto. split; auto. destruct R as [->|(d & r & -> & I)]; auto. right. destruct I as [<-|[]]. eauto.
Qed.

Section Series.
  Variable fo : floatOps.

  (** The series in the three buckets of a downsampler (downsampler/assigner.go:27-49, avg/bucket.go:30-49: the keys of the maps). *)
  Definition held (a : assigner (avgBucket fo)) : list bytes :=
    map fst (snd (a_prev _ a)) ++ map fst (snd (a_curr _ a)) ++ map fst (snd (a_next _ a)).

  Lemma AddLine_keys b line key : In key (map fst (fst (AddLine fo b line))) <->
    In key (map fst b) \/ (key = fst (TokenEscaped (lit " ") line) /\ snd (AddLine fo [] line) = []).
  Proof.
    unfold AddLine. destruct (TokenEscaped (lit " ") line) as [k raw]. cbn [mget fst].
    destruct (mget b k) as [f|] eqn:G.
    - destruct (updateFields fo f raw) as [f' errs]. cbn [fst]. rewrite mset_keys.
      assert (I : In k (map fst b)) by (apply mget_In in G; apply (in_map fst) in G; exact G).
      split; [intros [->|H]; auto|intros [H|[-> _]]; auto].
    - destruct (updateFields fo [] raw) as [f' errs]. destruct errs as [|e errs]; cbn [fst snd].
      + rewrite mset_keys. intuition.
      + intuition. discriminate.
  Qed.

  Lemma fold_keys : forall (xs : log) (b : avgBucket fo) key, In key (map fst (fold_left (fun b x => fst (AddLine fo b (snd x))) xs b)) <->
    In key (map fst b) \/ exists x, In x xs /\ key = fst (TokenEscaped (lit " ") (snd x)) /\ snd (AddLine fo [] (snd x)) = [].
  Proof.
    induction xs as [|x xs IH]; intros b key; cbn [fold_left].
    - split; auto. intros [H|(x & [] & _)]; auto.
    - rewrite IH, AddLine_keys. split.
      + intros [[H|H]|(y & I & H)]; [auto|right; exists x; simpl; tauto|right; exists y; simpl; tauto].
      + intros [H|(y & [->|I] & H)]; auto. right. eauto.
  Qed.

  Lemma fold_nodup : forall (xs : log) (b : avgBucket fo), NoDup (map fst b) ->
    NoDup (map fst (fold_left (fun b x => fst (AddLine fo b (snd x))) xs b)) /\
    (length (fold_left (fun b x => fst (AddLine fo b (snd x))) xs b) <= length b + length xs)%nat.
  Proof.
    induction xs as [|x xs IH]; intros b N; cbn [fold_left length]; [split; [auto|lia]|].
    assert (N1 : NoDup (map fst (fst (AddLine fo b (snd x)))) /\ (length (fst (AddLine fo b (snd x))) <= length b + 1)%nat).
    { unfold AddLine. destruct (TokenEscaped (lit " ") (snd x)) as [k raw].
      assert (Lm : forall v : fieldPairs fo, (length (mset b k v) <= length b + 1)%nat).
      { intros v. clear. induction b as [|[k' v'] b IH]; cbn [mset length]; [lia|]. destruct (beqs k' k); cbn [length]; lia. }
      destruct (mget b k); destruct (updateFields fo _ raw) as [f' errs]; [|destruct errs]; cbn [fst]; (split; [try apply mset_nodup; auto|]);
        try apply Lm; lia. }
    destruct N1 as [N1 L1]. destruct (IH _ N1) as [N2 L2]. split; auto. lia.
  Qed.

  Notation state p now cs := (fst (do_calls (avgBucket fo) lerr (fun _ => []) (AddLine fo) (newAssigner (avgBucket fo) (fun _ => []) p now) cs)).

  Lemma held_series p now0 e0 cs ans k l key : 0 < p -> period_end p now0 e0 ->
    history (avgBucket fo) lerr (fun _ => []) (AddLine fo) p e0 cs ans k l ->
    (In key (held (state p now0 cs)) <->
     exists ts body, In (ts, body) l /\ e0 + (k - 2) * p <= ts < e0 + (k + 1) * p /\ series body key /\ snd (AddLine fo [] body) = []).
  Proof.
    intros Hp P H. destruct (state_inv _ _ _ _ p now0 e0 cs ans k l Hp P H) as [-> _].
    unfold held, slot. cbn [a_prev a_curr a_next snd]. rewrite !in_app_iff. unfold contents.
    assert (K : forall e, In key (map fst (fold_left (fun b x => fst (AddLine fo b (snd x))) (filter (fun x => (e - p <=? fst x) && (fst x <? e)) l) [])) <->
                exists ts body, In (ts, body) l /\ e - p <= ts < e /\ series body key /\ snd (AddLine fo [] body) = []).
    { intros e. rewrite fold_keys. split.
      - intros [[]|([ts body] & I & K1 & K2)]. apply filter_In in I. destruct I as [I W]. cbn [fst snd] in *.
        exists ts, body. split; auto. split; [lia|]. split; auto. apply series_token. auto.
      - intros (ts & body & I & W & S1 & A). right. exists (ts, body). cbn [fst snd]. split; [|split; [apply series_token|]; auto].
        apply filter_In. split; auto. cbn [fst]. lia. }
    split.
    - intros [I|[I|I]]; apply K in I; destruct I as (ts & body & I & W & S1 & A); exists ts, body; (split; [auto|split; [nia|auto]]).
    - intros (ts & body & I & W & S1 & A).
      destruct (Z_lt_le_dec ts (e0 + (k - 1) * p)); [left|destruct (Z_lt_le_dec ts (e0 + k * p)); [right; left|right; right]];
        apply K; exists ts, body; (split; [auto|split; [lia|auto]]).
  Qed.

  Lemma held_count p now0 e0 cs ans k l : 0 < p -> period_end p now0 e0 ->
    history (avgBucket fo) lerr (fun _ => []) (AddLine fo) p e0 cs ans k l ->
    (length (held (state p now0 cs)) <= length (recent (e0 + (k - 2) * p)%Z l))%nat.
  Proof.
    intros Hp P H. destruct (state_inv _ _ _ _ p now0 e0 cs ans k l Hp P H) as [-> _].
    unfold held, slot. cbn [a_prev a_curr a_next snd]. rewrite !app_length, !map_length. unfold contents.
    set (w := fun e (x : Z * bytes) => (e - p <=? fst x) && (fst x <? e)).
    assert (K : forall e, (length (fold_left (fun b x => fst (AddLine fo b (snd x))) (filter (w e) l) []) <= length (filter (w e) l))%nat).
    { intros e. destruct (fold_nodup (filter (w e) l) [] (NoDup_nil _)) as [_ L]. exact L. }
    pose proof (K (e0 + (k - 1) * p)) as K1. pose proof (K (e0 + k * p)) as K2. pose proof (K (e0 + (k + 1) * p)) as K3.
    assert (F : (length (filter (w (e0 + (k - 1) * p)%Z) l) + length (filter (w (e0 + k * p)%Z) l) + length (filter (w (e0 + (k + 1) * p)%Z) l) <=
                 length (recent (e0 + (k - 2) * p)%Z l))%nat).
    { clear - Hp. unfold recent, w. induction l as [|x l IH]; auto. cbn [filter].
      destruct (Z.leb_spec (e0 + (k - 1) * p - p) (fst x)), (Z.ltb_spec (fst x) (e0 + (k - 1) * p)),
        (Z.leb_spec (e0 + k * p - p) (fst x)), (Z.ltb_spec (fst x) (e0 + k * p)),
        (Z.leb_spec (e0 + (k + 1) * p - p) (fst x)), (Z.ltb_spec (fst x) (e0 + (k + 1) * p)),
        (Z.leb_spec (e0 + (k - 2) * p) (fst x)); cbn [andb length]; lia. }
    refine (Nat.le_trans _ _ _ _ F). rewrite Nat.add_assoc. apply Nat.add_le_mono; [apply Nat.add_le_mono|]; assumption.
  Qed.
End Series.
