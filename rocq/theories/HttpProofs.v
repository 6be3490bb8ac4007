From Verif Require Import Base Timestamps NumProofs Splitter SplitterProofs Batch BatchSpec BatchProofs
  LinesSpec Listener ListenerSpec ListenerProofs.
Local Open Scope Z_scope.

(* ------------------------------------------------------------------ *)
(** * Lists *)

Lemma nth_set_nth {A} (l : list A) i x j :
  nth_error (set_nth i x l) j = if Nat.eqb i j then match nth_error l i with Some _ => Some x | None => None end
                                else nth_error l j.
Proof.
  revert i j; induction l as [|y l IH]; intros i j; cbn [set_nth].
  - destruct i; destruct j; simpl; auto; destruct (Nat.eqb i j); auto.
  - destruct i as [|i]; destruct j as [|j]; simpl; auto.
Qed.

Lemma set_nth_length {A} (l : list A) i x : length (set_nth i x l) = length l.
Proof. revert i; induction l as [|y l IH]; intros [|i]; simpl; auto. Qed.

Lemma count_set_nth {A} (f : A -> bool) (l : list A) i x y : nth_error l i = Some y ->
  Z.of_nat (length (filter f (set_nth i x l))) =
  Z.of_nat (length (filter f l)) + (if f x then 1 else 0) - (if f y then 1 else 0).
Proof.
  revert i; induction l as [|z l IH]; intros [|i] H; simpl in H; try discriminate; cbn [set_nth filter].
  - inversion H; subst. destruct (f x); destruct (f y); simpl length; lia.
  - specialize (IH i H). destruct (f z); simpl length; lia.
Qed.

Lemma entries_app i l1 l2 : entries i (l1 ++ l2) = entries i l1 ++ entries i l2.
Proof. unfold entries. rewrite filter_app, map_app. auto. Qed.

Lemma entries_one i j d : entries i [(j, d)] = if Nat.eqb j i then [d] else [].
Proof. unfold entries. simpl. destruct (Nat.eqb j i); auto. Qed.

(* ------------------------------------------------------------------ *)
(** * Conservation *)

Definition arel (pf : nat -> bool) (l : lstate) (log : list (nat * bytes)) (groups : list (list bytes)) (pend : list bytes) : Prop :=
  Inv (ls_batch l) /\ b_buf (ls_batch l) = concat pend /\ b_writes (ls_batch l) = Z.of_nat (length pend) /\
  Forall (fun d => d <> []) pend /\ Forall (fun g => g <> []) groups /\
  ls_pub l = flat_map (fun g => split_all natsMax (concat g)) groups /\
  ls_sent l = Z.of_nat (length groups) /\ ls_failed l = fails pf (length (ls_pub l)) /\
  map snd log = concat groups ++ pend.

Lemma arel_append pf l log g p b i d : arel pf l log g p -> d <> [] ->
  Inv b -> b_buf b = b_buf (ls_batch l) ++ d -> b_writes b = b_writes (ls_batch l) + 1 ->
  arel pf (set_batch l b) (log ++ [(i, d)]) g (p ++ [d]).
Proof.
  intros (A1 & A2 & A3 & A4 & A5 & A6 & A7 & A8 & A9) Hd Ib Bb Wb. unfold arel, set_batch; simpl.
  split; auto. split; [rewrite Bb, A2, concat_snoc; auto|]. split; [rewrite Wb, A3, app_length; simpl; lia|].
  split; [apply Forall_app; auto|]. split; auto. split; auto. split; auto. split; auto.
  rewrite map_app, A9. simpl. rewrite app_assoc. auto.
Qed.

Lemma arel_same pf l l' log g p : arel pf l log g p -> ls_batch l' = ls_batch l -> ls_pub l' = ls_pub l ->
  ls_sent l' = ls_sent l -> ls_failed l' = ls_failed l -> arel pf l' log g p.
Proof. unfold arel. intros H -> -> -> ->. auto. Qed.

Lemma arel_send pf l log g p t : arel pf l log g p -> exists g' p',
  arel pf (sendBatch pf l t) log g' p' /\ ls_received (sendBatch pf l t) = ls_received l /\
  ls_read_errors (sendBatch pf l t) = ls_read_errors l.
Proof.
  intros R. pose proof R as (A1 & A2 & A3 & A4 & A5 & A6 & A7 & A8 & A9).
  destruct (list_eq_dec ascii_dec (b_buf (ls_batch l)) []) as [E|E].
  - rewrite sendBatch_empty by auto. eauto.
  - destruct (sendBatch_full pf l t E A8) as (B1 & B2 & B3 & B4 & B5 & B6). exists (g ++ [p]), [].
    split; [|auto]. unfold arel. rewrite B2, B6, B4, B1. unfold Reset; simpl.
    destruct A1 as (X1 & X2 & X3).
    split; [unfold Inv, Size; simpl; lia|]. split; auto. split; auto. split; auto.
    split; [apply Forall_app; split; auto; constructor; auto; intros ->; apply E; rewrite A2; auto|].
    split; [rewrite flat_map_app, A6; simpl; rewrite app_nil_r, A2; auto|].
    split; [rewrite app_length; simpl; lia|]. split; auto.
    rewrite concat_app, A9. simpl. rewrite !app_nil_r. auto.
Qed.

(* ------------------------------------------------------------------ *)
(** * Requests *)

Definition one_read (es : list bytes) : Prop := es = [] \/ exists d, es = [d] /\ d <> [].
Definition nonnil {A} (l : list A) : bool := match l with [] => false | _ => true end.

(** The network reports an error other than the end of the stream. *)
Definition sched_err (sched : list (nat * rerr)) : Prop := Exists (fun x => snd x <> ENone /\ snd x <> EEOF) sched.

(** State [r] and entries [es] of a request that started in state [r0]; [errs] read errors
    have been counted so far. *)
Definition rrel (r0 r : req) (es : list bytes) (errs : Z) : Prop :=
  match r0 with
  | RNanos body sched =>
      (r = r0 /\ es = []) \/
      (exists rest, body = concat es ++ rest /\ one_read es /\
         ((exists e, r = RMaybe e /\ es <> [] /\ (rest = [] \/ (e = true /\ sched_err sched))) \/
          (r = RDone (nonnil es) /\ (rest = [] \/ (0 < errs /\ sched_err sched)))))
  | RLines segs some e0 =>
      Forall (fun d => d <> []) segs /\
      ((exists rem, r = RLines rem some e0 /\ segs = es ++ rem) \/
       (es = segs /\ ((r = RMaybe e0 /\ some = true) \/ (r = RDone some /\ (e0 = false \/ 0 < errs)))))
  | _ => False
  end.

Lemma apply_nonempty l p : l <> [] -> applyTimestampPrecision l p <> [].
Proof.
  intros H. unfold applyTimestampPrecision. destruct (ExtractTimestamp l) as [ts off].
  destruct (off =? -1); auto. destruct (SafeCalcTime ts p); auto.
  intros E. apply (f_equal (@length _)) in E. rewrite !app_length in E. simpl in E. lia.
Qed.

Lemma start_rrel q errs : rrel (start_req q) (start_req q) [] errs.
Proof.
  unfold start_req. destruct (beqs _ _ || beqs _ _); [left; auto|].
  destruct (scan_tokens (q_eager q) (lines_of (q_body q))) as [toks e]. simpl. split; [|left; eauto].
  apply Forall_forall. intros d H. unfold precision_segments in H. apply in_map_iff in H.
  destruct H as (x & <- & H). apply filter_In in H. destruct H as [_ H]. apply apply_nonempty.
  intros ->. discriminate.
Qed.

Lemma rrel_errs r0 r es e1 e2 : rrel r0 r es e1 -> e1 <= e2 -> rrel r0 r es e2.
Proof.
  unfold rrel. intros H L. destruct r0; auto.
  - destruct H as [H|(rest & A & B & [H|(H1 & H2)])]; [left; auto|right; exists rest; tauto|].
    right. exists rest. split; auto. split; auto. right. split; auto. destruct H2 as [H2|[H2 H3]]; [left; auto|right; split; [lia|auto]].
  - destruct H as (F & [H|(A & [H|(H1 & H2)])]); split; auto.
    right. split; auto. right. split; auto. destruct H2; [left; auto|right; lia].
Qed.

Definition is_counted (r : req) : bool := match r with RMaybe _ => true | RDone g => g | _ => false end.

Record hrel (pf : nat -> bool) (c : lconf) (qs : list hreq) (h : hstate) : Prop := mkHrel {
  hr_a : exists g p, arel pf (h_l h) (h_log h) g p;
  hr_len : length (h_reqs h) = length qs;
  hr_r : forall i q, nth_error qs i = Some q ->
     exists r, nth_error (h_reqs h) i = Some r /\
               rrel (start_req q) r (entries i (h_log h)) (ls_read_errors (h_l h));
  hr_log : forall i e, In (i, e) (h_log h) -> (i < length qs)%nat;
  hr_err : 0 <= ls_read_errors (h_l h);
  hr_rec : ls_received (h_l h) = Z.of_nat (length (filter is_counted (h_reqs h))) }.

Lemma ReadFrom_buf b body sched now b' tot rest e : Inv b -> ReadFrom b body sched now = Some (b', tot, rest, e) ->
  Inv b' /\ b_buf b' = b_buf b ++ tot /\ b_writes b' = b_writes b + (if nonnil tot then 1 else 0) /\
  (nonnil tot = true -> b_writes b = 0 -> b_created b' = now) /\
  (b_writes b > 0 \/ tot = [] -> b_writes b > 0 -> b_created b' = b_created b) /\
  body = tot ++ rest /\ (e = ENone -> rest = []).
Proof.
  intros I H.
  set (a := mkA (b_buf b) (b_writes b) (if b_writes b =? 0 then None else Some (b_created b))).
  assert (R : rep b a).
  { destruct I as (I1 & I2 & I3). unfold rep, a, Inv; simpl.
    destruct (Z.eqb_spec (b_writes b) 0); simpl; repeat split; auto; lia. }
  destruct (ReadFrom_correct sched b a body now b' tot rest e R H) as ((E1 & E2) & (I' & B & W & F)).
  destruct I as (I1 & I2 & I3).
  split; auto. destruct tot as [|x tot]; simpl in *.
  - rewrite app_nil_r. split; auto. split; [lia|]. split; [discriminate|]. split; [|auto].
    destruct (Z.eqb_spec (b_writes b) 0); [lia|]. tauto.
  - split; auto. split; auto. destruct (Z.eqb_spec (b_writes b) 0); [|].
    + split; [tauto|]. split; [lia|auto].
    + split; [lia|]. split; [tauto|auto].
Qed.

Lemma ReadFrom_err : forall sched b body total now b' tot rest e,
  ReadFrom_loop b body sched total now = Some (b', tot, rest, e) -> e <> ENone -> sched_err sched.
Proof.
  induction sched as [|[k err] sched IH]; intros b body total now b' tot rest e H N; cbn [ReadFrom_loop] in H; [discriminate|].
  destruct err.
  - right. destruct (skipn _ body); eapply IH; eauto.
  - destruct (skipn _ body) eqn:Es; [|right; eapply IH; eauto]. inversion H; subst. congruence.
  - left. cbn. split; discriminate.
  - left. cbn. split; discriminate.
Qed.

Lemma Append_buf b d now : Inv b ->
  Inv (Append b d now) /\ b_buf (Append b d now) = b_buf b ++ d /\ b_writes (Append b d now) = b_writes b + 1 /\
  b_created (Append b d now) = (if b_writes b =? 0 then now else b_created b).
Proof.
  intros (I1 & I2 & I3). unfold Append.
  assert (Ic : Inv (countWrite b now)) by (unfold Inv, countWrite, Size in *; simpl in *; lia).
  destruct (appendImpl_spec (countWrite b now) d Ic) as (A & B & C & D & _). rewrite B, C, D. auto.
Qed.

(** Updating request [i]. *)
Lemma rrel_update qs reqs log log' errs errs' i q r' es' :
  (forall j q, nth_error qs j = Some q -> exists r, nth_error reqs j = Some r /\ rrel (start_req q) r (entries j log) errs) ->
  nth_error qs i = Some q -> errs <= errs' ->
  (forall j, j <> i -> entries j log' = entries j log) -> entries i log' = es' ->
  rrel (start_req q) r' es' errs' ->
  forall j q, nth_error qs j = Some q -> exists r, nth_error (set_nth i r' reqs) j = Some r /\ rrel (start_req q) r (entries j log') errs'.
Proof.
  intros H Hq Le Hj Hi Hr j q' Hq'. rewrite nth_set_nth. destruct (Nat.eqb_spec i j) as [->|N].
  - assert (q' = q) by congruence. subst q'. destruct (H _ _ Hq) as (r0 & -> & _). exists r'. subst es'. auto.
  - destruct (H _ _ Hq') as (r & Er & Rr). exists r. rewrite Hj by auto. split; auto. eapply rrel_errs; eauto.
Qed.

Lemma entries_other i j d log : j <> i -> entries j (log ++ [(i, d)]) = entries j log.
Proof. intros N. rewrite entries_app, entries_one. destruct (Nat.eqb_spec i j); [congruence|]. apply app_nil_r. Qed.
Lemma entries_same i d log : entries i (log ++ [(i, d)]) = entries i log ++ [d].
Proof. rewrite entries_app, entries_one, Nat.eqb_refl. auto. Qed.


Lemma arel_inc pf l e log g p : arel pf l log g p -> arel pf (inc_read_errors l e) log g p.
Proof. intros H. eapply arel_same; eauto. Qed.

Lemma inc_le l e : ls_read_errors l <= ls_read_errors (inc_read_errors l e).
Proof. unfold inc_read_errors; simpl. destruct e; lia. Qed.

Lemma count_step (reqs : list req) i r r' : nth_error reqs i = Some r ->
  Z.of_nat (length (filter is_counted (set_nth i r' reqs))) =
  Z.of_nat (length (filter is_counted reqs)) + (if is_counted r' then 1 else 0) - (if is_counted r then 1 else 0).
Proof. apply count_set_nth. Qed.

Lemma req_step_rel pf c qs h i t : hrel pf c qs h -> hrel pf c qs (req_step pf c h i t).
Proof.
  intros Hh. pose proof Hh as [(g & p & A) Len Rq Lg Er Rc]. unfold req_step.
  destruct (nth_error (h_reqs h) i) as [r|] eqn:Ei; [|auto].
  assert (Li : (i < length qs)%nat) by (rewrite <- Len; apply nth_error_Some; congruence).
  destruct (nth_error qs i) as [q|] eqn:Eq; [|apply nth_error_None in Eq; lia].
  destruct (Rq _ _ Eq) as (r1 & E1 & R1). rewrite Ei in E1. inversion E1; subst r1; clear E1.
  assert (Ib : Inv (ls_batch (h_l h))) by apply A.
  destruct r as [body sched|segs some e|e|g0]; auto.
  - (* nanos *)
    destruct (ReadFrom (ls_batch (h_l h)) body sched t) as [[[[b tot] rest] e]|] eqn:E; auto.
    destruct (ReadFrom_buf _ _ _ _ _ _ _ _ Ib E) as (B1 & B2 & B3 & _ & _ & B6 & B7).
    set (e' := match e with ENone => false | _ => true end).
    assert (R0 : exists bd sc, start_req q = RNanos bd sc /\ (bd = body /\ sc = sched) /\ entries i (h_log h) = []).
    { unfold rrel in R1. destruct (start_req q) as [bd sc|sg sm e0| |]; try contradiction.
      - destruct R1 as [[E1 E2]|(rs & _ & _ & [(e1 & E1 & _)|[E1 _]])]; [|discriminate..].
        inversion E1; subst. do 2 eexists. split; [reflexivity|auto].
      - destruct R1 as (_ & [(rm & E1 & _)|(_ & [[E1 _]|[E1 _]])]); discriminate. }
    destruct R0 as (bd & sc & R0 & [-> ->] & Es).
    assert (Tot : rest = [] \/ (e' = true /\ sched_err sched)).
    { unfold e'. destruct e; auto; right; split; auto; eapply ReadFrom_err; eauto; discriminate. }
    destruct tot as [|x tot].
    + constructor; cbn [h_l h_reqs h_log].
      * exists g, p. apply arel_inc. destruct A as (A1 & A2 & A3 & A4). unfold arel, set_batch; simpl.
        simpl in B3. rewrite app_nil_r in B2. rewrite B2, B3, Z.add_0_r. auto.
      * rewrite set_nth_length. auto.
      * eapply (rrel_update qs (h_reqs h) (h_log h) _ (ls_read_errors (h_l h)) _ i q _ _ Rq Eq); [apply (inc_le (set_batch (h_l h) b))|auto|reflexivity|].
        rewrite R0, Es. right. exists rest. split; auto. split; [left; auto|]. right. split; auto.
        destruct Tot as [Tt|[Tt Te]]; auto. right. split; auto. unfold set_batch, inc_read_errors; simpl. rewrite Tt. lia.
      * auto.
      * etransitivity; [exact Er|]. apply (inc_le (set_batch (h_l h) b)).
      * cbn [ls_received inc_read_errors set_batch]. rewrite (count_step _ _ _ _ Ei). simpl. lia.
    + constructor; cbn [h_l h_reqs h_log].
      * exists g, (p ++ [x :: tot]).
        eapply arel_same; [apply (arel_append pf (h_l h) _ g p b i); eauto|..]; auto. discriminate.
      * rewrite set_nth_length. auto.
      * eapply (rrel_update qs (h_reqs h) (h_log h) _ (ls_read_errors (h_l h)) _ i q _ _ Rq Eq); [simpl; lia|intros j N; apply entries_other; auto|reflexivity|].
        rewrite entries_same, Es, R0. right. exists rest. cbn [concat app]. rewrite app_nil_r.
        split; auto. split; [right; exists (x :: tot); split; auto; discriminate|].
        left. exists e'. split; auto. split; [discriminate|auto].
      * intros j d Hd. apply in_app_iff in Hd. destruct Hd as [Hd|[Hd|[]]]; [eauto|]. inversion Hd; subst; auto.
      * auto.
      * cbn [ls_received inc_received set_batch]. rewrite (count_step _ _ _ _ Ei). simpl. lia.
  - (* lines *)
    assert (R0 : exists segs0, start_req q = RLines segs0 some e /\ Forall (fun d => d <> []) segs0 /\
                  segs0 = entries i (h_log h) ++ segs).
    { unfold rrel in R1. destruct (start_req q) as [bd sc|sg sm e0| |]; try contradiction.
      - destruct R1 as [[E1 E2]|(rs & _ & _ & [(e1 & E1 & _)|[E1 _]])]; discriminate.
      - destruct R1 as (F & [(rm & E1 & E2)|(_ & [[E1 _]|[E1 _]])]); [|discriminate..].
        inversion E1; subst. eauto. }
    destruct R0 as (segs0 & R0 & F0 & Es). destruct segs as [|l ls].
    + rewrite app_nil_r in Es. destruct some.
      * constructor; cbn [h_l h_reqs h_log]; auto.
        { exists g, p. eapply arel_same; eauto. }
        { rewrite set_nth_length. auto. }
        { eapply (rrel_update qs (h_reqs h) (h_log h) _ (ls_read_errors (h_l h)) _ i q _ _ Rq Eq); [simpl; lia|auto|reflexivity|]. rewrite R0. simpl. split; auto. }
        { cbn [ls_received inc_received]. rewrite (count_step _ _ _ _ Ei). simpl. lia. }
      * constructor; cbn [h_l h_reqs h_log]; auto.
        { exists g, p. apply arel_inc; auto. }
        { rewrite set_nth_length. auto. }
        { eapply (rrel_update qs (h_reqs h) (h_log h) _ (ls_read_errors (h_l h)) _ i q _ _ Rq Eq); [apply inc_le|auto|reflexivity|]. rewrite R0. simpl. split; auto. right. split; auto.
          right. split; auto. destruct e; auto. right. lia. }
        { etransitivity; [exact Er|]. apply inc_le. }
        { cbn [ls_received inc_read_errors]. rewrite (count_step _ _ _ _ Ei). simpl. lia. }
    + assert (Hl : l <> []).
      { rewrite Es in F0. apply Forall_app in F0. destruct F0 as [_ F0]. inversion F0; auto. }
      destruct (Append_buf (ls_batch (h_l h)) l t Ib) as (B1 & B2 & B3 & _).
      constructor; cbn [h_l h_reqs h_log]; auto.
      * exists g, (p ++ [l]). apply arel_append; auto.
      * rewrite set_nth_length. auto.
      * eapply (rrel_update qs (h_reqs h) (h_log h) _ (ls_read_errors (h_l h)) _ i q _ _ Rq Eq); [simpl; lia|intros j N; apply entries_other; auto|reflexivity|].
        rewrite entries_same, R0. simpl. split; auto. left. exists ls. split; auto. rewrite <- app_assoc. auto.
      * intros j d Hd. apply in_app_iff in Hd. destruct Hd as [Hd|[Hd|[]]]; [eauto|]. inversion Hd; subst; auto.
      * cbn [ls_received set_batch]. rewrite (count_step _ _ _ _ Ei). simpl. lia.
  - (* maybeSendBatch *)
    assert (M : exists g' p', arel pf (maybeSendBatch pf c (h_l h) t t) (h_log h) g' p' /\
       ls_received (maybeSendBatch pf c (h_l h) t t) = ls_received (h_l h) /\
       ls_read_errors (maybeSendBatch pf c (h_l h) t t) = ls_read_errors (h_l h)).
    { unfold maybeSendBatch. destruct (shouldSend _ _ _); [apply arel_send with (1 := A)|eauto]. }
    destruct M as (g' & p' & A' & M1 & M2).
    constructor; cbn [h_l h_reqs h_log]; auto.
    + exists g', p'. apply arel_inc; auto.
    + rewrite set_nth_length. auto.
    + eapply (rrel_update qs (h_reqs h) (h_log h) _ (ls_read_errors (h_l h)) _ i q _ _ Rq Eq); [rewrite <- M2; apply inc_le|auto|reflexivity|].
      unfold rrel in *. destruct (start_req q) as [bd sc|sg sm e0| |]; try contradiction.
      * destruct R1 as [[E1 E2]|(rs & Q1 & Q2 & [(e1 & E1 & Q3 & Q4)|[E1 _]])]; [discriminate| |discriminate].
        inversion E1; subst e1. right. exists rs. split; auto. split; auto. right.
        split; [destruct Q2 as [Q2|(d & Q2 & _)]; [congruence|rewrite Q2; auto]|].
        destruct Q4 as [Q4|[Q4 Q5]]; auto. subst e. right. split; auto. simpl. lia.
      * destruct R1 as (F & [(rm & E1 & E2)|(Q1 & [[E1 Q2]|[E1 _]])]); [discriminate| |discriminate].
        inversion E1; subst e0. split; auto. right. split; auto. right. subst sm. split; auto.
        destruct e; auto. right. simpl. lia.
    + rewrite <- M2 in Er. etransitivity; [exact Er|]. apply inc_le.
    + cbn [ls_received inc_read_errors]. rewrite M1, (count_step _ _ _ _ Ei). simpl. lia.
Qed.

Lemma age_step_rel pf c qs h t : hrel pf c qs h -> hrel pf c qs (age_step pf c h t).
Proof.
  intros [(g & p & A) Len Rq Lg Er Rc]. unfold age_step.
  destruct (lc_max_age c <=? _); [|constructor; cbn [h_l h_reqs h_log]; eauto].
  destruct (arel_send pf (h_l h) _ g p t A) as (g' & p' & A' & M1 & M2).
  constructor; cbn [h_l h_reqs h_log]; rewrite ?M1, ?M2; eauto.
Qed.

Lemma hrun_rel pf c t0 qs labs : 0 <= lc_max_size c -> hrel pf c qs (hrun pf c (hinit c t0 qs) labs).
Proof.
  intros Hc. unfold hrun.
  assert (G : forall labs h, hrel pf c qs h -> hrel pf c qs (fold_left (hstep pf c) labs h)).
  { induction labs0 as [|[lab t] labs0 IH]; intros h H; auto. cbn [fold_left]. apply IH.
    unfold hstep. destruct lab; [apply req_step_rel|apply age_step_rel]; auto. }
  apply G. constructor; unfold hinit, newListener; cbn [h_l h_reqs h_log ls_received ls_read_errors].
  - exists [], []. unfold arel, New, Inv, Size. simpl. repeat split; auto; lia.
  - apply map_length.
  - intros i q E. exists (start_req q). rewrite nth_error_map, E. split; auto. apply start_rrel.
  - intros i e [].
  - lia.
  - assert (F : Forall (fun r => is_counted r = false) (map start_req qs)).
    { apply Forall_map, Forall_forall. intros q _. unfold start_req.
      destruct (_ || _); auto. destruct (scan_tokens _ _); auto. }
    clear -F. induction F as [|r l H F IH]; auto. cbn [filter]. rewrite H. auto.
Qed.

Lemma scan_tokens_prefix eg ls : exists rest, ls = fst (scan_tokens eg ls) ++ rest /\
  (snd (scan_tokens eg ls) = false -> rest = []).
Proof.
  induction ls as [|l ls IH]; [exists []; auto|]. cbn [scan_tokens].
  destruct (scan_fits eg l); [|exists (l :: ls); split; auto; discriminate].
  destruct (scan_tokens eg ls) as [ts e]. destruct IH as (rest & E1 & E2). simpl in *. exists rest. rewrite E1 at 1. auto.
Qed.

Lemma expected_segs q segs some e : start_req q = RLines segs some e ->
  exists rest, expected q = segs ++ rest /\ (e = false -> rest = [] /\ some = nonnil (q_body q)).
Proof.
  unfold start_req, expected. destruct (_ || _); [discriminate|].
  destruct (scan_tokens_prefix (q_eager q) (lines_of (q_body q))) as (rest & E1 & E2).
  destruct (scan_tokens (q_eager q) (lines_of (q_body q))) as [toks e0]. intros H. inversion H; subst; clear H.
  simpl in E1, E2. rewrite E1, filter_app, map_app. eexists. split; [reflexivity|].
  intros H. apply orb_false_iff in H. destruct H as [H _]. rewrite (E2 H) in *. split; auto.
  rewrite app_nil_r in E1. rewrite <- E1. destruct (q_body q) as [|x b]; auto.
  destruct (lines_of (x :: b)) eqn:E; auto. apply (proj1 (lines_of_nil (x :: b))) in E. discriminate.
Qed.

Lemma expected_nanos q body sched : start_req q = RNanos body sched ->
  body = q_body q /\ expected q = match q_body q with [] => [] | b => [b] end.
Proof.
  unfold start_req, expected. destruct (_ || _).
  - intros H; inversion H; auto.
  - destruct (scan_tokens _ _); discriminate.
Qed.

(** C19 *)
Lemma http_history pf c t0 qs labs : 0 <= lc_max_size c ->
  let h := hrun pf c (hinit c t0 qs) labs in
  exists (log : list (nat * bytes)) (groups : list (list bytes)) (pend : list bytes),
    map snd log = concat groups ++ pend /\
    ls_pub (h_l h) = flat_map (fun g => split_all natsMax (concat g)) groups /\
    Bytes (ls_batch (h_l h)) = concat pend /\
    Writes (ls_batch (h_l h)) = Z.of_nat (length pend) /\
    ls_sent (h_l h) = Z.of_nat (length groups) /\
    ls_failed (h_l h) = fails pf (length (ls_pub (h_l h))) /\
    (forall i e, In (i, e) log -> (i < length qs)%nat /\ e <> []) /\
    forall i q, nth_error qs i = Some q ->
      ((exists d rest, entries i log = [d] /\ d ++ rest = q_body q /\ expected q = [q_body q]) \/
       (exists rest, entries i log ++ rest = expected q)) /\
      (forall got, nth_error (h_reqs h) i = Some (RDone got) -> ls_read_errors (h_l h) = 0 ->
         entries i log = expected q).
Proof.
  intros Hc h. destruct (hrun_rel pf c t0 qs labs Hc) as [(g & p & A) Len Rq Lg Er Rc]. fold h in A, Len, Rq, Lg, Er, Rc.
  destruct A as (A1 & A2 & A3 & A4 & A5 & A6 & A7 & A8 & A9).
  assert (Sp : forall i q, nth_error qs i = Some q ->
    (exists r, nth_error (h_reqs h) i = Some r /\ Forall (fun d => d <> []) (entries i (h_log h)) /\
    ((exists d rest, entries i (h_log h) = [d] /\ d ++ rest = q_body q /\ expected q = [q_body q]) \/
       (exists rest, entries i (h_log h) ++ rest = expected q)) /\
      (forall got, r = RDone got -> ls_read_errors (h_l h) = 0 -> entries i (h_log h) = expected q))).
  { intros i q Hq. destruct (Rq _ _ Hq) as (r & Hr & R). exists r. split; auto. unfold rrel in R.
    destruct (start_req q) as [bd sc|sg sm e0| |] eqn:Es; try contradiction.
    - apply expected_nanos in Es. destruct Es as [-> Ex].
      destruct R as [[E1 E2]|(rs & Q1 & Q2 & Q3)].
      + rewrite E2. split; [constructor|]. split; [right; eexists; reflexivity|]. intros got E. subst r. discriminate.
      + split; [destruct Q2 as [->|(d & -> & Hd)]; repeat constructor; auto|].
        assert (X : rs = [] -> entries i (h_log h) = expected q).
        { intros ->. rewrite Ex, Q1, app_nil_r. destruct Q2 as [->|(d & -> & Hd)]; auto.
          simpl. rewrite app_nil_r. destruct d; [congruence|reflexivity]. }
        split.
        * destruct Q2 as [E|(d & E & Hd)]; rewrite E in *; [right; eexists; reflexivity|].
          left. exists d, rs. simpl in Q1. rewrite app_nil_r in Q1. split; auto. split; auto.
          rewrite Ex. destruct (q_body q); auto. destruct d; [congruence|discriminate].
        * intros got E Z0. destruct Q3 as [(e & E1 & _)|(_ & [Q3|Q3])]; [congruence|auto|lia].
    - destruct (expected_segs _ _ _ _ Es) as (rest & Ex & Ef). destruct R as (F & R).
      assert (P : exists rem, sg = entries i (h_log h) ++ rem).
      { destruct R as [(rem & _ & ->)|(-> & _)]; [eauto|exists []; rewrite app_nil_r; auto]. }
      destruct P as (rem & P). split; [rewrite P in F; apply Forall_app in F; tauto|].
      split; [right; exists (rem ++ rest); rewrite Ex, P, app_assoc; auto|].
      intros got E Z0. destruct R as [(rem' & E1 & _)|(Q1 & [[E1 _]|[E1 [Q2|Q2]]])]; [congruence..| |lia].
      destruct (Ef Q2) as [-> _]. rewrite Ex, app_nil_r. auto. }
  exists (h_log h), g, p. unfold Bytes, Writes. do 6 (split; [assumption|]). split.
  - intros i e Hi. pose proof (Lg _ _ Hi) as L. split; auto.
    destruct (nth_error qs i) as [q|] eqn:Eq; [|apply nth_error_None in Eq; lia].
    destruct (Sp _ _ Eq) as (r & _ & F & _). rewrite Forall_forall in F. apply F.
    unfold entries. apply in_map_iff. exists (i, e). split; auto. apply filter_In. split; auto. apply Nat.eqb_refl.
  - intros i q Hq. destruct (Sp _ _ Hq) as (r & Hr & _ & S1 & S2). split; auto.
    intros got E. apply (S2 got). congruence.
Qed.

(** Each answered request is counted once iff it carried data. *)
Lemma http_received pf c t0 qs labs : 0 <= lc_max_size c ->
  let h := hrun pf c (hinit c t0 qs) labs in
  (forall r, In r (h_reqs h) -> exists got, r = RDone got) -> ls_read_errors (h_l h) = 0 ->
  ls_received (h_l h) = Z.of_nat (length (filter (fun q => negb (beqs (q_body q) [])) qs)).
Proof.
  intros Hc h D Z0. destruct (hrun_rel pf c t0 qs labs Hc) as [_ Len Rq _ _ Rc]. fold h in Len, Rq, Rc.
  rewrite Rc, Z0 in *. f_equal. clear Rc.
  assert (G : forall i q, nth_error qs i = Some q -> nth_error (h_reqs h) i = Some (RDone (negb (beqs (q_body q) [])))).
  { intros i q Hq. destruct (Rq _ _ Hq) as (r & Hr & R). rewrite Hr. f_equal.
    destruct (D r (nth_error_In _ _ Hr)) as [got ->]. f_equal. unfold rrel in R.
    assert (NB : negb (beqs (q_body q) []) = nonnil (q_body q)) by (destruct (q_body q); auto).
    rewrite NB. destruct (start_req q) as [bd sc|sg sm e0| |] eqn:Es; try contradiction.
    - apply expected_nanos in Es. destruct Es as [-> Ex].
      destruct R as [[E1 E2]|(rs & Q1 & Q2 & [(e & E1 & _)|(E1 & [Q3|Q3])])]; [discriminate..| |lia].
      inversion E1. subst rs. rewrite Q1, app_nil_r. destruct Q2 as [->|(d & -> & Hd)]; auto.
      destruct d; [congruence|auto].
    - destruct (expected_segs _ _ _ _ Es) as (rest & Ex & Ef).
      destruct R as (F & [(rem' & E1 & _)|(Q1 & [[E1 _]|[E1 [Q2|Q2]]])]); [discriminate..| |lia].
      inversion E1. apply Ef; auto. }
  clear -Len G. revert Len G. generalize (h_reqs h). clear h. intros rs0. revert qs. induction rs0 as [|r rs IH]; intros [|q qs] Len G; try discriminate; auto.
  pose proof (G 0%nat q eq_refl) as E0. simpl in E0. inversion E0. cbn [filter is_counted].
  specialize (IH qs ltac:(simpl in Len; lia) (fun i q H => G (S i) q H)).
  destruct (negb (beqs (q_body q) [])); simpl; auto.
Qed.

(** C20: without read errors, with all units newline-ended and lines that fit a NATS
    message, the published and pending lines are the lines of the requests. *)
Lemma http_lines pf c t0 qs labs : 0 <= lc_max_size c ->
  Forall (fun q => nl_ended (q_body q)) qs ->
  let h := hrun pf c (hinit c t0 qs) labs in
  ls_read_errors (h_l h) = 0 ->
  (forall r, In r (h_reqs h) -> exists got, r = RDone got) ->
  (forall q u l, In q qs -> In u (expected q) -> In l (lines_of u) -> Z.of_nat (length l) <= 1048576) ->
  exists log : list (nat * bytes),
    (forall i q, nth_error qs i = Some q -> entries i log = expected q) /\
    (forall i e, In (i, e) log -> (i < length qs)%nat) /\
    flat_map lines_of (ls_pub (h_l h)) ++ lines_of (Bytes (ls_batch (h_l h))) = flat_map lines_of (map snd log).
Proof.
  intros Hc Hb h Z0 D Fit.
  destruct (http_history pf c t0 qs labs Hc) as (log & groups & pend & L1 & L2 & L3 & _ & _ & _ & L4 & L5).
  fold h in L2, L3, L5. exists log.
  assert (En : forall i q, nth_error qs i = Some q -> entries i log = expected q).
  { intros i q Hq. destruct (L5 i q Hq) as [_ Hd].
    destruct (hrun_rel pf c t0 qs labs Hc) as [_ Len _ _ _ _]. fold h in Len.
    destruct (nth_error (h_reqs h) i) as [r|] eqn:Er.
    - destruct (D r (nth_error_In _ _ Er)) as [got ->]. eauto.
    - apply nth_error_None in Er. assert (i < length qs)%nat by (apply nth_error_Some; congruence). lia. }
  split; auto. split; [intros i e Hi; apply (L4 i e Hi)|].
  assert (U : forall u, In u (map snd log) -> exists q, In q qs /\ In u (expected q)).
  { intros u Hu. apply in_map_iff in Hu. destruct Hu as ([i e] & <- & Hi). simpl.
    destruct (L4 i e Hi) as [Li _]. destruct (nth_error qs i) as [q|] eqn:Eq; [|apply nth_error_None in Eq; lia].
    exists q. split; [eapply nth_error_In; eauto|]. rewrite <- (En _ _ Eq). unfold entries.
    apply in_map_iff. exists (i, e). split; auto. apply filter_In. split; auto. apply Nat.eqb_refl. }
  assert (Ue : Forall nl_ended (map snd log)).
  { apply Forall_forall. intros u Hu. destruct (U u Hu) as (q & Hq & Hx). rewrite Forall_forall in Hb.
    specialize (Hb q Hq). unfold expected in Hx. destruct (_ || _).
    - destruct (q_body q); [contradiction|]. destruct Hx as [<-|[]]. auto.
    - apply in_map_iff in Hx. destruct Hx as (l & <- & Hl). apply filter_In in Hl. destruct Hl as [Hl _].
      pose proof (lines_of_ended _ Hb) as F. rewrite Forall_forall in F. specialize (F l Hl).
      unfold applyTimestampPrecision. destruct (ExtractTimestamp l). destruct (_ =? -1); auto.
      destruct (SafeCalcTime _ _); auto. right. rewrite app_assoc. eauto. }
  assert (Ul : Forall (fun u => Forall (fun l => (length l <= natsMax)%nat) (lines_of u)) (map snd log)).
  { apply Forall_forall. intros u Hu. destruct (U u Hu) as (q & Hq & Hx). apply Forall_forall. intros l Hl.
    specialize (Fit q u l Hq Hx Hl). pose proof natsMax_Z. lia. }
  rewrite L2, L3. rewrite L1 in Ue, Ul. rewrite L1. rewrite flat_map_app. apply Forall_app in Ue, Ul.
  destruct Ue as [Ue1 Ue2]. destruct Ul as [Ul1 _]. rewrite (lines_of_concat_ended pend) by auto. f_equal.
  clear -Ue1 Ul1. induction groups as [|g gs IH]; auto. cbn [concat flat_map] in *.
  apply Forall_app in Ue1, Ul1. destruct Ue1 as [E1 E2]. destruct Ul1 as [U1 U2].
  rewrite !flat_map_app, IH by auto. f_equal.
  assert (X : lines_of (concat g) = flat_map lines_of g) by (apply lines_of_concat_ended; auto).
  rewrite <- X. apply split_all_lines; [apply natsMax_pos|]. rewrite X. apply Forall_flat_map. exact U1.
Qed.

(* ------------------------------------------------------------------ *)
(** * C21: age *)

Record tinv (c : lconf) (h : hstate) (t : Z) : Prop := mkT {
  ti_inv : Inv (ls_batch (h_l h));
  ti_created : 0 < b_writes (ls_batch (h_l h)) -> b_created (ls_batch (h_l h)) <= t;
  ti_wake : 0 < b_writes (ls_batch (h_l h)) -> h_wake h <= b_created (ls_batch (h_l h)) + lc_max_age c;
  ti_last : h_wake h <= t + lc_max_age c }.

Lemma publish_fold_batch pf : forall cs s, ls_batch (fold_left (publish pf) cs s) = ls_batch s.
Proof. induction cs as [|c cs IH]; intros s; cbn [fold_left]; auto. rewrite IH. auto. Qed.

Lemma sendBatch_cases pf l t :
  ls_batch (sendBatch pf l t) = ls_batch l \/ ls_batch (sendBatch pf l t) = Reset (ls_batch l) t.
Proof.
  unfold sendBatch. destruct (Size _ <? 1); auto. right. unfold set_batch; simpl.
  rewrite publish_fold_batch. auto.
Qed.

Lemma tinv_send c h t l' : tinv c h t -> ls_batch l' = ls_batch (h_l h) \/ ls_batch l' = Reset (ls_batch (h_l h)) t ->
  forall rs lg, tinv c (mkH l' rs lg (h_wake h)) t.
Proof.
  intros [T1 T2 T3 T4] [E|E] rs lg; constructor; cbn [h_l h_wake]; rewrite ?E; auto.
  - destruct T1 as (?&?&?). unfold Reset, Inv, Size; simpl. lia.
  - unfold Reset; simpl. lia.
Qed.

Lemma tinv_mono c h t t' : tinv c h t -> t <= t' -> tinv c h t'.
Proof. intros [T1 T2 T3 T4] L. constructor; auto; intros; try specialize (T2 ltac:(auto)); lia. Qed.

Lemma tinv_batch c h t b l' rs lg : tinv c h t -> ls_batch l' = b -> Inv b ->
  (0 < b_writes b -> b_created b = if b_writes (ls_batch (h_l h)) =? 0 then t else b_created (ls_batch (h_l h))) ->
  tinv c (mkH l' rs lg (h_wake h)) t.
Proof.
  intros [T1 T2 T3 T4] E I C. constructor; cbn [h_l h_wake]; rewrite ?E; auto.
  - intros W. rewrite (C W). destruct (Z.eqb_spec (b_writes (ls_batch (h_l h))) 0); [lia|]. apply T2. destruct T1 as (?&?&?). lia.
  - intros W. rewrite (C W). destruct (Z.eqb_spec (b_writes (ls_batch (h_l h))) 0); [lia|]. apply T3. destruct T1 as (?&?&?). lia.
Qed.

Lemma hstep_tinv pf c h lab t : tinv c h t -> t <= snd lab -> tinv c (hstep pf c h lab) (snd lab).
Proof.
  intros T0 L. assert (T : tinv c h (snd lab)) by (eapply tinv_mono; eauto). clear T0.
  destruct lab as [[i|] t']; unfold hstep; cbn [fst snd] in *.
  - unfold req_step. destruct (nth_error (h_reqs h) i) as [r|]; auto.
    destruct r as [body sched|segs some e|e|g]; auto.
    + destruct (ReadFrom _ body sched t') as [[[[b tot] rest] e]|] eqn:E; auto.
      destruct (ReadFrom_buf _ _ _ _ _ _ _ _ (ti_inv _ _ _ T) E) as (B1 & B2 & B3 & B4 & B5 & _).
      assert (Cr : 0 < b_writes b -> b_created b = if b_writes (ls_batch (h_l h)) =? 0 then t' else b_created (ls_batch (h_l h))).
      { intros W. pose proof (ti_inv _ _ _ T) as (?&?&?). destruct tot as [|x tot]; simpl in *.
        - destruct (Z.eqb_spec (b_writes (ls_batch (h_l h))) 0); [lia|]. apply B5; [right; auto|lia].
        - destruct (Z.eqb_spec (b_writes (ls_batch (h_l h))) 0); [auto|]. apply B5; [left|]; lia. }
      destruct tot; eapply tinv_batch; eauto.
    + destruct segs as [|l ls].
      * destruct some; destruct T as [T1 T2 T3 T4]; constructor; auto.
      * destruct (Append_buf (ls_batch (h_l h)) l t' (ti_inv _ _ _ T)) as (B1 & B2 & B3 & B4).
        eapply tinv_batch; eauto.
    + apply (tinv_send c h t'); auto. unfold maybeSendBatch. cbn [ls_batch inc_read_errors].
      destruct (shouldSend _ _ _); auto. apply sendBatch_cases.
  - unfold age_step.
    set (l := if lc_max_age c <=? Age (ls_batch (h_l h)) t' then sendBatch pf (h_l h) t' else h_l h).
    assert (Tl : tinv c (mkH l (h_reqs h) (h_log h) (h_wake h)) t').
    { apply (tinv_send c h t'); auto. unfold l. destruct (_ <=? _); auto. apply sendBatch_cases. }
    destruct Tl as [T1 T2 T3 T4]. cbn [h_l h_wake] in *.
    constructor; cbn [h_l h_wake]; auto; unfold Age; intros.
    + destruct (Z.leb_spec (b_writes (ls_batch l)) 0); lia.
    + destruct (Z.leb_spec (b_writes (ls_batch l)) 0); [lia|]. specialize (T2 ltac:(lia)). lia.
Qed.

Lemma http_age pf c slack t0 qs : 0 <= lc_max_size c -> 0 <= lc_max_age c -> 0 <= slack -> forall labs now,
  let h := hrun pf c (hinit c t0 qs) labs in
  monotone t0 (labs ++ [(LAge, now)]) -> punctual pf c slack (hinit c t0 qs) (labs ++ [(LAge, now)]) ->
  Age (ls_batch (h_l h)) now <= lc_max_age c + slack.
Proof.
  intros Hc Ha Hs labs now. unfold hrun.
  assert (G : forall labs h t, tinv c h t -> monotone t (labs ++ [(LAge, now)]) ->
     punctual pf c slack h (labs ++ [(LAge, now)]) ->
     Age (ls_batch (h_l (fold_left (hstep pf c) labs h))) now <= lc_max_age c + slack).
  { induction labs0 as [|lab labs0 IH]; intros h t T M P; cbn [fold_left app] in *.
    - destruct M as [M _]. destruct P as [P _]. simpl in P. destruct T as [T1 T2 T3 T4].
      unfold Age. destruct (Z.leb_spec (b_writes (ls_batch (h_l h))) 0); [lia|].
      specialize (T3 ltac:(lia)). lia.
    - destruct lab as [lb t']. destruct M as [M1 M2]. destruct P as [P1 P2].
      apply (IH _ t'); auto. apply (hstep_tinv pf c h (lb, t') t); auto. }
  intros M P. apply (G labs _ t0); auto.
  constructor; unfold hinit, newListener, New, Inv, Size; simpl; lia.
Qed.

(** Limits after a request was handled. *)
Lemma http_limits pf c t0 qs labs i t e : 0 <= lc_max_size c ->
  let h := hrun pf c (hinit c t0 qs) labs in
  nth_error (h_reqs h) i = Some (RMaybe e) ->
  let h' := hstep pf c h (LReq i, t) in
  nth_error (h_reqs h') i = Some (RDone true) /\
  (Bytes (ls_batch (h_l h')) = [] \/
  (Writes (ls_batch (h_l h')) < lc_max_count c /\ Age (ls_batch (h_l h')) t < lc_max_age c /\
   Size (ls_batch (h_l h')) + 65536 < lc_max_size c)).
Proof.
  intros Hc h Hi h'. destruct (hrun_rel pf c t0 qs labs Hc) as [(g & p & A) _ _ _ _ _]. fold h in A.
  unfold h', hstep, req_step. cbn [fst snd]. rewrite Hi. cbn [h_reqs h_l]. split.
  - rewrite nth_set_nth, Nat.eqb_refl, Hi. auto.
  - unfold inc_read_errors. cbn [ls_batch]. unfold maybeSendBatch.
    destruct (shouldSend c (ls_batch (h_l h)) t) eqn:S.
    + left. destruct A as (A1 & A2 & A3 & A4 & A5 & A6 & A7 & A8 & A9).
      destruct (list_eq_dec ascii_dec (b_buf (ls_batch (h_l h))) []) as [E|E].
      * rewrite sendBatch_empty by auto. auto.
      * destruct (sendBatch_full pf (h_l h) t E A8) as (B1 & B2 & _). rewrite B2. auto.
    + right. unfold shouldSend, maxUDPDatagramSize in S.
      destruct (Z.leb_spec (lc_max_count c) (Writes (ls_batch (h_l h)))); [discriminate|].
      destruct (Z.leb_spec (lc_max_age c) (Age (ls_batch (h_l h)) t)); [discriminate|].
      destruct (Z.leb_spec (lc_max_size c - Size (ls_batch (h_l h))) 65536); [discriminate|]. lia.
Qed.

(* ------------------------------------------------------------------ *)
(** * C22: Stop *)

Lemma stop_lost pf c now us : 0 <= lc_max_size c ->
  Forall (fun u => Z.of_nat (length (u_data u)) <= 65536) us ->
  exists sent lost, sent ++ lost = arrived us /\
    concat (ls_pub (udp_run pf c (newListener c now) us)) = concat sent /\
    Z.of_nat (length lost) = Writes (ls_batch (udp_run pf c (newListener c now) us)).
Proof.
  intros Hc F. exists (concat (sp_groups (sp_run c us))), (sp_pend (sp_run c us)).
  split; [apply sp_conserve|]. destruct (udp_reference pf c now us Hc F) as (A & B & C).
  rewrite A, C, flat_split_concat. auto.
Qed.

Lemma stop_after_idle pf c now us u : 0 <= lc_max_size c ->
  Forall (fun u => Z.of_nat (length (u_data u)) <= 65536) (us ++ [u]) ->
  lc_max_age c <= Age (ls_batch (udp_run pf c (newListener c now) us)) (u_t2 u) -> u_data u = [] ->
  Bytes (ls_batch (udp_run pf c (newListener c now) (us ++ [u]))) = [] /\
  concat (ls_pub (udp_run pf c (newListener c now) (us ++ [u]))) = concat (arrived us).
Proof.
  intros Hc F Ag Ud. pose proof (udp_conservation pf c now (us ++ [u]) Hc F) as Cn.
  assert (E : Bytes (ls_batch (udp_run pf c (newListener c now) (us ++ [u]))) = []).
  { apply Forall_app in F as F2. destruct F2 as [F2 _].
    destruct (udp_run_rel pf c now us Hc F2) as ((I & Cp & B & W & Fi & Ne & Sz & Pb & Sn & Fl) & _).
    unfold udp_run. rewrite fold_left_app. cbn [fold_left]. fold (udp_run pf c (newListener c now) us).
    set (s := udp_run pf c (newListener c now) us) in *.
    unfold udp_step, ReadOnceFrom. rewrite Ud, firstn_nil. cbv beta iota zeta.
    destruct (growIfLow_same (ls_batch s) I) as (I1 & B1 & W1 & C1 & Cp1).
    unfold maybeSendBatch.
    set (s2 := mkL _ _ _ _ _ _).
    assert (SS : shouldSend c (ls_batch s2) (u_t2 u) = true).
    { unfold shouldSend. replace (Age (ls_batch s2) (u_t2 u)) with (Age (ls_batch s) (u_t2 u))
        by (unfold Age, s2; cbn [ls_batch]; rewrite W1, C1; auto).
      destruct (_ <=? Writes _); auto. replace (lc_max_age c <=? Age (ls_batch s) (u_t2 u)) with true by lia. auto. }
    rewrite SS. destruct (list_eq_dec ascii_dec (b_buf (ls_batch s2)) []) as [E|E].
    - rewrite sendBatch_empty by auto. exact E.
    - destruct (sendBatch_full pf s2 (u_t3 u) E Fl) as (_ & A2 & _). rewrite A2. auto. }
  split; auto. cbv zeta in Cn. rewrite E, app_nil_r in Cn. rewrite Cn.
  unfold arrived. rewrite map_app, filter_app, map_app. simpl. rewrite Ud. simpl. rewrite app_nil_r. auto.
Qed.
