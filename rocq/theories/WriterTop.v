From Verif Require Import Base Text LinesSpec Batch BatchProofs Splitter SplitterProofs Rules RulesSpec RulesProofs Retry RetrySpec RetryProofs RetryMain Writer WriterSpec WriterProofs WriterMain.
Local Open Scope Z_scope.

Section Top.
  Variable c : wcfg.
  Hypothesis Hsize : (1 <= wc_size c)%nat.
  Notation rs := (wc_rules c).
  Notation retrying := (0 <? wc_retry c).
  Notation micro := (micro c).
  Notation micros := (micros c).

  Lemma all_run cap now ls s tr : 0 <= cap -> wrun c (newWorker cap now) ls = Some (s, tr) ->
    winv c s tr /\ rinv c now s tr /\ cinv c s tr.
  Proof.
    intros Hc H. apply (run_micros c Hsize) in H. remember (newWorker cap now) as s0.
    induction H as [s|s tr s1 o s2 H IHmicros M]; subst.
    - split; [apply winv_new; auto|]. split; [apply rinv_new|]. constructor; [reflexivity|reflexivity|reflexivity|split; [cbn; lia|]; exists 0; cbn; split; [lia|]; split; lia|split; [cbn; lia|]; exists 0; cbn; split; [lia|]; split; lia].
    - destruct IHmicros as (W & R & C); auto. split; [|split]; [eapply winv_micro|eapply rinv_micro|eapply cinv_micro]; eassumption.
  Qed.

  (* -------------------------------------------------------------- *)
  (** * The retry goroutine inside the pair *)
  Lemma failures_nodup s tr : winv c s tr -> NoDup (failures tr).
  Proof.
    intros W. pose proof (wi_n _ _ _ W) as N. pose proof (seq_NoDup (w_n s) 0) as D. rewrite <- N in D.
    unfold failures. clear -D. induction (posts tr) as [|p l IH]; cbn; [constructor|]. inversion D; subst.
    destruct (negb (ok (snd p))); auto. cbn. constructor; auto. intros J. apply in_map_iff in J. destruct J as (q & E & J). apply filter_In in J.
    apply H1. apply in_map_iff. exists q. split; [exact (f_equal fst E)|tauto].
  Qed.

  Lemma added_nodup now s tr : winv c s tr -> rinv c now s tr -> retrying = true -> NoDup (added (retries tr)).
  Proof.
    intros W R Hr. pose proof (failures_nodup _ _ W) as N. rewrite (ri_fifo _ _ _ _ R Hr) in N. apply nodup_app_inv in N. tauto.
  Qed.

  Lemma retry_trace (P : list (robs chunk) -> Prop) cap now ls s tr : 0 <= cap -> wrun c (newWorker cap now) ls = Some (s, tr) ->
    P [] -> (forall s' l, 1 <= wc_retry c -> reach chunk (wc_retry c) (wc_ttl c) (wc_interval c) now s' l -> NoDup (added l) -> P l) -> P (retries tr).
  Proof.
    intros Hc H P0 HP. destruct (all_run _ _ _ _ _ Hc H) as (W & R & _). destruct retrying eqn:Hr.
    - destruct (ri_reach _ _ _ _ R Hr) as (w & e & Re). eapply HP; eauto; [lia|]. eapply added_nodup; eauto.
    - destruct (ri_off _ _ _ _ R Hr) as (-> & _). auto.
  Qed.

  Lemma pair_bounded cap now ls s tr : 0 <= cap -> 0 <= wc_retry c -> wrun c (newWorker cap now) ls = Some (s, tr) ->
    Z.of_nat (length (r_q (w_retry s))) <= wc_retry c.
  Proof.
    intros Hc Hn H. destruct (all_run _ _ _ _ _ Hc H) as (W & R & _). destruct retrying eqn:Hr.
    - destruct (ri_reach _ _ _ _ R Hr) as (w & e & Re). assert (Hm : 1 <= wc_retry c) by lia.
      exact (iv_len _ _ _ _ _ _ (reach_inv _ _ _ _ Hm _ _ _ Re)).
    - assert (Q : r_q (w_retry s) = []); [|rewrite Q; cbn; lia].
      apply (run_micros c Hsize) in H. remember (newWorker cap now) as s0. clear -H Heqs0 Hr. induction H; subst; auto.
      specialize (IHmicros eq_refl). destruct H0; subst; rewrite ?continue_retry; cbn [w_retry set_retry r_q]; auto; congruence.
  Qed.

  Lemma pair_conservation cap now ls s tr : 0 <= cap -> 1 <= wc_retry c -> wrun c (newWorker cap now) ls = Some (s, tr) ->
    Permutation (failures tr)
      (buf (r_q (w_retry s)) ++ passing s ++ delivered (retries tr) ++ rejected (retries tr) ++ expired (retries tr) ++ evicted (retries tr)) /\
    failures tr = added (retries tr) ++ passing s /\ NoDup (failures tr).
  Proof.
    intros Hc Hr H. destruct (all_run _ _ _ _ _ Hc H) as (W & R & _). assert (Hr' : retrying = true) by lia.
    destruct (ri_reach _ _ _ _ R Hr') as (w & e & Re). pose proof (reach_inv _ _ _ _ Hr _ _ _ Re) as I.
    pose proof (ri_fifo _ _ _ _ R Hr') as F. split; [|split; [auto|eapply failures_nodup; eauto]].
    rewrite F. rewrite (iv_perm _ _ _ _ _ _ I). cbn [with_reports r_q]. unfold gone, buf. rewrite <- app_assoc. apply Permutation_app_head. apply Permutation_app_comm.
  Qed.

  (** Without retrying the failed chunks are just gone; no attempt is ever made. *)
  Lemma pair_off cap now ls s tr : 0 <= cap -> wc_retry c <= 0 -> wrun c (newWorker cap now) ls = Some (s, tr) -> retries tr = [] /\ passing s = [].
  Proof.
    intros Hc Hr H. destruct (all_run _ _ _ _ _ Hc H) as (W & R & _). assert (Hr' : retrying = false) by lia.
    destruct (ri_off _ _ _ _ R Hr') as (E & E1 & E2). split; auto. unfold passing. rewrite E1. destruct (w_pc s); auto. destruct E2.
  Qed.

  (* -------------------------------------------------------------- *)
  (** * Pending data *)
  Lemma after_send_app tr o : existsb is_send o = false -> after_send (tr ++ o) = after_send tr ++ o.
  Proof.
    intros N. induction tr as [|x tr IH]; cbn [app after_send].
    - destruct o as [|y o]; auto. cbn [existsb] in N. apply orb_false_elim in N. destruct N as [N1 N2]. cbn [after_send]. rewrite N2, N1. auto.
    - rewrite existsb_app, N, orb_false_r. destruct (existsb is_send tr); auto. destruct (is_send x); auto.
  Qed.
  Lemma after_send_last tr : after_send (tr ++ [VSend]) = [].
  Proof.
    induction tr as [|x tr IH]; auto. cbn [app after_send]. rewrite existsb_app. cbn [existsb is_send orb]. rewrite orb_true_r. auto.
  Qed.
  Lemma vretry_send o : existsb is_send (map VRetry o) = false. Proof. induction o; auto. Qed.

  Record pinv (s : wst) (tr : list wobs) : Prop := mkPI {
    pi_idle : idle s = true -> brep (w_batch s) (timed_writes rs (after_send tr));
    pi_busy : idle s = false -> messages (after_send tr) = [];
    pi_inv : Inv (w_batch s) }.

  Lemma pinv_silent s tr s' o : pinv s tr -> messages o = [] -> existsb is_send o = false -> w_batch s' = w_batch s -> idle s' = idle s -> pinv s' (tr ++ o).
  Proof.
    intros [P1 P2 P3] M N B I. constructor.
    - rewrite I, B, after_send_app by auto. intros J. rewrite timed_app. replace (timed_writes rs o) with (@nil (Z * bytes)); [rewrite app_nil_r; auto|].
      unfold timed_writes. rewrite M. auto.
    - rewrite I, after_send_app by auto. intros J. rewrite messages_app, M, P2 by auto. auto.
    - rewrite B. auto.
  Qed.

  Lemma reset_empty b t : Inv b -> brep (Reset b t) [].
  Proof. intros (I1 & I2 & I3). unfold brep, Reset, Inv, Size; cbn. repeat split; auto; lia. Qed.

  Lemma pinv_continue s rest t tr o : messages (after_send (tr ++ o)) = [] -> Inv (w_batch s) -> pinv (continue s rest t) (tr ++ o).
  Proof.
    intros M I. constructor.
    - intros J. unfold timed_writes. rewrite M. cbn [flat_map]. destruct rest; [apply reset_empty; auto|discriminate].
    - auto.
    - destruct rest; cbn [continue w_batch]; [apply reset_empty|]; auto.
  Qed.

  Lemma pinv_micro s tr o s' : pinv s tr -> micro s o s' -> pinv s' (tr ++ o).
  Proof.
    intros I M. destruct M as [s t d P|s r P -> L|s r P -> L|s t P Hs|s t P Hs|s ch rest r t P Ho|s ch rest r P Ho Hr|s a rest t P Hc|s|s P Hc|s P Hc|s t t' a r o Hr Hc E|s l r o Hr Hi Hst E].
    - destruct I as [P1 P2 P3]. assert (Hi : idle s = true) by (unfold idle; rewrite P; auto).
      pose proof (brep_batchAppend rs _ _ d t (P1 Hi)) as B.
      assert (T : timed_writes rs (after_send (tr ++ [VMsg t d])) = timed_writes rs (after_send tr) ++ map (fun x => (t, x)) (writes_of rs d)).
      { rewrite after_send_app by auto. rewrite timed_app. f_equal. unfold timed_writes. cbn [messages flat_map app fst snd]. rewrite app_nil_r. auto. }
      constructor; cbn [w_batch]; [intros _; rewrite T; auto|discriminate|apply B].
    - eapply pinv_silent; eauto. unfold idle. rewrite P. auto.
    - eapply pinv_silent; eauto. unfold idle. rewrite P. auto.
    - eapply pinv_silent; eauto.
    - apply pinv_continue; [|exact (pi_inv _ _ I)]. change [VWake t; VSend] with ([VWake t] ++ [VSend]). rewrite app_assoc, after_send_last. auto.
    - apply pinv_continue; [|exact (pi_inv _ _ I)]. rewrite after_send_app, messages_app by auto. rewrite (pi_busy _ _ I); [auto|]. unfold idle. rewrite P. auto.
    - eapply pinv_silent; eauto. unfold idle. rewrite P. auto.
    - apply pinv_continue; [|exact (pi_inv _ _ I)]. rewrite after_send_app, messages_app by auto. rewrite (pi_busy _ _ I); [auto|]. unfold idle. rewrite P. auto.
    - eapply pinv_silent; eauto.
    - eapply pinv_silent; eauto. unfold idle. rewrite P. cbn. destruct retrying; auto.
    - eapply pinv_silent; eauto. unfold idle. rewrite P. auto.
    - eapply pinv_silent; eauto; [apply vretry_msgs|apply vretry_send].
    - eapply pinv_silent; eauto; [apply vretry_msgs|apply vretry_send].
  Qed.

  Definition awake (s : wst) (tr : list wobs) : Prop :=
    idle s = true -> 0 < b_writes (w_batch s) -> exists tw, last_wake tr tw /\ shouldSend c (w_batch s) tw = false.

  Lemma last_wake_app tr o t : last_wake tr t -> (forall t', ~ In (VWake t') o) -> last_wake (tr ++ o) t.
  Proof.
    intros (l1 & l2 & -> & N) No. exists l1, (l2 ++ o). rewrite <- app_assoc. split; auto. intros t' J. apply in_app_or in J. destruct J; firstorder.
  Qed.

  Lemma awake_silent s tr s' o : awake s tr -> w_batch s' = w_batch s -> idle s' = idle s -> (forall t', ~ In (VWake t') o) -> awake s' (tr ++ o).
  Proof.
    intros A B I N. unfold awake. rewrite B, I. intros H1 H2. destruct (A H1 H2) as (tw & L & Sh). exists tw. split; auto. apply last_wake_app; auto.
  Qed.

  Lemma awake_check s t s' o tr pre : w_pc s = WIdle -> check c s t = (s', o) -> awake s' (tr ++ pre ++ o).
  Proof.
    intros P H. unfold check in H. destruct (shouldSend c (w_batch s) t) eqn:E; inversion H; subst; clear H.
    - intros Hi Hw. destruct (split_all _ _); [cbn in Hw; lia|discriminate].
    - intros _ _. exists t. split; auto. exists (tr ++ pre), []. rewrite app_assoc. split; auto.
  Qed.

  Lemma awake_continue s rest t tr : awake (continue s rest t) tr.
  Proof. intros Hi Hw. destruct rest; [cbn in Hw; lia|discriminate]. Qed.

  Lemma vretry_wake o t : ~ In (VWake t) (map VRetry o).
  Proof. intros J. apply in_map_iff in J. destruct J as (? & ? & _). discriminate. Qed.

  Lemma awake_step s tr l s' o : awake s tr -> wstep c s l = Some (s', o) -> awake s' (tr ++ o).
  Proof.
    intros A H. destruct l as [t t' data|t'|t'|t'|r t|t| | | |t t'|l'].
    1-6,8,9: unfold wstep in H; destruct (w_pc s) eqn:P; try discriminate.
    - destruct (check c _ t') as [s1 o1] eqn:E. inversion H; subst. change (VMsg t data :: o1) with ([VMsg t data] ++ o1). eapply awake_check; [|eauto]; auto.
    - destruct (0 <? r_writes (w_retry s)) eqn:L; [|discriminate]. destruct (check c _ t') as [s1 o1] eqn:E. inversion H; subst.
      change (VTookWrite :: o1) with ([VTookWrite] ++ o1). eapply awake_check; [|eauto]; auto.
    - destruct (0 <? r_errs (w_retry s)) eqn:L; [|discriminate]. destruct (check c _ t') as [s1 o1] eqn:E. inversion H; subst.
      change (VTookErr :: o1) with ([VTookErr] ++ o1). eapply awake_check; [|eauto]; auto.
    - inversion H as [H1]. rewrite <- (app_nil_l o). eapply awake_check; eauto.
    - destruct rest as [|ch rest]; [discriminate|]. destruct (match Write r with WOk => true | _ => false end || negb retrying); inversion H; subst; clear H.
      + apply awake_continue.
      + intros Hi. discriminate.
    - destruct (w_chan s) eqn:E; [discriminate|]. inversion H; subst. apply awake_continue.
    - destruct (w_closed s) eqn:E; [|discriminate]. inversion H; subst. eapply awake_silent; eauto. unfold idle. rewrite P. cbn. destruct retrying; auto.
    - destruct (r_ph (w_retry s)) eqn:E; try discriminate. inversion H; subst. eapply awake_silent; eauto. unfold idle. rewrite P. auto.
    - cbn in H. inversion H; subst. eapply awake_silent; eauto.
    - unfold wstep in H. assert (H' : exists o1 r, o = map VRetry o1 /\ s' = set_retry s None r).
      { destruct retrying; destruct (w_pc s); try discriminate; destruct (w_chan s); try discriminate; destruct (retry_step c _ _) as [[r o1]|]; try discriminate; inversion H; subst; eauto. }
      destruct H' as (o1 & r & -> & ->). eapply awake_silent; eauto. intros. apply vretry_wake.
    - assert (H' : exists o1 r, o = map VRetry o1 /\ s' = set_retry s (w_chan s) r).
      { cbn in H. destruct (_ && _); try discriminate; destruct (retry_step c _ _) as [[r o1]|]; try discriminate; inversion H; subst; eauto. }
      destruct H' as (o1 & r & -> & ->). eapply awake_silent; eauto. intros. apply vretry_wake.
  Qed.

  Lemma awake_run ls : forall s tr s' tr', awake s tr -> wrun c s ls = Some (s', tr') -> awake s' (tr ++ tr').
  Proof.
    induction ls as [|l ls IH]; intros s tr s' tr' A H; cbn [wrun] in H.
    - inversion H; subst. rewrite app_nil_r. auto.
    - destruct (wstep c s l) as [[s1 o1]|] eqn:E; [|discriminate]. destruct (wrun c s1 ls) as [[s2 o2]|] eqn:E2; [|discriminate]. inversion H; subst.
      rewrite app_assoc. eapply IH; eauto. eapply awake_step; eauto.
  Qed.

  Lemma pinv_run cap now ls s tr : 0 <= cap -> wrun c (newWorker cap now) ls = Some (s, tr) -> pinv s tr /\ awake s tr.
  Proof.
    intros Hc H. split.
    - apply (run_micros c Hsize) in H. remember (newWorker cap now) as s0. induction H; subst; [|eapply pinv_micro; eauto].
      constructor; cbn; auto; try discriminate; try (intros; repeat split; cbn; auto; lia); apply Inv_New; auto.
    - change tr with ([] ++ tr). eapply awake_run; eauto. intros _ X. cbn in X. lia.
  Qed.

  (** What an idle worker holds: the writes since the last flush, few, small and, when it last looked, young. *)
  Lemma pending_bound cap now ls s tr : 0 <= cap -> 1 <= wc_count c -> wrun c (newWorker cap now) ls = Some (s, tr) -> w_pc s = WIdle ->
    let pw := timed_writes rs (after_send tr) in
    held s = concat (map snd pw) /\
    (pw = [] \/ Z.of_nat (length pw) < wc_count c /\ (length (held s) < wc_size c)%nat /\
       exists tw, last_wake tr tw /\ forall t0 d pw', pw = (t0, d) :: pw' -> tw - t0 < wc_age c).
  Proof.
    intros Hc Hcount H P pw. destruct (pinv_run _ _ _ _ _ Hc H) as [I A]. assert (Hi : idle s = true) by (unfold idle; rewrite P; auto).
    destruct (pi_idle _ _ I Hi) as (Iv & Bb & Bw & Bc). fold pw in Bb, Bw, Bc.
    assert (Hh : held s = b_buf (w_batch s)) by (unfold held; rewrite P; auto). split; [congruence|].
    destruct pw as [|[t0 d0] pw'] eqn:Ep; [auto|]. right. assert (Hw : 0 < b_writes (w_batch s)) by (rewrite Bw; cbn [length]; lia).
    destruct (A Hi Hw) as (tw & L & Sh). unfold shouldSend in Sh. apply orb_false_elim in Sh. destruct Sh as [Sh S3]. apply orb_false_elim in Sh. destruct Sh as [S1 S2].
    unfold Writes in S1. unfold Size in S2. unfold Age in S3. rewrite Hh. split; [lia|]. split; [lia|]. exists tw. split; auto.
    intros t1 d1 pw1 E. inversion E; subst. replace (b_writes (w_batch s) <=? 0) with false in S3 by lia. lia.
  Qed.

  (* -------------------------------------------------------------- *)
  (** * Progress *)
  Definition live (s : wst) : Prop := r_ph (w_retry s) = RStopped -> w_pc s = WStopping \/ w_pc s = WStopped.
  Definition okstate (s : wst) : Prop :=
    live s /\ (retrying = false -> w_chan s = None /\ match w_pc s with WHand _ _ | WStopping => False | _ => True end) /\
    match w_pc s with WSend [] => False | _ => True end.

  Lemma ok_run cap now ls s tr : 0 <= cap -> wrun c (newWorker cap now) ls = Some (s, tr) -> okstate s.
  Proof.
    intros Hc H. destruct (all_run _ _ _ _ _ Hc H) as (W & R & _). split; [exact (ri_stop _ _ _ _ R)|]. split; [|exact (wi_rest _ _ _ W)].
    intros Hr. destruct (ri_off _ _ _ _ R Hr) as (_ & E1 & E2). auto.
  Qed.

  Lemma wstep_end s t r a : retrying = true -> r_ph (w_retry s) = RWriting a -> r_now (w_retry s) <= t ->
    exists s', wstep c s (PRetry (LEnd t (Write r))) = Some (s', [VRetry (OEnd t a (Write r))]) /\
      r_ph (w_retry s') = RIdle /\ w_chan s' = w_chan s /\ w_pc s' = w_pc s /\ w_closed s' = w_closed s.
  Proof.
    intros Hr Hp L. cbn. rewrite Hr. cbn. unfold retry_step, rstep. rewrite Hp. replace (r_now (w_retry s) <=? t) with true by lia.
    eexists. split; [reflexivity|]. auto.
  Qed.

  Lemma wstep_in s t t' a : retrying = true -> r_ph (w_retry s) = RIdle -> w_chan s = Some a -> r_now (w_retry s) <= t -> t <= t' ->
    exists s' o, wstep c s (PIn t t') = Some (s', o) /\
      r_ph (w_retry s') = RIdle /\ w_chan s' = None /\ w_pc s' = w_pc s /\ w_closed s' = w_closed s.
  Proof.
    intros Hr Hp Hc L L'. unfold wstep. rewrite Hr, Hc. unfold retry_step, rstep. rewrite Hp. replace ((r_now (w_retry s) <=? t) && (t <=? t')) with true by lia.
    destruct (qAdd _ _ _ _ _) as [q ev]. destruct (w_pc s) eqn:P; do 2 eexists; (split; [reflexivity|]); cbn; rewrite ?P; auto.
  Qed.

  Lemma wstep_hand s t a rest : w_pc s = WHand a rest -> w_chan s = None ->
    exists s', wstep c s (PHand t) = Some (s', [VHand a]) /\ w_pc s' = (match rest with [] => WIdle | _ => WSend rest end) /\ w_retry s' = w_retry s /\ w_chan s' = Some a.
  Proof.
    intros P Hc. unfold wstep. rewrite P, Hc. eexists. split; [reflexivity|]. rewrite continue_pc, continue_retry, continue_chan. auto.
  Qed.

  Lemma forced_S goal n : forall s, forced c goal n s -> forced c goal (S n) s.
  Proof.
    induction n as [|n IH]; intros s H; [left; auto|].
    destruct H as [H|[H|[H|[H|[H|H]]]]]; [left; auto|right; left|right; right; left|do 3 right; left|do 4 right; left|do 5 right].
    - intros r t. destruct (H r t) as (s' & o & E & X). eauto.
    - intros r t L. destruct (H r t L) as (s' & o & E & X). eauto.
    - intros t t' L L'. destruct (H t t' L L') as (s' & o & E & X). eauto.
    - intros t. destruct (H t) as (s' & o & E & X). eauto.
    - destruct H as (l & s' & o & J & E & X). exists l, s', o. auto.
  Qed.
  Lemma forced_le goal n m s : (n <= m)%nat -> forced c goal n s -> forced c goal m s.
  Proof. intros L. induction L; auto. intros H. apply forced_S. auto. Qed.
  Lemma forced_goal (goal : wst -> Prop) n s : goal s -> forced c goal n s.
  Proof. intros. destruct n; [|left]; auto. Qed.
  Lemma forced_trans (g1 g2 : wst -> Prop) n m : (forall s, g1 s -> forced c g2 m s) -> forall s, forced c g1 n s -> forced c g2 (n + m) s.
  Proof.
    intros K. induction n as [|n IH]; intros s H; [apply K; auto|].
    destruct H as [H|[H|[H|[H|[H|H]]]]]; [apply (forced_le _ m); [lia|auto]|right; left|right; right; left|do 3 right; left|do 4 right; left|do 5 right].
    - intros r t. destruct (H r t) as (s' & o & E & X). eauto.
    - intros r t L. destruct (H r t L) as (s' & o & E & X). eauto.
    - intros t t' L L'. destruct (H t t' L L') as (s' & o & E & X). eauto.
    - intros t. destruct (H t) as (s' & o & E & X). eauto.
    - destruct H as (l & s' & o & J & E & X). exists l, s', o. auto.
  Qed.

  (** The channel can be drained in two moves. *)
  Lemma drain s : live s -> w_pc s <> WStopping -> w_pc s <> WStopped -> retrying = true ->
    forced c (fun s' => w_pc s' = w_pc s /\ w_chan s' = None /\ w_closed s' = w_closed s /\ live s') 2 s.
  Proof.
    intros Lv N1 N2 Hr. destruct (w_chan s) as [a|] eqn:Hc; [|left; auto].
    assert (Idle : forall s1, r_ph (w_retry s1) = RIdle -> w_chan s1 = Some a -> w_pc s1 = w_pc s -> w_closed s1 = w_closed s ->
      forced c (fun s' => w_pc s' = w_pc s /\ w_chan s' = None /\ w_closed s' = w_closed s /\ live s') 1 s1).
    { intros s1 H1 H2 H3 H4. do 3 right. left. intros t t' L L'. destruct (wstep_in s1 t t' a Hr H1 H2 L L') as (s' & o & E & E1 & E2 & E3 & E4).
      exists s', o. split; auto. split; [congruence|]. split; auto. split; [congruence|]. intros X. congruence. }
    destruct (r_ph (w_retry s)) as [|a'|] eqn:Hp.
    - apply forced_S. apply Idle; auto.
    - right. right. left. intros r t L. destruct (wstep_end s t r a' Hr Hp L) as (s' & E & E1 & E2 & E3 & E4).
      eexists s', _. split; [exact E|]. apply Idle; congruence.
    - destruct (Lv Hp); contradiction.
  Qed.

  (** A hand-over completes. *)
  Lemma handover s a rest : okstate s -> w_pc s = WHand a rest ->
    forced c (fun s' => okstate s' /\ w_pc s' = match rest with [] => WIdle | _ => WSend rest end /\ w_closed s' = w_closed s) 3 s.
  Proof.
    intros (Lv & Off & _) P. destruct retrying eqn:Hr; [|destruct (Off eq_refl) as [_ X]; rewrite P in X; destruct X].
    change 3%nat with (2 + 1)%nat. eapply forced_trans; [|apply drain; auto; rewrite P; discriminate].
    intros s1 (P1 & C1 & Cl & L1). rewrite P in P1. do 4 right. left. intros t.
    destruct (wstep_hand s1 t a rest P1 C1) as (s' & E & Q1 & Q2 & Q3). eexists s', _. split; [exact E|].
    split; [|split; auto].
    - split; [|split; [congruence|rewrite Q1; destruct rest; auto]]. intros X. rewrite Q2 in X. apply L1 in X. rewrite P1 in X. destruct X; discriminate.
    - clear -E P1 C1 Cl. unfold wstep in E. rewrite P1, C1 in E. inversion E; subst. destruct rest; auto.
  Qed.

  (** The chunks left can be dealt with: four moves each. *)
  Lemma flush_out rest : forall s, okstate s -> w_pc s = match rest with [] => WIdle | _ => WSend rest end ->
    forced c (fun s' => okstate s' /\ w_pc s' = WIdle) (4 * length rest) s.
  Proof.
    induction rest as [|ch rest IH]; intros s Ok P; [apply forced_goal; auto|].
    replace (4 * length (ch :: rest))%nat with (S (3 + 4 * length rest)) by (cbn; lia).
    right. left. intros r t. destruct Ok as (Lv & Off & Rest). unfold wstep. rewrite P.
    destruct (match Write r with WOk => true | _ => false end || negb retrying) eqn:E; do 2 eexists; (split; [reflexivity|]).
    - apply (forced_le _ (4 * length rest)); [lia|]. apply IH; [|apply continue_pc].
      split; [|split].
      + intros X. rewrite continue_retry in X. apply Lv in X. rewrite P in X. destruct X; discriminate.
      + intros Hr. rewrite continue_chan, continue_pc. cbn. destruct (Off Hr). split; auto. destruct rest; auto.
      + rewrite continue_pc. destruct rest; auto.
    - eapply forced_trans; [|eapply handover; [|cbn; reflexivity]].
      + intros s1 (Ok1 & P1 & _). apply IH; auto.
      + apply orb_false_elim in E. destruct E as [_ E]. apply negb_false_iff in E. split; [|split; [congruence|cbn; auto]].
        intros X. apply Lv in X. rewrite P in X. destruct X; discriminate.
  Qed.

  Lemma to_idle s : okstate s -> w_pc s <> WStopping -> w_pc s <> WStopped ->
    forced c (fun s' => okstate s' /\ w_pc s' = WIdle) (3 + 4 * length (remaining s)) s.
  Proof.
    intros Ok N1 N2. unfold remaining. destruct (w_pc s) eqn:P; try congruence.
    - apply forced_goal. auto.
    - apply (forced_le _ (4 * length rest)); [lia|]. apply flush_out; auto. rewrite P. destruct Ok as (_ & _ & X). rewrite P in X. destruct rest; auto; destruct X.
    - eapply forced_trans; [|eapply handover; eauto]. intros s1 (Ok1 & P1 & _). apply flush_out; auto.
  Qed.

  Lemma stopping s : okstate s -> w_pc s = WStopping -> forced c (fun s' => w_pc s' = WStopped) 3 s.
  Proof.
    intros (Lv & Off & _) P. destruct retrying eqn:Hr; [|destruct (Off eq_refl) as [_ X]; rewrite P in X; destruct X].
    assert (Done : forall s1, w_pc s1 = WStopping -> r_ph (w_retry s1) = RStopped -> forced c (fun s' => w_pc s' = WStopped) 1 s1).
    { intros s1 P1 H1. do 5 right. exists PDone. do 2 eexists. split; [cbn; auto|]. split; [unfold wstep; rewrite P1, H1; reflexivity|reflexivity]. }
    assert (Idle : forall s1, w_pc s1 = WStopping -> r_ph (w_retry s1) = RIdle -> forced c (fun s' => w_pc s' = WStopped) 2 s1).
    { intros s1 P1 H1. do 5 right. exists (PRetry LStop). do 2 eexists. split; [cbn; auto|]. split.
      - unfold wstep. rewrite P1, Hr. cbn [is_in is_stop negb andb orb]. unfold retry_step, rstep. rewrite H1. reflexivity.
      - apply Done; auto. }
    destruct (r_ph (w_retry s)) as [|a|] eqn:Hp.
    - apply forced_S. auto.
    - right. right. left. intros r t L. destruct (wstep_end s t r a Hr Hp L) as (s' & E & E1 & E2 & E3 & E4). eexists s', _. split; [exact E|]. apply Idle; congruence.
    - apply (forced_le _ 1); [lia|]. auto.
  Qed.

  Lemma can_stop cap now ls s tr : 0 <= cap -> wrun c (newWorker cap now) ls = Some (s, tr) ->
    forced c (fun s' => w_pc s' = WStopped) (8 + 4 * length (remaining s)) s.
  Proof.
    intros Hc H. pose proof (ok_run _ _ _ _ _ Hc H) as Ok.
    assert (D : w_pc s = WStopped \/ w_pc s = WStopping \/ (w_pc s <> WStopping /\ w_pc s <> WStopped)) by (destruct (w_pc s); auto; right; right; split; discriminate).
    destruct D as [P|[P|[N1 N2]]]; [apply forced_goal; auto|apply (forced_le _ 3); [lia|]; apply stopping; auto|].
    replace (8 + 4 * length (remaining s))%nat with ((3 + 4 * length (remaining s)) + 5)%nat by lia.
    eapply forced_trans; [|apply to_idle; auto]. intros s1 (Ok1 & P1). destruct Ok1 as (Lv1 & Off1 & Re1).
    do 5 right. exists PClose. do 2 eexists. split; [cbn; auto|]. split; [cbn; reflexivity|].
    do 5 right. exists PStop. do 2 eexists. split; [cbn; auto|]. split; [unfold wstep; cbn [w_pc w_closed]; rewrite P1; reflexivity|].
    cbn [w_batch w_chan w_retry w_received w_requests w_failed w_n]. destruct retrying eqn:Hr; [|left; auto].
    apply stopping; auto. split; [|split; [congruence|cbn; auto]]. intros X. cbn in X. apply Lv1 in X. rewrite P1 in X. destruct X; discriminate.
  Qed.

  Lemma can_hand cap now ls s tr a rest : 0 <= cap -> wrun c (newWorker cap now) ls = Some (s, tr) -> w_pc s = WHand a rest ->
    forced c (fun s' => w_pc s' = match rest with [] => WIdle | _ => WSend rest end) 3 s.
  Proof.
    intros Hc H P. pose proof (ok_run _ _ _ _ _ Hc H) as Ok. replace 3%nat with (3 + 0)%nat by lia.
    eapply forced_trans; [|eapply handover; eauto]. intros s1 (_ & P1 & _). auto.
  Qed.

  (** While the worker is not finished it is never stuck without the database being involved. *)
  Lemma can_move cap now ls s tr : 0 <= cap -> wrun c (newWorker cap now) ls = Some (s, tr) -> w_pc s <> WStopped ->
    exists l s' o, l <> PClose /\ wstep c s l = Some (s', o).
  Proof.
    intros Hc H N. pose proof (ok_run _ _ _ _ _ Hc H) as (Lv & Off & Re). destruct (w_pc s) as [|rest|a rest| |] eqn:P; try congruence.
    - exists (PTick 0). unfold wstep. rewrite P. destruct (check c s 0) as [s' o]. exists s', o. split; [discriminate|auto].
    - destruct rest as [|ch rest]; [destruct Re|]. exists (PPost NoResponse 0). unfold wstep. rewrite P. destruct (_ || _); do 2 eexists; (split; [discriminate|reflexivity]).
    - destruct retrying eqn:Hr; [|destruct (Off eq_refl) as [_ X]; destruct X].
      destruct (w_chan s) as [x|] eqn:Hch; [|destruct (wstep_hand s 0 a rest P Hch) as (s' & E & _); exists (PHand 0), s', [VHand a]; split; [discriminate|auto]].
      destruct (r_ph (w_retry s)) as [|y|] eqn:Hp.
      + destruct (wstep_in s _ _ x Hr Hp Hch (Z.le_refl _) (Z.le_refl _)) as (s' & o & E & _). do 3 eexists. split; [|exact E]. discriminate.
      + destruct (wstep_end s _ NoResponse y Hr Hp (Z.le_refl _)) as (s' & E & _). do 3 eexists. split; [|exact E]. discriminate.
      + destruct (Lv Hp); congruence.
    - destruct retrying eqn:Hr; [|destruct (Off eq_refl) as [_ X]; destruct X].
      destruct (r_ph (w_retry s)) as [|y|] eqn:Hp.
      + exists (PRetry LStop). unfold wstep. rewrite P, Hr. cbn [is_in is_stop negb andb orb]. unfold retry_step, rstep. rewrite Hp. do 2 eexists. split; [discriminate|reflexivity].
      + destruct (wstep_end s _ NoResponse y Hr Hp (Z.le_refl _)) as (s' & E & _). do 3 eexists. split; [|exact E]. discriminate.
      + exists PDone. unfold wstep. rewrite P, Hp. do 2 eexists. split; [discriminate|reflexivity].
  Qed.

  (* -------------------------------------------------------------- *)
  (** * Statements about runs *)
  Lemma no_split {X} (l1 : list X) x l2 : [] = l1 ++ x :: l2 -> False. Proof. destruct l1; discriminate. Qed.

  Lemma pair_timed cap now ls s tr : 0 <= cap -> wrun c (newWorker cap now) ls = Some (s, tr) -> well_timed (wc_ttl c) (wc_interval c) (retries tr).
  Proof.
    intros Hc H. eapply retry_trace; eauto.
    - split; [intros l1 t a l2 E; destruct (no_split _ _ _ E)|intros t a []].
    - intros s' l Hm R _. eapply timed; eauto.
  Qed.

  Lemma pair_evicts cap now ls s tr : 0 <= cap -> wrun c (newWorker cap now) ls = Some (s, tr) -> evicts_oldest (wc_retry c) (retries tr).
  Proof.
    intros Hc H. eapply retry_trace; eauto.
    - intros l1 a l2 E; destruct (no_split _ _ _ E).
    - intros s' l Hm R N. eapply evict_history; eauto.
  Qed.

  Lemma pair_fair cap now ls s tr : 0 <= cap -> wrun c (newWorker cap now) ls = Some (s, tr) -> fair_turns (retries tr).
  Proof.
    intros Hc H. eapply retry_trace; eauto.
    - intros l1 t1 a l2 t2 l3 b E; destruct (no_split _ _ _ E).
    - intros s' l Hm R N. eapply fair; eauto.
  Qed.

  Lemma pair_final cap now ls s tr : 0 <= cap -> wrun c (newWorker cap now) ls = Some (s, tr) ->
    final (retries tr) /\ forall a, In a (added (retries tr)) -> In a (failures tr).
  Proof.
    intros Hc H. split.
    - eapply retry_trace; eauto.
      + intros l1 t a l2 E; destruct (no_split _ _ _ E).
      + intros s' l Hm R N. eapply never_attempted; eauto.
    - destruct (all_run _ _ _ _ _ Hc H) as (W & R & _). intros a J. destruct retrying eqn:Hr.
      + rewrite (ri_fifo _ _ _ _ R Hr). apply in_or_app. auto.
      + destruct (ri_off _ _ _ _ R Hr) as (E & _). rewrite E in J. destruct J.
  Qed.

  Lemma pair_data cap now ls s tr : 0 <= cap -> wrun c (newWorker cap now) ls = Some (s, tr) ->
    concat (bodies tr) ++ held s = input rs tr /\
    map (fun p => fst (fst p)) (posts tr) = seq 0 (length (posts tr)) /\
    Forall (fun b => b <> [] /\ (length b <= wc_size c \/ length b = wc_size c + 1 /\ exists p, b = p ++ [nl])%nat) (bodies tr).
  Proof.
    intros Hc H. destruct (all_run _ _ _ _ _ Hc H) as (W & _ & _). destruct W as [(l1 & l2 & -> & B1 & _ & E & _) N F _ _]. split; [|split].
    - rewrite bodies_app, concat_app, input_app, <- app_assoc. congruence.
    - rewrite N. f_equal. rewrite <- (map_length (fun p : nat * bytes * response => fst (fst p))). 
      assert (length (map (fun p : chunk * response => fst (fst p)) (posts (l1 ++ l2))) = w_n s) as X; [|symmetry; exact X].
      transitivity (length (seq 0 (w_n s))); [f_equal; exact N|apply seq_length].
    - apply Forall_app in F. exact (proj1 F).
  Qed.

  Lemma pair_lines cap now ls s tr : 0 <= cap -> wrun c (newWorker cap now) ls = Some (s, tr) ->
    Forall (fun m => nl_ended (accepted rs (snd m)) /\ Forall (fun l => (length l <= wc_size c)%nat) (lines_of (accepted rs (snd m)))) (messages tr) ->
    Forall nl_ended (bodies tr).
  Proof.
    intros Hc H T. destruct (all_run _ _ _ _ _ Hc H) as (W & _ & _). pose proof (wi_ended _ _ _ W T) as F. apply Forall_app in F. exact (proj1 F).
  Qed.

  Lemma pair_counts cap now ls s tr : 0 <= cap -> wrun c (newWorker cap now) ls = Some (s, tr) ->
    w_received s = count is_msg tr /\
    w_requests s = count is_send tr + count is_took_write tr /\
    w_failed s = count is_failed_post tr + count is_took_err tr /\
    0 <= r_writes (w_retry s) /\ 0 <= r_errs (w_retry s) /\
    (exists lost, 0 <= lost /\ count is_took_write tr + r_writes (w_retry s) + lost = count is_attempt tr /\
       (0 < lost -> wc_retry c * 4 < count is_attempt tr)) /\
    (exists lost, 0 <= lost /\ count is_took_err tr + r_errs (w_retry s) + lost = count is_failed_attempt tr /\
       (0 < lost -> wc_retry c * 4 < count is_failed_attempt tr)).
  Proof.
    intros Hc H. destruct (all_run _ _ _ _ _ Hc H) as (_ & _ & C). destruct C as [C1 C2 C3 [C4 C5] [C6 C7]]. repeat (split; auto).
  Qed.

  Lemma pair_account cap now ls s tr a r : 0 <= cap -> 1 <= wc_retry c -> wrun c (newWorker cap now) ls = Some (s, tr) -> In (a, r) (posts tr) ->
    (exists code, r = Status code /\ 200 <= code <= 299 /\ ~ In a (added (retries tr))) \/ In a (delivered (retries tr)) \/
    In a (map rb_buf (r_q (w_retry s)) ++ passing s ++ rejected (retries tr) ++ expired (retries tr) ++ evicted (retries tr)).
  Proof.
    intros Hc Hr H J. destruct (pair_conservation _ _ _ _ _ Hc Hr H) as (P & F & N). destruct (ok r) eqn:Ok.
    - left. unfold ok in Ok. destruct r as [| |code]; try discriminate. exists code. split; auto. split; [lia|].
      intros K. assert (K' : In a (failures tr)) by (rewrite F; apply in_or_app; auto). clear K.
      destruct (pair_data _ _ _ _ _ Hc H) as (_ & Nn & _). unfold failures in K'. apply in_map_iff in K'. destruct K' as ((a' & r') & E & K). cbn in E. subst a'.
      apply filter_In in K. destruct K as [K1 K2]. cbn in K2.
      assert (Dn : NoDup (map fst (posts tr))).
      { apply NoDup_map_inv with (f := @fst nat bytes). rewrite map_map. pose proof (seq_NoDup (length (posts tr)) 0) as D. rewrite <- Nn in D. exact D. }
      assert (U : forall (l : list (chunk * response)) x y z, NoDup (map fst l) -> In (x, y) l -> In (x, z) l -> y = z).
      { clear. induction l as [|[x0 y0] l IH]; intros x y z D I1 I2; [destruct I1|]. cbn in D. inversion D; subst.
        assert (Hin : forall y, In (x, y) l -> In x (map fst l)) by (intros y1 X; apply in_map_iff; exists (x, y1); auto).
        destruct I1 as [I1|I1], I2 as [I2|I2]; try (inversion I1; subst; clear I1); try (inversion I2; subst; clear I2); eauto; exfalso; eauto. }
      pose proof (U _ _ _ _ Dn J K1) as X. subst r'. unfold ok in K2. replace ((200 <=? code) && (code <=? 299)) with true in K2. discriminate.
    - right. assert (K : In a (failures tr)).
      { unfold failures. apply in_map_iff. exists (a, r). split; auto. apply filter_In. split; auto. cbn. rewrite Ok. auto. }
      apply (Permutation_in _ P) in K. unfold buf in K. rewrite !in_app_iff in *. tauto.
  Qed.
End Top.

Lemma first_4xx_retried code : 400 <= code <= 499 ->
  exists c ls s tr a t, (1 <= wc_size c)%nat /\ wrun c (newWorker 0 0) ls = Some (s, tr) /\
    In (a, Status code) (posts tr) /\ In (t, a) (attempts (retries tr)).
Proof.
  intros H. exists (mkWC 1 100 100 [] 1 60 10), [PMsg 0 0 (lit "a"); PPost (Status code) 1; PHand 2; PIn 3 3; PRetry (LFire 13 13)].
  assert (E : Write (Status code) = WPerm) by (apply Write_classes; right; exists code; auto).
  do 2 eexists. exists (0%nat, lit "a"), 13. split; [cbn; lia|]. split; [|split].
  - cbn [wrun wstep newWorker w_pc]. 
    replace (check _ _ 0) with (mkW (Append (New 0 0) (lit "a") 0) (WSend [lit "a"]) None (newRetry 0) false 1 1 0 0, [VWake 0; VSend]) by reflexivity.
    cbn [w_pc w_chan w_retry w_closed w_received w_requests w_failed w_n w_batch]. rewrite E. cbn [orb negb Z.ltb Z.compare wc_retry]. reflexivity.
  - cbn. auto.
  - cbn. auto.
Qed.

Lemma accepted_meaning rs data :
  (rs = [] -> accepted rs data = data) /\
  (rs <> [] -> exists keep, accepted rs data = concat (filter keep (lines_of data)) /\
     forall line, match ParseTags line with
                  | POk m tags rest => no_collision rs m -> keep line = true <-> exists r, In r rs /\ means (r_match r) m tags line
                  | _ => keep line = false
                  end).
Proof.
  split.
  - intros ->. unfold accepted. cbn. apply app_nil_r.
  - intros N. exists (kept rs). split; [unfold accepted, writes_of; destruct rs; [contradiction|auto]|].
    intros line. pose proof (Lookup_spec rs line) as L. unfold kept. destruct (ParseTags line) as [m tags rest| |]; [|rewrite L; auto|rewrite L; auto].
    intros Nc. specialize (L Nc). destruct (Lookup rs line) as [i|]; cbn in L.
    + split; auto. intros _. destruct L as ((r & E & M) & _). exists r. split; auto. eapply nth_error_In; eauto.
    + split; [discriminate|]. intros (r & J & M). exfalso. apply (L r J). auto.
Qed.

Lemma split_repeat n : split_all 1 (repeat "a"%char n) = repeat [("a"%char : ascii)] n.
Proof.
  unfold split_all. rewrite repeat_length. induction n as [|n IH]; auto.
  cbn [split_loop]. replace (Next 1 (repeat "a"%char (S n))) with (Some ([("a"%char : ascii)], repeat ("a"%char : ascii) n)).
  - destruct (split_loop n 1 (repeat ("a"%char : ascii) n)) as [cs r]. cbn [fst] in *. rewrite IH. auto.
  - destruct n as [|n]; [reflexivity|]. cbn [repeat Next length]. reflexivity.
Qed.

Lemma fail_posts c t k : forall s, wc_retry c = 0 -> w_pc s = (match k with O => WIdle | _ => WSend (repeat [("a"%char : ascii)] k) end) ->
  exists s' tr, wrun c s (repeat (PPost NoResponse t) k) = Some (s', tr) /\ w_requests s' = w_requests s /\ w_failed s' = w_failed s + Z.of_nat k /\ count is_post tr = Z.of_nat k.
Proof.
  induction k as [|k IH]; intros s Hr P; cbn [repeat wrun].
  - do 2 eexists. split; [reflexivity|]. cbn. repeat split; lia.
  - unfold wstep. rewrite P, Hr. cbn [repeat orb negb Z.ltb Z.compare Write].
    set (s1 := continue _ _ _). destruct (IH s1 Hr) as (s' & tr & E & E1 & E2 & E3).
    { unfold s1. rewrite continue_pc. destruct k; auto. }
    rewrite E. do 2 eexists. split; [reflexivity|]. rewrite E1, E2. unfold s1. rewrite continue_requests, continue_failed. cbn [w_requests w_failed].
    split; auto. split; [lia|]. rewrite count_app, E3. unfold count at 1. cbn [filter is_post length]. lia.
Qed.

Lemma split_counts_once n : (1 <= n)%nat -> exists c ls s tr, (1 <= wc_size c)%nat /\ wrun c (newWorker 0 0) ls = Some (s, tr) /\
  w_requests s = 1 /\ count is_post tr = Z.of_nat n /\ w_failed s = Z.of_nat n.
Proof.
  intros Hn. set (c := mkWC 1 1 1 [] 0 0 0). exists c, (PMsg 0 0 (repeat "a"%char n) :: repeat (PPost NoResponse 0) n).
  cbn [wrun wstep newWorker w_pc]. set (s0 := mkW (batchAppend _ _ _ _) _ _ _ _ _ _ _ _).
  assert (B : brep (w_batch s0) ([] ++ [(0, repeat "a"%char n)])) by (apply brep_append; split; [apply Inv_New; lia|cbn; auto]).
  destruct B as (_ & Bb & Bw & _). cbn [app map snd concat length] in Bb, Bw. rewrite app_nil_r in Bb.
  assert (Sh : shouldSend c (w_batch s0) 0 = true) by (unfold shouldSend, Writes; rewrite Bw; reflexivity).
  unfold check. rewrite Sh. cbn [wc_size c].
  assert (Eb : split_all 1 (Bytes (w_batch s0)) = repeat [("a"%char : ascii)] n) by (unfold Bytes; rewrite Bb; apply split_repeat).
  set (s1 := continue _ _ _).
  destruct (fail_posts c 0 n s1 eq_refl) as (s' & tr & E & E1 & E2 & E3).
  { unfold s1. rewrite continue_pc, Eb. destruct n; [lia|auto]. }
  rewrite E. exists s'. eexists. split; [lia|]. split; [reflexivity|]. rewrite E1, E2. unfold s1. rewrite continue_requests, continue_failed. cbn. split; auto.
Qed.

Lemma stop_loses data : exists c ls s tr, (1 <= wc_size c)%nat /\
  wrun c (newWorker 0 0) ls = Some (s, tr) /\ w_pc s = WStopped /\ input (wc_rules c) tr = data /\ posts tr = [] /\ retries tr = [].
Proof.
  set (c := mkWC 2 (S (length data)) 1 [] 0 0 0). exists c, [PMsg 0 0 data; PClose; PStop].
  assert (B : brep (batchAppend [] (New 0 0) data 0) ([] ++ [(0, data)])) by (apply brep_append; split; [apply Inv_New; lia|cbn; auto]).
  cbn [wrun wstep newWorker w_pc w_batch]. change (wc_rules c) with (@nil rule). set (b := batchAppend _ _ _ _) in *. clearbody b.
  destruct B as (_ & Bb & Bw & Bc). cbn [app map snd concat length] in Bb, Bw, Bc. rewrite app_nil_r in Bb.
  assert (Sh : shouldSend c b 0 = false).
  { unfold shouldSend, Writes, Size, Age. rewrite Bw, Bb, Bc. cbn [wc_count wc_size wc_age c]. replace (Z.of_nat (S (length data)) <=? Z.of_nat (length data)) with false by lia. reflexivity. }
  unfold check. cbn [w_batch]. rewrite Sh. cbn [w_batch w_pc w_chan w_retry w_closed w_received w_requests w_failed w_n app].
  do 2 eexists. split; [cbn; lia|]. split; [reflexivity|]. split; [reflexivity|]. split; [|split; reflexivity]. unfold input, accepted. cbn [messages flat_map app map concat writes_of snd]. rewrite !app_nil_r. auto.
Qed.
