From Verif Require Import Base LinesSpec Batch BatchProofs Splitter SplitterProofs Rules Retry RetrySpec RetryProofs RetryMain Writer WriterSpec WriterProofs.
Local Open Scope Z_scope.

Definition with_reports {A} (s : rstate A) (w e : Z) : rstate A := mkR (r_q s) (r_next s) (r_ph s) w e (r_now s).

Lemma effect_any A m t i s s' o w e : effect A m t i s s' o -> exists w' e', effect A m t i (with_reports s w e) (with_reports s' w' e') o.
Proof.
  intros H. destruct H; unfold with_reports; cbn [r_q r_next r_ph r_now]; do 2 eexists; econstructor; eauto.
Qed.

Lemma rstep_added A m t i (s : rstate A) l s' o : rstep m t i s l = Some (s', o) ->
  added o = match l with LIn _ _ a => [a] | _ => [] end.
Proof.
  intros H. unfold rstep in H. destruct l as [t0 t' a|t0 t'|t' oc|]; destruct (r_ph s); try discriminate.
  - destruct (_ && _); [|discriminate]. destruct (qAdd _ _ _ _ _) as [q ev]. inversion H; subst. rewrite added_app.
    replace (added (map OEvict ev)) with (@nil A); auto. clear. induction ev; auto.
  - destruct (r_next s); [|discriminate]. destruct (_ && _); [|discriminate]. destruct (qFront _ _) as [[q ex] [f|]]; inversion H; subst.
    + rewrite added_app, added_ex. auto.
    + apply added_ex.
  - destruct (_ <=? _); [|discriminate]. inversion H; subst. auto.
  - inversion H; subst. auto.
Qed.

Definition starts {A} (o : list (robs A)) : Z := Z.of_nat (length (filter (fun x => match x with OStart _ _ => true | _ => false end) o)).
Definition fails {A} (o : list (robs A)) : Z := Z.of_nat (length (filter (fun x => match x with OEnd _ _ WPerm | OEnd _ _ WTemp => true | _ => false end) o)).

Lemma rstep_reports A m t i (s : rstate A) l s' o : rstep m t i s l = Some (s', o) ->
  ((starts o = 0 /\ r_writes s' = r_writes s) \/ (starts o = 1 /\ r_writes s' = report m (r_writes s))) /\
  ((fails o = 0 /\ r_errs s' = r_errs s) \/ (fails o = 1 /\ r_errs s' = report m (r_errs s))).
Proof.
  intros H. unfold rstep in H. destruct l as [t0 t' a|t0 t'|t' oc|]; destruct (r_ph s); try discriminate.
  - destruct (_ && _); [|discriminate]. destruct (qAdd _ _ _ _ _) as [q ev]. inversion H; subst. cbn [r_writes r_errs].
    assert (forall f, (forall a : A, f (OEvict a) = false) -> f (OAdd t0 a) = false -> filter f (map OEvict ev ++ [OAdd t0 a]) = []).
    { intros f F1 F2. rewrite filter_app. cbn [filter]. rewrite F2, app_nil_r. clear -F1. induction ev; auto. cbn. rewrite F1. auto. }
    unfold starts, fails. rewrite !H0 by auto. cbn. auto.
  - destruct (r_next s); [|discriminate]. destruct (_ && _); [|discriminate]. destruct (qFront _ _) as [[q ex] [f|]]; inversion H; subst; cbn [r_writes r_errs];
    assert (G : forall f : robs A -> bool, (forall a, f (OExpire t0 a) = false) -> filter f (map (OExpire t0) ex) = []) by (intros g F1; clear -F1; induction ex; auto; cbn; rewrite F1; auto);
    unfold starts, fails; rewrite ?filter_app, !G by auto; cbn; auto.
  - destruct (_ <=? _); [|discriminate]. inversion H; subst. cbn [r_writes r_errs]. destruct oc; cbn; auto.
  - inversion H; subst. cbn. auto.
Qed.

Lemma rstep_phase A m t i (s : rstate A) l s' o : rstep m t i s l = Some (s', o) -> is_stop l = false -> r_ph s' <> RStopped.
Proof.
  intros H N. unfold rstep in H. destruct l as [t0 t' a|t0 t'|t' oc|]; destruct (r_ph s); try discriminate.
  - destruct (_ && _); [|discriminate]. destruct (qAdd _ _ _ _ _) as [q ev]. inversion H; subst. discriminate.
  - destruct (r_next s); [|discriminate]. destruct (_ && _); [|discriminate]. destruct (qFront _ _) as [[q ex] [f|]]; inversion H; subst; discriminate.
  - destruct (_ <=? _); [|discriminate]. inversion H; subst. discriminate.
Qed.

Section Main.
  Variable c : wcfg.
  Hypothesis Hsize : (1 <= wc_size c)%nat.
  Notation rs := (wc_rules c).
  Notation retrying := (0 <? wc_retry c).
  Notation micro := (micro c).
  Notation micros := (micros c).

  (* -------------------------------------------------------------- *)
  (** * The way to the retry goroutine *)
  Record rinv (now0 : Z) (s : wst) (tr : list wobs) : Prop := mkRI {
    ri_reach : retrying = true -> exists w e, reach chunk (wc_retry c) (wc_ttl c) (wc_interval c) now0 (with_reports (w_retry s) w e) (retries tr);
    ri_fifo : retrying = true -> failures tr = added (retries tr) ++ passing s;
    ri_off : retrying = false -> retries tr = [] /\ w_chan s = None /\ match w_pc s with WHand _ _ | WStopping => False | _ => True end;
    ri_stop : r_ph (w_retry s) = RStopped -> w_pc s = WStopping \/ w_pc s = WStopped }.

  Lemma passing_continue s rest t : passing (continue s rest t) = match w_chan s with Some a => [a] | None => [] end.
  Proof. unfold passing. rewrite continue_chan, continue_pc. destruct rest; rewrite app_nil_r; auto. Qed.

  Lemma rinv_micro now0 s tr o s' : winv c s tr -> rinv now0 s tr -> micro s o s' -> rinv now0 s' (tr ++ o).
  Proof.
    intros W I M. destruct I as [Ir If Io Is].
    assert (Silent : forall s', w_chan s' = w_chan s -> with_reports (w_retry s') 0 0 = with_reports (w_retry s) 0 0 -> retries o = [] ->
        (retrying = true -> failures (tr ++ o) = added (retries tr) ++ passing s') ->
        (retrying = false -> match w_pc s' with WHand _ _ | WStopping => False | _ => True end) ->
        (r_ph (w_retry s) = RStopped -> w_pc s' = WStopping \/ w_pc s' = WStopped) -> rinv now0 s' (tr ++ o)).
    { intros s2 E1 E2 E3 E4 E5 E7.
      assert (Q : r_q (w_retry s2) = r_q (w_retry s) /\ r_next (w_retry s2) = r_next (w_retry s) /\ r_ph (w_retry s2) = r_ph (w_retry s) /\ r_now (w_retry s2) = r_now (w_retry s)).
      { unfold with_reports in E2. inversion E2. auto. }
      destruct Q as (Q1 & Q2 & Q3 & Q4).
      constructor.
      - intros Hr. destruct (Ir Hr) as (w & e & R). exists w, e. unfold with_reports in *. rewrite Q1, Q2, Q3, Q4, retries_app, E3, app_nil_r. auto.
      - intros Hr. rewrite retries_app, E3, app_nil_r. auto.
      - intros Hr. destruct (Io Hr) as (O1 & O2 & O3). rewrite retries_app, E3, app_nil_r, E1. split; [exact O1|]. split; [exact O2|]. apply E5. exact Hr.
      - rewrite Q3. auto. }
    assert (Nf : forall o', posts o' = [] -> failures (tr ++ o') = failures tr).
    { intros o' P. rewrite failures_app. unfold failures at 2. rewrite P. apply app_nil_r. }
    destruct M as [s t d P|s r P -> L|s r P -> L|s t P Hs|s t P Hs|s ch rest r t P Ho|s ch rest r P Ho Hr|s a rest t P Hc|s|s P Hc|s P Hc|s t t' a r o Hr Hc E|s l r o Hr Hi Hst E].
    - apply Silent; auto; [|cbn; auto|cbn [w_pc]; rewrite P in Is; auto]. intros Hr. rewrite Nf by auto. rewrite If by auto. unfold passing. rewrite P. auto.
    - apply Silent; auto; [|cbn; auto|cbn [w_pc]; rewrite P in Is; auto]. intros Hr. rewrite Nf by auto. rewrite If by auto. unfold passing. rewrite P. auto.
    - apply Silent; auto; [|cbn; auto|cbn [w_pc]; rewrite P in Is; auto]. intros Hr. rewrite Nf by auto. rewrite If by auto. unfold passing. rewrite P. auto.
    - apply Silent; auto; [|rewrite P; auto]. intros Hr. rewrite Nf by auto. auto.
    - apply Silent; auto.
      + rewrite continue_chan. auto.
      + rewrite continue_retry. auto.
      + intros Hr. rewrite Nf by auto. rewrite passing_continue, If by auto. unfold passing. rewrite P. cbn [w_chan]. rewrite app_nil_r. auto.
      + intros _. rewrite continue_pc. destruct (split_all _ _); auto.
      + intros X. apply Is in X. rewrite P in X. destruct X; discriminate.
    - apply Silent; auto.
      + rewrite continue_chan. auto.
      + rewrite continue_retry. auto.
      + intros Hr. rewrite passing_continue. cbn [w_chan]. rewrite Hr in Ho. cbn in Ho. rewrite orb_false_r in Ho.
        rewrite failures_app. unfold failures at 2. cbn [posts flat_map filter app snd]. rewrite Ho. cbn [negb map]. rewrite app_nil_r.
        rewrite If by auto. unfold passing. rewrite P, app_nil_r. auto.
      + intros _. rewrite continue_pc. destruct rest; auto.
      + intros X. apply Is in X. rewrite P in X. destruct X; discriminate.
    - apply Silent; auto.
      + intros _. rewrite failures_app. unfold failures at 2. cbn [posts flat_map filter app snd]. rewrite Ho. cbn [negb map fst].
        rewrite If by auto. unfold passing. rewrite P. cbn [w_chan w_pc]. rewrite app_nil_r, <- app_assoc. auto.
      + intros X. rewrite Hr in X. discriminate.
      + intros X. apply Is in X. rewrite P in X. destruct X; discriminate.
    - assert (Hr : retrying = true) by (destruct retrying eqn:X; auto; destruct (Io eq_refl) as (_ & _ & X3); rewrite P in X3; destruct X3).
      constructor.
      + intros _. destruct (Ir Hr) as (w & e & R). exists w, e. rewrite continue_retry, retries_app. cbn [set_retry w_retry retries flat_map]. rewrite app_nil_r. auto.
      + intros _. rewrite Nf by auto. rewrite If by auto. rewrite retries_app, passing_continue. cbn [set_retry w_chan retries flat_map]. rewrite app_nil_r.
        unfold passing. rewrite Hc, P. auto.
      + congruence.
      + rewrite continue_retry. cbn [set_retry w_retry]. intros X. apply Is in X. rewrite P in X. destruct X; discriminate.
    - apply Silent; auto. intros Hr. rewrite Nf by auto. auto. intros Hr. destruct (Io Hr) as (_ & _ & X). auto.
    - apply Silent; auto; cbn [w_pc].
      + intros Hr. rewrite Nf by auto. rewrite If by auto. unfold passing. rewrite P. cbn [w_pc w_chan]. destruct retrying; auto.
      + intros Hr. rewrite Hr. auto.
      + destruct retrying; auto.
    - apply Silent; auto; cbn [w_pc].
      + intros Hr. rewrite Nf by auto. rewrite If by auto. unfold passing. rewrite P. auto.
      + auto.
    - destruct (Ir Hr) as (w & e & R). constructor.
      + intros _. assert (Hm : 1 <= wc_retry c) by lia.
        assert (Ef : effect chunk (wc_retry c) (wc_ttl c) (wc_interval c) (w_retry s) r o).
        { eapply step_effect; [exact Hm|exact E|]. exact (iv_ph _ _ _ _ _ _ (reach_inv _ _ _ _ Hm _ _ _ R)). }
        destruct (effect_any _ _ _ _ _ _ _ w e Ef) as (w' & e' & Ef'). exists w', e'. cbn [set_retry w_retry].
        rewrite retries_app, vretry_retries. econstructor; eauto.
      + intros _. rewrite Nf by apply vretry_posts. rewrite If by auto. rewrite retries_app, vretry_retries, added_app, (rstep_added _ _ _ _ _ _ _ _ E).
        unfold passing. rewrite Hc. cbn [set_retry w_chan w_pc]. rewrite <- app_assoc. auto.
      + congruence.
      + cbn [set_retry w_retry w_pc]. intros X. exfalso. exact (rstep_phase _ _ _ _ _ _ _ _ E eq_refl X).
    - destruct (Ir Hr) as (w & e & R). constructor.
      + intros _. assert (Hm : 1 <= wc_retry c) by lia.
        assert (Ef : effect chunk (wc_retry c) (wc_ttl c) (wc_interval c) (w_retry s) r o).
        { eapply step_effect; [exact Hm|exact E|]. exact (iv_ph _ _ _ _ _ _ (reach_inv _ _ _ _ Hm _ _ _ R)). }
        destruct (effect_any _ _ _ _ _ _ _ w e Ef) as (w' & e' & Ef'). exists w', e'. cbn [set_retry w_retry].
        rewrite retries_app, vretry_retries. econstructor; eauto.
      + intros _. rewrite Nf by apply vretry_posts. rewrite If by auto. rewrite retries_app, vretry_retries, added_app, (rstep_added _ _ _ _ _ _ _ _ E).
        destruct l; try discriminate; rewrite app_nil_r; auto.
      + congruence.
      + cbn [set_retry w_retry w_pc]. intros X. destruct (is_stop l) eqn:St; [auto|]. exfalso. exact (rstep_phase _ _ _ _ _ _ _ _ E St X).
  Qed.

  Lemma rinv_new cap now : rinv now (newWorker cap now) [].
  Proof.
    constructor; cbn; auto; try discriminate.
    intros _. exists 0, 0. apply reach_init.
  Qed.

  (* -------------------------------------------------------------- *)
  (** * Counters *)
  Record cinv (s : wst) (tr : list wobs) : Prop := mkCI {
    ci_received : w_received s = count is_msg tr;
    ci_requests : w_requests s = count is_send tr + count is_took_write tr;
    ci_failed : w_failed s = count is_failed_post tr + count is_took_err tr;
    ci_writes : 0 <= r_writes (w_retry s) /\ exists d, 0 <= d /\ count is_took_write tr + r_writes (w_retry s) + d = count is_attempt tr /\
                (0 < d -> wc_retry c * 4 < count is_attempt tr);
    ci_errs : 0 <= r_errs (w_retry s) /\ exists d, 0 <= d /\ count is_took_err tr + r_errs (w_retry s) + d = count is_failed_attempt tr /\
                (0 < d -> wc_retry c * 4 < count is_failed_attempt tr) }.

  Lemma count_vretry_starts o : count is_attempt (map VRetry o) = starts o.
  Proof. unfold count, starts. f_equal. induction o as [|x o IH]; auto. cbn. destruct x; cbn; auto. Qed.
  Lemma count_vretry_fails o : count is_failed_attempt (map VRetry o) = fails o.
  Proof. unfold count, fails. f_equal. induction o as [|x o IH]; auto. cbn. destruct x as [| | | |? ? [| |]|]; cbn; auto. Qed.
  Lemma count_vretry_none p o : (forall x, p (VRetry x) = false) -> count p (map VRetry o) = 0.
  Proof. intros H. unfold count. replace (filter p (map VRetry o)) with (@nil wobs); auto. induction o; auto. cbn. rewrite H. auto. Qed.

  Ltac ev := unfold count at 2; try reflexivity.

  Lemma cinv_retry s tr ch r l o : cinv s tr -> retry_step c (w_retry s) l = Some (r, o) -> cinv (set_retry s ch r) (tr ++ map VRetry o).
  Proof.
    intros I E. destruct I as [I1 I2 I3 (I4 & d & D1 & D2 & D3) (I5 & d' & D4 & D5 & D6)]. destruct (rstep_reports _ _ _ _ _ _ _ _ E) as [Rw Re].
    pose proof (count_nonneg is_took_write tr). pose proof (count_nonneg is_took_err tr).
    constructor; cbn [set_retry w_received w_requests w_failed w_retry]; rewrite !count_app;
      rewrite ?(count_vretry_none is_msg), ?(count_vretry_none is_send), ?(count_vretry_none is_took_write), ?(count_vretry_none is_took_err), ?(count_vretry_none is_failed_post),
        ?count_vretry_starts, ?count_vretry_fails by auto; try lia.
    - destruct Rw as [[-> ->]|[-> ->]]; unfold report; [|destruct (r_writes (w_retry s) <? wc_retry c * 4) eqn:L]; (split; [lia|]).
      + exists d. split; [lia|]. split; lia.
      + exists d. split; [lia|]. split; lia.
      + exists (d + 1). split; [lia|]. split; lia.
    - destruct Re as [[-> ->]|[-> ->]]; unfold report; [|destruct (r_errs (w_retry s) <? wc_retry c * 4) eqn:L]; (split; [lia|]).
      + exists d'. split; [lia|]. split; lia.
      + exists d'. split; [lia|]. split; lia.
      + exists (d' + 1). split; [lia|]. split; lia.
  Qed.

  Lemma cinv_micro s tr o s' : cinv s tr -> micro s o s' -> cinv s' (tr ++ o).
  Proof.
    intros I M.
    destruct M as [s t d P|s r P -> L|s r P -> L|s t P Hs|s t P Hs|s ch rest r t P Ho|s ch rest r P Ho Hr|s a rest t P Hc|s|s P Hc|s P Hc|s t t' a r o Hr Hc E|s l r o Hr Hi Hst E];
    try (eapply cinv_retry; eauto; fail);
    destruct I as [I1 I2 I3 (I4 & d0 & D1 & D2 & D3) (I5 & d1 & D4 & D5 & D6)];
    constructor; rewrite ?continue_received, ?continue_requests, ?continue_failed, ?continue_retry, ?app_nil_r; cbn [set_retry w_received w_requests w_failed w_retry r_writes r_errs];
    rewrite ?count_app; cbn [count filter is_msg is_send is_took_write is_took_err is_failed_post is_attempt is_failed_attempt length];
    try (unfold count in *; cbn [filter is_msg is_send is_took_write is_took_err is_failed_post is_attempt is_failed_attempt length] in *; try destruct (ok r); cbn [negb length] in *; lia);
    try (split; [lia|]; first [exists d0; unfold count in *; cbn in *; repeat split; lia | exists d1; unfold count in *; cbn in *; repeat split; lia]).
  Qed.
End Main.
