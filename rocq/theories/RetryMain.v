(** Consequences for whole traces. *)
From Verif Require Import Base Retry RetrySpec RetryProofs.
Local Open Scope Z_scope.

Definition buf {A} (q : list (retryBatch A)) : list A := map rb_buf q.

Section Main.
  Variable A : Type.
  Variables maxB ttl interval : Z.
  Hypothesis Hmax : 1 <= maxB.
  Notation reach := (reach A maxB ttl interval).
  Notation effect := (effect A maxB ttl interval).
  Notation inv := (inv A maxB ttl interval).
  Implicit Types (tr : list (robs A)) (s : rstate A).

  Lemma nodup_app_inv {X} (l l' : list X) : NoDup (l ++ l') -> NoDup l /\ NoDup l' /\ forall x, In x l -> ~ In x l'.
  Proof.
    induction l as [|a l IH]; cbn; intros H; [split; [constructor|split; auto]|]. inversion H as [|? ? N D]; subst.
    destruct (IH D) as (D1 & D2 & D3). split; [constructor; auto; intros I; apply N; apply in_or_app; auto|]. split; auto.
    intros x [->|I]; [intros J; apply N; apply in_or_app; auto|auto].
  Qed.

  Lemma nodup_prefix tr o : NoDup (added (tr ++ o : list (robs A))) -> NoDup (added tr).
  Proof. rewrite added_app. intros H. apply nodup_app_inv in H. tauto. Qed.

  Lemma queue_waiting s tr : inv s tr -> NoDup (added tr) ->
    NoDup (buf (r_q s)) /\ forall a, In a (buf (r_q s)) <-> waiting tr a.
  Proof.
    intros I N. pose proof (iv_perm _ _ _ _ _ _ I) as P. pose proof (Permutation_NoDup P N) as D.
    apply nodup_app_inv in D. destruct D as (D1 & D2 & D3). split; auto. intros a. unfold waiting. split.
    - intros J. split; [eapply Permutation_in; [apply Permutation_sym; exact P|apply in_or_app; auto]|]. apply D3. auto.
    - intros [J K]. apply (Permutation_in _ P) in J. apply in_app_or in J. destruct J; auto; contradiction.
  Qed.

  Lemma gone_one tr a : In a (gone tr) <-> exists x, In x tr /\ In a (gone [x]).
  Proof.
    induction tr as [|x tr IH]; [split; [intros []|intros (? & [] & _)]|].
    change (x :: tr) with ([x] ++ tr). rewrite gone_in. rewrite IH. split.
    - intros [J|(y & J & K)]; [exists x; simpl; auto|exists y; simpl; auto].
    - intros (y & [<-|J] & K); [auto|right; eauto].
  Qed.

  Lemma never_again now0 s tr : reach now0 s tr -> NoDup (added tr) ->
    ForallOrdPairs (fun x y => forall t a, In a (gone [x]) -> y <> OStart t a) tr.
  Proof.
    induction 1 as [|s tr s' o R IH E]; intros N; [constructor|].
    pose proof (reach_inv _ _ _ _ Hmax _ _ _ R) as I. pose proof (nodup_prefix _ _ N) as N0. specialize (IH N0).
    destruct (queue_waiting _ _ I N0) as [D W].
    apply fop_app. split; auto.
    destruct E as [q next w e now t t' a L1 L2 Lq|q1 b q2 next w e now t t' a L1 L2 Lq F1 F2|ex d w e now t t' L1 L2 L3 F|ex b q d w e now t L1 L2 F Lb|b q next a w e now t' oc L1 No|b q next a w e now t' L1|q next w e now];
    cbn [r_q] in *.
    1,2,5,6,7: split; [repeat constructor; intros; discriminate|]; intros x y _ J t0 a0 _; cbn in J; intuition; subst; discriminate.
    - split.
      + clear. induction (map rb_buf ex) as [|x l IH]; cbn [map]; [constructor|]. constructor; auto. apply Forall_forall.
        intros y J t0 a _ ->. apply in_map_iff in J. destruct J as (? & ? & _). discriminate.
      + intros x y _ J t0 a _ ->. apply in_map_iff in J. destruct J as (? & ? & _). discriminate.
    - split.
      + apply fop_app. split; [|split; [repeat constructor|]].
        * clear. induction (map rb_buf ex) as [|x l IH]; cbn [map]; [constructor|]. constructor; auto. apply Forall_forall.
          intros y J t0 a _ ->. apply in_map_iff in J. destruct J as (? & ? & _). discriminate.
        * intros x y J [<-|[]] t0 a G E. inversion E; subst. apply in_map_iff in J. destruct J as (a' & <- & J).
          assert (a' = rb_buf b) by (cbn in G; tauto). subst. unfold buf in D. rewrite map_app in D. cbn [map] in D.
          apply nodup_app_inv in D. destruct D as (_ & _ & D). apply (D _ J). simpl; auto.
      + intros x y J K t0 a G ->. apply in_app_or in K. destruct K as [K|[K|[]]].
        * apply in_map_iff in K. destruct K as (? & ? & _). discriminate.
        * inversion K; subst. assert (Wa : waiting tr (rb_buf b)) by (apply W; apply in_map_iff; exists b; split; auto; apply in_or_app; simpl; auto).
          apply (proj2 Wa). apply gone_one. eauto.
  Qed.

  Lemma add_time tr t t' a : NoDup (added tr) -> In (OAdd t a) tr -> In (OAdd t' a) tr -> t = t'.
  Proof.
    induction tr as [|x tr IH]; intros N H1 H2; [destruct H1|]. change (x :: tr) with ([x] ++ tr) in N. rewrite added_app in N.
    assert (Hin : forall t0, In (OAdd t0 a) tr -> In a (added tr)) by (intros; apply in_flat_map; eexists; split; eauto; simpl; auto).
    apply nodup_app_inv in N. destruct N as (_ & N & D).
    destruct H1 as [->|H1], H2 as [E|H2]; try congruence; auto.
    - exfalso. apply (D a); [simpl; auto|eauto].
    - subst x. exfalso. apply (D a); [simpl; auto|eauto].
  Qed.

  Lemma evict_history now0 s tr : reach now0 s tr -> NoDup (added tr) -> evicts_oldest maxB tr.
  Proof.
    induction 1 as [|s tr s' o R IH E]; intros N l1 a l2 Et; [destruct l1; discriminate|].
    pose proof (reach_inv _ _ _ _ Hmax _ _ _ R) as I. pose proof (nodup_prefix _ _ N) as N0. specialize (IH N0).
    apply app_cons_split in Et. destruct Et as [(l2' & Et & _)|(o1 & -> & Et)]; [eauto|].
    destruct (queue_waiting _ _ I N0) as [D W]. pose proof (iv_age _ _ _ _ _ _ I) as Ag. pose proof (iv_len _ _ _ _ _ _ I) as Ln.
    destruct E as [q next w e now t t' a0 L1 L2 Lq|q1 b q2 next w e now t t' a0 L1 L2 Lq F1 F2|ex d w e now t t' L1 L2 L3 F|ex b q d w e now t L1 L2 F Lb|b q next a0 w e now t' oc L1 No|b q next a0 w e now t' L1|q next w e now];
    cbn [r_q] in *;
    try (exfalso; destruct o1 as [|? [|? ?]]; cbn in Et; inversion Et; fail).
    - destruct o1 as [|x [|y [|z o1]]]; cbn in Et; inversion Et; subst. rewrite app_nil_r.
      exists (buf (q1 ++ b :: q2)). unfold buf in *. rewrite map_length. split; [lia|]. split; auto. split; auto. split; [apply in_map_iff; exists b; split; auto; apply in_or_app; simpl; auto|].
      intros c ta tb Hc Ha Hb. apply in_map_iff in Hc. destruct Hc as (bb & <- & Hc).
      rewrite Forall_forall in Ag. destruct (Ag bb Hc) as (u & J & _ & Eu). assert (u = tb) by (eapply add_time; eauto). subst u.
      assert (Hb2 : In b (q1 ++ b :: q2)) by (apply in_or_app; simpl; auto).
      destruct (Ag b Hb2) as (v & J2 & _ & Ev). assert (v = ta) by (eapply add_time; eauto). subst v.
      assert (rb_ttl b <= rb_ttl bb); [|lia]. rewrite Forall_forall in F1, F2.
      apply in_app_or in Hc. destruct Hc as [Hc|[<-|Hc]]; [specialize (F1 _ Hc); lia|lia|apply F2; auto].
    - exfalso. assert (J : In (OEvict a) (map (OExpire t) (map rb_buf ex))) by (rewrite Et; apply in_or_app; simpl; auto).
      apply in_map_iff in J. destruct J as (? & ? & _). discriminate.
    - exfalso. assert (J : In (OEvict a) (map (OExpire t) (map rb_buf ex) ++ [OStart t (rb_buf b)])) by (rewrite Et; apply in_or_app; simpl; auto).
      apply in_app_or in J. destruct J as [J|[J|[]]]; [apply in_map_iff in J; destruct J as (? & ? & _)|]; discriminate.
  Qed.

  (** Fairness. *)
  Definition fairly s (a b : A) (l2 : list (robs A)) : Prop :=
    (exists o, In o l2 /\ concerns b o) \/
    (r_ph s = RWriting a /\ l2 = [] /\ In b (buf (r_q s))) \/
    (exists q1 q2, buf (r_q s) = q1 ++ b :: q2 /\ ~ In a q1 /\ r_ph s <> RWriting b).

  Lemma split_at (q : list (retryBatch A)) b : In b (buf q) -> exists q1 q2, buf q = q1 ++ b :: q2.
  Proof. intros H. apply in_split in H. destruct H as (q1 & q2 & H). eauto. Qed.

  Lemma mid_unique (l1 l2 l1' l2' : list A) x : NoDup (l1 ++ x :: l2) -> l1 ++ x :: l2 = l1' ++ x :: l2' -> l1 = l1' /\ l2 = l2'.
  Proof.
    revert l1'. induction l1 as [|y l1 IH]; intros [|z l1'] N E; cbn in *; inversion E; subst; auto.
    - inversion N as [|? ? Hn _]; subst. exfalso. apply Hn. apply in_or_app; simpl; auto.
    - inversion N as [|? ? Hn _]; subst. exfalso. apply Hn. apply in_or_app; simpl; auto.
    - inversion N; subst. destruct (IH l1' H3 H1) as [-> ->]. auto.
  Qed.

  Lemma concerns_ex t l b : In b l -> exists o, In o (map (OExpire t) l : list (robs A)) /\ concerns b o.
  Proof. intros H. exists (OExpire t b). split; [apply in_map; auto|]. right. left. eauto. Qed.

  Lemma fair_start ex (b0 : retryBatch A) q q1 q2 b : buf (ex ++ b0 :: q) = q1 ++ b :: q2 ->
    In b (buf ex) \/ (b = rb_buf b0) \/ exists r, q1 = buf ex ++ rb_buf b0 :: r /\ buf q = r ++ b :: q2.
  Proof.
    unfold buf. rewrite map_app. cbn [map]. intros E. apply app_cons_split in E.
    destruct E as [(l2' & E & _)|(o1 & -> & E)]; [left; rewrite E; apply in_or_app; simpl; auto|].
    right. destruct o1 as [|y o1]; cbn in E; inversion E; subst; auto. right. exists o1. auto.
  Qed.

  Lemma fair_step now0 s tr s' o : reach now0 s tr -> effect s s' o -> NoDup (added (tr ++ o)) ->
    forall a b l2, a <> b -> fairly s a b l2 -> fairly s' a b (l2 ++ o).
  Proof.
    intros R E N a b l2 Nab F. pose proof (reach_inv _ _ _ _ Hmax _ _ _ R) as I. pose proof (nodup_prefix _ _ N) as N0.
    destruct (queue_waiting _ _ I N0) as [D W].
    destruct F as [(x & J & C)|F]; [left; exists x; split; auto; apply in_or_app; auto|].
    assert (Up : forall x, In x o -> concerns b x -> fairly s' a b (l2 ++ o)).
    { intros x J C. left. exists x. split; auto. apply in_or_app; auto. }
    pose proof (iv_ph _ _ _ _ _ _ I) as Ph.
    destruct E as [q next w e now t t' a0 L1 L2 Lq|q1 b0 q2 next w e now t t' a0 L1 L2 Lq F1 F2|ex d w e now t t' L1 L2 L3 F0|ex b0 q d w e now t L1 L2 F0 Lb|b0 q next a0 w e now t' oc L1 No|b0 q next a0 w e now t' L1|q next w e now];
    cbn [r_q r_ph] in *.
    - destruct F as [(X & _)|(p1 & p2 & E & Na & _)]; [discriminate|]. right. right. exists p1, (p2 ++ [a0]). unfold buf in *. cbn [r_q r_ph].
      rewrite map_app, E. cbn [map rb_buf]. rewrite <- app_assoc. split; auto. split; auto. discriminate.
    - destruct F as [(X & _)|(p1 & p2 & E & Na & _)]; [discriminate|]. unfold buf in *. rewrite map_app in E. cbn [map] in E.
      apply app_cons_split in E. destruct E as [(l2' & E & ->)|(o1 & -> & E)].
      + right. right. exists p1, (l2' ++ map rb_buf q2 ++ [a0]). unfold buf. cbn [r_q r_ph]. rewrite !map_app, E. cbn [map rb_buf].
        rewrite <- !app_assoc. cbn [app]. split; auto. split; auto. discriminate.
      + destruct o1 as [|y o1]; cbn in E; inversion E; subst.
        * apply (Up (OEvict (rb_buf b0))); [simpl; auto|]. right. right. auto.
        * right. right. exists (map rb_buf q1 ++ o1), (p2 ++ [a0]). unfold buf. cbn [r_q r_ph]. rewrite !map_app, H1. cbn [map rb_buf]. rewrite <- !app_assoc. cbn [app].
          split; auto. split; [|discriminate]. intros J. apply Na. apply in_app_or in J. apply in_or_app. destruct J; auto. right. simpl; auto.
    - destruct F as [(X & _)|(p1 & p2 & E & Na & _)]; [discriminate|].
      assert (J : In b (map rb_buf ex)) by (unfold buf in E; rewrite E; apply in_or_app; simpl; auto).
      destruct (concerns_ex t _ _ J) as (x & K & C). eauto.
    - destruct F as [(X & _)|(p1 & p2 & E & Na & _)]; [discriminate|].
      destruct (fair_start _ _ _ _ _ _ E) as [J|[->|(r & -> & Eq)]].
      + destruct (concerns_ex t _ _ J) as (x & K & C). apply (Up x); auto. apply in_or_app; auto.
      + apply (Up (OStart t (rb_buf b0))); [apply in_or_app; simpl; auto|]. left. eauto.
      + right. right. exists (rb_buf b0 :: r), p2. cbn [r_q r_ph]. unfold buf in *. cbn [map]. rewrite Eq. split; auto. split.
        * intros J. apply Na. apply in_or_app; auto.
        * intros X. inversion X as [X']. unfold buf in D. rewrite map_app in D. cbn [map] in D. rewrite Eq in D.
          apply nodup_app_inv in D. destruct D as (_ & D & _). inversion D as [|? ? Hn _]; subst. apply Hn. apply in_or_app; simpl; auto.
    - destruct Ph as (b' & q' & Eq & <-). inversion Eq; subst b' q'. right. right. unfold buf in *. cbn [map r_q r_ph] in *.
      destruct F as [(X & _ & J)|(p1 & p2 & E & Na & Np)].
      + inversion X; subst a. destruct J as [J|J]; [congruence|]. destruct (split_at _ _ J) as (p1 & p2 & E). unfold buf in E. exists p1, p2. split; auto. split; [|discriminate].
        intros K. inversion D as [|? ? Hn _]; subst. apply Hn. rewrite E. apply in_or_app; auto.
      + destruct p1 as [|y p1]; cbn in E; inversion E; subst; [congruence|]. exists p1, p2. split; auto. split; [|discriminate]. intros K. apply Na. simpl; auto.
    - destruct Ph as (b' & q' & Eq & <-). inversion Eq; subst b' q'. right. right. unfold buf in *. cbn [map r_q r_ph] in *. rewrite map_app. cbn [map].
      destruct F as [(X & _ & J)|(p1 & p2 & E & Na & Np)].
      + inversion X; subst a. destruct J as [J|J]; [congruence|]. destruct (split_at _ _ J) as (p1 & p2 & E). unfold buf in E. exists p1, (p2 ++ [rb_buf b0]). rewrite E, <- app_assoc. split; auto. split; [|discriminate].
        intros K. inversion D as [|? ? Hn _]; subst. apply Hn. rewrite E. apply in_or_app; auto.
      + destruct p1 as [|y p1]; cbn in E; inversion E; subst; [congruence|]. rewrite H1. exists p1, (p2 ++ [rb_buf b0]). rewrite <- app_assoc. split; auto. split; [|discriminate]. intros K. apply Na. simpl; auto.
    - destruct F as [(X & _)|(p1 & p2 & E & Na & _)]; [discriminate|]. right. right. exists p1, p2. cbn [r_q r_ph]. split; auto. split; auto. discriminate.
  Qed.

  Lemma fair_inv now0 s tr : reach now0 s tr -> NoDup (added tr) ->
    forall l1 t a l2 b, tr = l1 ++ OStart t a :: l2 -> a <> b -> waiting l1 b -> fairly s a b l2.
  Proof.
    intros R0. induction R0 as [|s tr s' o R IH E]; intros N l1 t a l2 b Et Nab Wb; [destruct l1; discriminate|].
    pose proof (nodup_prefix _ _ N) as N0. specialize (IH N0). pose proof Et as Et0.
    apply app_cons_split in Et. destruct Et as [(l2' & Et & ->)|(o1 & -> & Et)].
    - eapply fair_step; eauto.
    - assert (R1 : reach now0 s' (tr ++ o)) by (econstructor; eauto).
      pose proof (reach_inv _ _ _ _ Hmax _ _ _ R1) as I. destruct (queue_waiting _ _ I N) as [D W].
      destruct E as [q next w e now t0 t' a0 L1 L2 Lq|q1 b0 q2 next w e now t0 t' a0 L1 L2 Lq F1 F2|ex d w e now t0 t' L1 L2 L3 F0|ex b0 q d w e now t0 L1 L2 F0 Lb|b0 q next a0 w e now t' oc L1 No|b0 q next a0 w e now t' L1|q next w e now];
      try (exfalso; destruct o1 as [|? [|? [|? ?]]]; cbn in Et; inversion Et; fail).
      + exfalso. assert (J : In (OStart t a) (map (OExpire t0) (map rb_buf ex))) by (rewrite Et; apply in_or_app; simpl; auto).
        apply in_map_iff in J. destruct J as (? & ? & _). discriminate.
      + apply app_cons_split in Et. destruct Et as [(l2' & Et & _)|(o2 & -> & Et)].
        { exfalso. assert (J : In (OStart t a) (map (OExpire t0) (map rb_buf ex))) by (rewrite Et; apply in_or_app; simpl; auto).
          apply in_map_iff in J. destruct J as (? & ? & _). discriminate. }
        destruct o2 as [|? [|? ?]]; cbn in Et; inversion Et; subst. right. left. cbn [r_ph r_q]. split; auto. split; auto.
        apply W. destruct Wb as [Wa Wg]. rewrite app_nil_r in Wa, Wg. unfold waiting. rewrite !app_assoc.
        rewrite added_app, gone_in. split; [apply in_or_app; auto|]. intros [G|G]; [auto|destruct G].
  Qed.

  Lemma fair now0 s tr : reach now0 s tr -> NoDup (added tr) -> fair_turns tr.
  Proof.
    intros R0. induction R0 as [|s tr s' o R IH E]; intros N l1 t1 a l2 t2 l3 b Et Nab Wb; [destruct l1; discriminate|].
    pose proof (nodup_prefix _ _ N) as N0. specialize (IH N0). pose proof Et as Et0.
    change (l1 ++ OStart t1 a :: l2 ++ OStart t2 a :: l3) with (l1 ++ (OStart t1 a :: l2) ++ OStart t2 a :: l3) in Et.
    rewrite app_assoc in Et. apply app_cons_split in Et. destruct Et as [(l3' & Et & _)|(o1 & E1 & Et)].
    - rewrite <- app_assoc in Et. cbn [app] in Et. eauto.
    - symmetry in E1. apply app_cons_split in E1. 
      assert (St : exists ex b0 q d w e now t0, s = mkR (ex ++ b0 :: q) (Some d) RIdle w e now /\ rb_buf b0 = a /\ o1 = map (OExpire t0) (map rb_buf ex)).
      { destruct E as [q next w e now t0 t' a0 L1 L2 Lq|q1 b0 q2 next w e now t0 t' a0 L1 L2 Lq F1 F2|ex d w e now t0 t' L1 L2 L3 F0|ex b0 q d w e now t0 L1 L2 F0 Lb|b0 q next a0 w e now t' oc L1 No|b0 q next a0 w e now t' L1|q next w e now];
        try (exfalso; destruct o1 as [|? [|? [|? ?]]]; cbn in Et; inversion Et; fail).
        - exfalso. assert (J : In (OStart t2 a) (map (OExpire t0) (map rb_buf ex))) by (rewrite Et; apply in_or_app; simpl; auto).
          apply in_map_iff in J. destruct J as (? & ? & _). discriminate.
        - exists ex, b0, q, d, w, e, now, t0. split; auto. apply app_cons_split in Et. destruct Et as [(l2' & Et & _)|(o2 & -> & Et)].
          { exfalso. assert (J : In (OStart t2 a) (map (OExpire t0) (map rb_buf ex))) by (rewrite Et; apply in_or_app; simpl; auto).
            apply in_map_iff in J. destruct J as (? & ? & _). discriminate. }
          destruct o2 as [|? [|? ?]]; cbn in Et; inversion Et; subst. rewrite app_nil_r. auto. }
      destruct St as (ex & b0 & q & d & w & e & now & t0 & -> & <- & ->).
      destruct E1 as [(l2' & Etr & ->)|(o2 & -> & E1)].
      + destruct (fair_inv _ _ _ R N0 _ _ _ _ _ Etr Nab Wb) as [(x & J & C)|[(X & _)|(p1 & p2 & Eq & Na & _)]]; [exists x; split; auto; apply in_or_app; auto|discriminate|].
        cbn [r_q] in Eq. destruct (fair_start _ _ _ _ _ _ Eq) as [J|[->|(r & -> & _)]].
        * destruct (concerns_ex t0 _ _ J) as (x & K & C). exists x. split; auto. apply in_or_app; auto.
        * congruence.
        * exfalso. apply Na. apply in_or_app. simpl; auto.
      + exfalso. assert (J : In (OStart t1 (rb_buf b0)) (map (OExpire t0) (map rb_buf ex))) by (rewrite E1; apply in_or_app; simpl; auto).
        apply in_map_iff in J. destruct J as (? & ? & _). discriminate.
  Qed.

  Lemma start_before now0 s tr : reach now0 s tr -> forall l1 t a l2, tr = l1 ++ OStart t a :: l2 ->
    exists t0, In (OAdd t0 a) l1 /\ t0 <= t <= t0 + ttl.
  Proof.
    induction 1 as [|s tr s' o R IH E]; intros l1 t a l2 Et; [destruct l1; discriminate|].
    pose proof (reach_inv _ _ _ _ Hmax _ _ _ R) as I. pose proof (iv_age _ _ _ _ _ _ I) as Ag.
    apply app_cons_split in Et. destruct Et as [(l2' & Et & _)|(o1 & -> & Et)]; [eauto|].
    destruct E as [q next w e now t0 t' a0 L1 L2 Lq|q1 b0 q2 next w e now t0 t' a0 L1 L2 Lq F1 F2|ex d w e now t0 t' L1 L2 L3 F0|ex b0 q d w e now t0 L1 L2 F0 Lb|b0 q next a0 w e now t' oc L1 No|b0 q next a0 w e now t' L1|q next w e now];
      try (exfalso; destruct o1 as [|? [|? [|? ?]]]; cbn in Et; inversion Et; fail).
    - exfalso. assert (J : In (OStart t a) (map (OExpire t0) (map rb_buf ex))) by (rewrite Et; apply in_or_app; simpl; auto).
      apply in_map_iff in J. destruct J as (? & ? & _). discriminate.
    - apply app_cons_split in Et. destruct Et as [(l2' & Et & _)|(o2 & -> & Et)].
      { exfalso. assert (J : In (OStart t a) (map (OExpire t0) (map rb_buf ex))) by (rewrite Et; apply in_or_app; simpl; auto).
        apply in_map_iff in J. destruct J as (? & ? & _). discriminate. }
      destruct o2 as [|? [|? ?]]; cbn in Et; inversion Et; subst. cbn [r_q r_now] in *. apply Forall_app in Ag. destruct Ag as [_ Ag].
      inversion Ag as [|? ? (u & J & K & Eu) _]; subst. exists u. split; [apply in_or_app; auto|lia].
  Qed.

  Lemma timed now0 s tr : reach now0 s tr -> well_timed ttl interval tr.
  Proof.
    intros R. pose proof (reach_inv _ _ _ _ Hmax _ _ _ R) as I. split; [|apply (iv_expire _ _ _ _ _ _ I)].
    intros l1 t a l2 ->. split; [eapply start_before; eauto|].
    destruct (iv_pair _ _ _ _ _ _ I _ _ _ _ eq_refl) as [->|(te & o & l3 & -> & L)]; [auto|]. right. exists te, o, l3. split; auto. split; auto.
    intros t2 b J. pose proof (iv_gap _ _ _ _ _ _ I) as G. apply fop_app in G. destruct G as (_ & G & _). inversion G as [|? ? _ G2]; subst.
    inversion G2 as [|? ? G3 _]; subst. rewrite Forall_forall in G3. exact (G3 _ J).
  Qed.

  Lemma never_attempted now0 s tr : reach now0 s tr -> NoDup (added tr) -> final tr.
  Proof.
    intros R N l1 t a l2 -> G. pose proof (never_again _ _ _ R N) as F. apply fop_app in F. destruct F as (_ & _ & F).
    apply gone_one in G. destruct G as (x & J & K). apply (F x (OStart t a) J (or_introl eq_refl) t a K). auto.
  Qed.

  Lemma armed now0 s tr : reach now0 s tr -> r_ph s = RIdle -> r_q s <> [] ->
    exists d, r_next s = Some d /\ d <= r_now s + interval /\
      forall t t', r_now s <= t -> d <= t -> t <= t' -> exists s' o, rstep maxB ttl interval s (LFire t t') = Some (s', o) /\ o <> [].
  Proof.
    intros R P Q. pose proof (reach_inv _ _ _ _ Hmax _ _ _ R) as I. pose proof (iv_next _ _ _ _ _ _ I) as N. rewrite P in N. destruct N as [N1 N2].
    destruct (r_next s) as [d|] eqn:E; [|exfalso; apply Q; apply N1; auto]. exists d. split; auto. split; auto.
    intros t t' L1 L2 L3. unfold rstep. rewrite P, E. replace ((r_now s <=? t) && (d <=? t) && (t <=? t')) with true by lia.
    destruct (qFront_spec _ (r_q s) t) as (ex & q' & Eq & F & -> & _). destruct q' as [|b q'].
    - do 2 eexists. split; [reflexivity|]. destruct ex; [rewrite Eq in Q; contradiction|discriminate].
    - do 2 eexists. split; [reflexivity|]. intros X. apply app_eq_nil in X. destruct X; discriminate.
  Qed.
End Main.

Lemma Write_classes r :
  (Write r = WOk <-> exists code, r = Status code /\ 200 <= code <= 299) /\
  (Write r = WPerm <-> r = BadRequest \/ exists code, r = Status code /\ 400 <= code <= 499) /\
  (Write r = WTemp <-> r = NoResponse \/ exists code, r = Status code /\ ~ 200 <= code <= 299 /\ ~ 400 <= code <= 499).
Proof.
  destruct r as [| |code].
  - cbn. repeat split; intros H; try discriminate; try (destruct H as (x & G & _); discriminate); auto; destruct H as [G|(x & G & _)]; discriminate.
  - cbn. repeat split; intros H; try discriminate; try (destruct H as (x & G & _); discriminate); auto; destruct H as [G|(x & G & _)]; discriminate.
  - unfold Write, isHTTPPOSTSuccess, isHTTPClientError.
    assert (K : forall P : Z -> Prop, (exists c, Status code = Status c /\ P c) <-> P code).
    { intros P. split; [intros (c & E & H); inversion E; subst; auto|intros H; exists code; auto]. }
    rewrite !K. destruct (200 <=? code) eqn:E1, (code <? 300) eqn:E2, (400 <=? code) eqn:E3, (code <? 500) eqn:E4; cbn [andb negb];
      (split; [split|split; split]); intros H; try discriminate; try lia; try (destruct H as [H|H]; [discriminate|lia]); try (right; lia); auto.
Qed.
