From Verif Require Import Base Retry RetrySpec.
Local Open Scope Z_scope.

Lemma app_cons_split {X} (tr o l1 l2 : list X) x : tr ++ o = l1 ++ x :: l2 ->
  (exists l2', tr = l1 ++ x :: l2' /\ l2 = l2' ++ o) \/ (exists o1, l1 = tr ++ o1 /\ o = o1 ++ x :: l2).
Proof.
  revert l1. induction tr as [|y tr IH]; intros l1 E; cbn in E.
  - right. exists l1. auto.
  - destruct l1 as [|z l1]; cbn in E; inversion E; subst.
    + left. exists tr. auto.
    + destruct (IH l1 H1) as [(l2' & -> & ->)|(o1 & -> & ->)]; [left; exists l2'; auto|right; exists o1; auto].
Qed.

Lemma fop_app {X} (R : X -> X -> Prop) l l' :
  ForallOrdPairs R (l ++ l') <-> ForallOrdPairs R l /\ ForallOrdPairs R l' /\ (forall x y, In x l -> In y l' -> R x y).
Proof.
  induction l as [|a l IH]; cbn [app].
  - split; [intros H; split; [constructor|split; [auto|intros x y []]]|tauto].
  - split.
    + intros H. inversion H as [|? ? F P]; subst. apply IH in P. destruct P as (P1 & P2 & P3). rewrite Forall_app in F.
      destruct F as [F1 F2]. rewrite Forall_forall in F2. split; [constructor; auto|]. split; auto.
      intros x y [->|I] J; auto.
    + intros (P1 & P2 & P3). inversion P1 as [|? ? F P]; subst. constructor.
      * apply Forall_app. split; auto. apply Forall_forall. intros y J. apply P3; simpl; auto.
      * apply IH. split; auto. split; auto. intros x y I J. apply P3; simpl; auto.
Qed.
Lemma fop_split {X} (R : X -> X -> Prop) l1 x l2 : ForallOrdPairs R (l1 ++ x :: l2) -> forall y, In y l2 -> R x y.
Proof. intros H y I. apply fop_app in H. destruct H as (_ & H & _). inversion H as [|? ? F _]; subst. rewrite Forall_forall in F. auto. Qed.

(** Positions and minima. *)
Section Pure.
  Variable A : Type.
  Implicit Types q : list (retryBatch A).

  Lemma oldest_spec : forall q i best, 
    match best with None => True | Some (j, m) => (j < i)%nat end ->
    match oldest q i best with
    | None => best = None /\ q = []
    | Some (k, m) =>
        (best = Some (k, m) /\ Forall (fun b => m <= rb_ttl b) q) \/
        (exists j b, k = (i + j)%nat /\ nth_error q j = Some b /\ m = rb_ttl b /\
           Forall (fun x => m < rb_ttl x) (firstn j q) /\ Forall (fun x => m <= rb_ttl x) (skipn (S j) q) /\
           match best with None => True | Some (_, m') => m < m' end)
    end.
  Proof.
    induction q as [|b q IH]; intros i best Hb; cbn [oldest].
    - destruct best as [[k m]|]; auto.
    - set (best' := match best with None => _ | Some _ => _ end).
      assert (Hb' : match best' with None => True | Some (j, m) => (j < S i)%nat end).
      { unfold best'. destruct best as [[j m]|]; [destruct (rb_ttl b <? m)|]; lia. }
      specialize (IH (S i) best' Hb'). destruct (oldest q (S i) best') as [[k m]|] eqn:Eo.
      + destruct IH as [[E F]|(j & x & -> & N & -> & F1 & F2 & M)].
        * unfold best' in E. destruct best as [[k0 m0]|].
          -- destruct (rb_ttl b <? m0) eqn:L.
             ++ inversion E; subst. right. exists 0%nat, b. rewrite Nat.add_0_r. cbn. repeat split; auto. lia.
             ++ inversion E; subst. left. split; auto. constructor; auto. lia.
          -- inversion E; subst. right. exists 0%nat, b. rewrite Nat.add_0_r. cbn. repeat split; auto.
        * right. exists (S j), x. split; [lia|]. cbn [nth_error firstn skipn]. split; auto. split; auto.
          assert (Hbx : rb_ttl x < rb_ttl b /\ match best with None => True | Some (_, m') => rb_ttl x < m' end).
          { unfold best' in M. destruct best as [[k0 m0]|]; [destruct (rb_ttl b <? m0) eqn:L|]; split; auto; lia. }
          destruct Hbx. split; [constructor; auto|]. split; auto.
      + destruct IH as [E _]. exfalso. unfold best' in E. destruct best as [[? ?]|]; [destruct (_ <? _)|]; discriminate.
  Qed.

  Lemma nth_split (q : list (retryBatch A)) j b : nth_error q j = Some b -> q = firstn j q ++ b :: skipn (S j) q.
  Proof.
    revert j; induction q as [|x q IH]; intros [|j] H; try discriminate; cbn in *; [congruence|]. f_equal. auto.
  Qed.

  Lemma removeOldest_spec q : q <> [] -> exists l1 b l2, q = l1 ++ b :: l2 /\
    removeOldest q = (l1 ++ l2, [rb_buf b]) /\
    Forall (fun x => rb_ttl b < rb_ttl x) l1 /\ Forall (fun x => rb_ttl b <= rb_ttl x) l2.
  Proof.
    intros N. unfold removeOldest. pose proof (oldest_spec q 0 None I) as H. destruct (oldest q 0 None) as [[k m]|].
    - destruct H as [[E _]|(j & b & -> & Nb & -> & F1 & F2 & _)]; [discriminate|]. cbn [Nat.add].
      exists (firstn j q), b, (skipn (S j) q). rewrite Nb. split; [apply nth_split; auto|]. auto.
    - destruct H; contradiction.
  Qed.

  Lemma qFront_spec q now : exists ex q', q = ex ++ q' /\ Forall (fun b => rb_ttl b < now) ex /\
    qFront q now = (q', map rb_buf ex, match q' with [] => None | b :: _ => Some (rb_buf b) end) /\
    match q' with [] => True | b :: _ => now <= rb_ttl b end.
  Proof.
    induction q as [|b q IH]; cbn [qFront].
    - exists [], []. auto.
    - destruct (rb_ttl b <? now) eqn:L.
      + destruct IH as (ex & q' & -> & F & -> & M). exists (b :: ex), q'. cbn. repeat split; auto. constructor; auto. lia.
      + exists [], (b :: q). cbn. repeat split; auto. lia.
  Qed.
End Pure.

Section Run.
  Variable A : Type.
  Variables maxB ttl interval : Z.
  Hypothesis Hmax : 1 <= maxB.
  Notation rstep := (rstep maxB ttl interval).
  Notation rrun := (rrun maxB ttl interval).
  Implicit Types (tr : list (robs A)) (s : rstate A).

  Lemma added_app l l' : added (l ++ l' : list (robs A)) = added l ++ added l'. Proof. apply flat_map_app. Qed.
  Lemma evicted_app l l' : evicted (l ++ l' : list (robs A)) = evicted l ++ evicted l'. Proof. apply flat_map_app. Qed.
  Lemma expired_app l l' : expired (l ++ l' : list (robs A)) = expired l ++ expired l'. Proof. apply flat_map_app. Qed.
  Lemma delivered_app l l' : delivered (l ++ l' : list (robs A)) = delivered l ++ delivered l'. Proof. apply flat_map_app. Qed.
  Lemma rejected_app l l' : rejected (l ++ l' : list (robs A)) = rejected l ++ rejected l'. Proof. apply flat_map_app. Qed.
  Lemma attempts_app l l' : attempts (l ++ l' : list (robs A)) = attempts l ++ attempts l'. Proof. apply flat_map_app. Qed.

  Lemma gone_app l l' : Permutation (gone (l ++ l' : list (robs A))) (gone l ++ gone l').
  Proof.
    unfold gone. rewrite delivered_app, rejected_app, expired_app, evicted_app. rewrite <- !app_assoc.
    apply Permutation_app_head.
    rewrite (Permutation_app_swap_app (delivered l')).
    apply Permutation_app_head.
    rewrite (app_assoc (delivered l')). rewrite (Permutation_app_swap_app (delivered l' ++ rejected l')).
    apply Permutation_app_head.
    rewrite (app_assoc (delivered l' ++ rejected l')). rewrite (Permutation_app_swap_app ((delivered l' ++ rejected l') ++ expired l')).
    apply Permutation_app_head. rewrite <- !app_assoc. auto.
  Qed.
  Lemma gone_in l l' a : In a (gone (l ++ l' : list (robs A))) <-> In a (gone l) \/ In a (gone l').
  Proof. rewrite <- in_app_iff. split; apply Permutation_in; [|apply Permutation_sym]; apply gone_app. Qed.

  Lemma fm_expire t ex (f : robs A -> list A) : (forall a, f (OExpire t a) = []) -> flat_map f (map (OExpire t) ex) = [].
  Proof. intros H. induction ex; cbn; auto. rewrite H; auto. Qed.
  Lemma expired_ex t ex : expired (map (OExpire t) ex : list (robs A)) = ex.
  Proof. induction ex; cbn; auto. f_equal; auto. Qed.
  Lemma gone_ex t ex : gone (map (OExpire t) ex : list (robs A)) = ex.
  Proof.
    unfold gone. unfold delivered, rejected, evicted. rewrite !fm_expire by auto. rewrite expired_ex. apply app_nil_r.
  Qed.
  Lemma added_ex t ex : added (map (OExpire t) ex : list (robs A)) = [].
  Proof. apply fm_expire. auto. Qed.

  (** The effect of one step, case by case. *)
  Inductive effect : rstate A -> rstate A -> list (robs A) -> Prop :=
  | ef_in q next w e now t t' a : now <= t -> t <= t' -> Z.of_nat (length q) < maxB ->
      effect (mkR q next RIdle w e now)
             (mkR (q ++ [mkRB a (t + ttl)]) (Some (match next with Some d => d | None => t' + interval end)) RIdle w e t')
             [OAdd t a]
  | ef_evict q1 b q2 next w e now t t' a : now <= t -> t <= t' -> maxB <= Z.of_nat (length (q1 ++ b :: q2)) ->
      Forall (fun x => rb_ttl b < rb_ttl x) q1 -> Forall (fun x => rb_ttl b <= rb_ttl x) q2 ->
      effect (mkR (q1 ++ b :: q2) next RIdle w e now)
             (mkR ((q1 ++ q2) ++ [mkRB a (t + ttl)]) (Some (match next with Some d => d | None => t' + interval end)) RIdle w e t')
             [OEvict (rb_buf b); OAdd t a]
  | ef_none ex d w e now t t' : now <= t -> d <= t -> t <= t' -> Forall (fun b => rb_ttl b < t) ex ->
      effect (mkR ex (Some d) RIdle w e now) (mkR [] None RIdle w e t') (map (OExpire t) (map rb_buf ex))
  | ef_start ex b q d w e now t : now <= t -> d <= t -> Forall (fun b => rb_ttl b < t) ex -> t <= rb_ttl b ->
      effect (mkR (ex ++ b :: q) (Some d) RIdle w e now)
             (mkR (b :: q) None (RWriting (rb_buf b)) (report maxB w) e t)
             (map (OExpire t) (map rb_buf ex) ++ [OStart t (rb_buf b)])
  | ef_drop b q next a w e now t' o : now <= t' -> o <> WTemp ->
      effect (mkR (b :: q) next (RWriting a) w e now)
             (mkR q (arm interval next q t') RIdle w (match o with WOk => e | _ => report maxB e end) t') [OEnd t' a o]
  | ef_cycle b q next a w e now t' : now <= t' ->
      effect (mkR (b :: q) next (RWriting a) w e now)
             (mkR (q ++ [b]) (Some (match next with Some d => d | None => t' + interval end)) RIdle w (report maxB e) t') [OEnd t' a WTemp]
  | ef_stop q next w e now : effect (mkR q next RIdle w e now) (mkR q next RStopped w e now) [OStop].

  Lemma arm_some q b next t' : arm interval next (q ++ [b] : list (retryBatch A)) t' = Some (match next with Some d => d | None => t' + interval end).
  Proof. destruct next; auto. destruct q; auto. Qed.

  Lemma step_effect s l s' o : rstep s l = Some (s', o) ->
    match r_ph s with RWriting a => exists b q, r_q s = b :: q /\ rb_buf b = a | _ => True end -> effect s s' o.
  Proof.
    intros H P. destruct s as [q next ph w e now]. unfold Retry.rstep in H. cbn [r_q r_next r_ph r_writes r_errs r_now] in *.
    destruct l as [t t' a|t t'|t' oc|]; destruct ph as [|a0|]; try discriminate.
    - destruct ((now <=? t) && (t <=? t')) eqn:L; [|discriminate]. apply andb_prop in L. destruct L as [L1 L2].
      unfold qAdd in H. destruct (maxB <=? Z.of_nat (length q)) eqn:Lm.
      + assert (N : q <> []) by (intros ->; cbn in Lm; lia).
        destruct (removeOldest_spec A q N) as (l1 & b & l2 & -> & R & F1 & F2). rewrite R in H.
        rewrite arm_some in H. inversion H; subst. apply ef_evict; auto; lia.
      + rewrite arm_some in H. inversion H; subst. apply ef_in; auto; lia.
    - destruct next as [d|]; [|discriminate].
      destruct ((now <=? t) && (d <=? t) && (t <=? t')) eqn:L; [|discriminate].
      apply andb_prop in L. destruct L as [L L3]. apply andb_prop in L. destruct L as [L1 L2].
      destruct (qFront_spec A q t) as (ex & q' & -> & F & R & M). rewrite R in H. destruct q' as [|b q'].
      + inversion H; subst. rewrite app_nil_r. apply ef_none; auto; lia.
      + inversion H; subst. apply ef_start; auto; lia.
    - destruct (now <=? t') eqn:L; [|discriminate]. destruct P as (b & q' & -> & E). apply Z.leb_le in L.
      destruct oc; cbn [qDropFront qCycleFront] in H; try rewrite arm_some in H; inversion H; subst.
      + apply (ef_drop b q' next (rb_buf b) w e now t' WOk); auto; discriminate.
      + apply (ef_drop b q' next (rb_buf b) w e now t' WPerm); auto; discriminate.
      + apply ef_cycle; auto.
    - inversion H; subst. apply ef_stop.
  Qed.

  (** Runs, one more step at a time. *)
  Inductive reach (now0 : Z) : rstate A -> list (robs A) -> Prop :=
  | reach_init : reach now0 (newRetry now0) []
  | reach_step s tr s' o : reach now0 s tr -> effect s s' o -> reach now0 s' (tr ++ o).

  Lemma run_app s ls1 ls2 : rrun s (ls1 ++ ls2) =
    match rrun s ls1 with None => None | Some (s1, o1) =>
      match rrun s1 ls2 with None => None | Some (s2, o2) => Some (s2, o1 ++ o2) end end.
  Proof.
    revert s. induction ls1 as [|l ls1 IH]; intros s; cbn [app Retry.rrun].
    - destruct (rrun s ls2) as [[? ?]|]; auto.
    - destruct (rstep s l) as [[s1 o1]|]; auto. rewrite IH. destruct (rrun s1 ls1) as [[s2 o2]|]; auto.
      destruct (rrun s2 ls2) as [[s3 o3]|]; auto. rewrite app_assoc. auto.
  Qed.

  (** The basic invariant. *)
  Record inv s tr : Prop := mkInv {
    iv_perm : Permutation (added tr) (map rb_buf (r_q s) ++ gone tr);
    iv_len : Z.of_nat (length (r_q s)) <= maxB;
    iv_age : Forall (fun b => exists t0, In (OAdd t0 (rb_buf b)) tr /\ t0 <= r_now s /\ rb_ttl b = t0 + ttl) (r_q s);
    iv_ph : match r_ph s with RWriting a => exists b q, r_q s = b :: q /\ rb_buf b = a | _ => True end;
    iv_next : match r_ph s with RWriting _ => r_next s = None | _ => (r_next s = None <-> r_q s = []) /\ forall d, r_next s = Some d -> d <= r_now s + interval end;
    iv_busy : match r_ph s with RWriting a => exists tr' t, tr = tr' ++ [OStart t a] /\ r_now s = t | _ => forall tr' t a, tr <> tr' ++ [OStart t a] end;
    iv_start : forall t a, In (OStart t a) tr -> t <= r_now s /\ exists t0, In (OAdd t0 a) tr /\ t0 <= t <= t0 + ttl;
    iv_expire : forall t a, In (OExpire t a) tr -> exists t0, In (OAdd t0 a) tr /\ t0 + ttl < t;
    iv_pair : forall l1 t a l2, tr = l1 ++ OStart t a :: l2 -> l2 = [] \/ exists te o l3, l2 = OEnd te a o :: l3 /\ t <= te;
    iv_end : forall te a o, In (OEnd te a o) tr -> te <= r_now s /\ (forall d, r_next s = Some d -> te + interval <= d);
    iv_gap : ForallOrdPairs (fun x y => match x, y with OEnd te _ _, OStart t _ => te + interval <= t | _, _ => True end) tr }.

  Lemma no_start_ex tr t ex : ex <> [] -> forall tr' t' a, tr ++ map (OExpire t) ex <> tr' ++ [OStart t' a].
  Proof.
    intros N tr' t' a E. destruct (exists_last N) as (ex' & x & ->). rewrite map_app, app_assoc in E.
    apply app_inj_tail in E. destruct E; discriminate.
  Qed.

  Lemma report_ge w : w <= report maxB w. Proof. unfold report. destruct (_ <? _); lia. Qed.

  Lemma inv_step s tr s' o : inv s tr -> effect s s' o -> inv s' (tr ++ o).
  Proof.
    intros I E. destruct I as [Ip Il Ia Ih In_ Ib Is Ie Ir Ien Ig]. 
    assert (AgeUp : forall now' q tr2, r_now s <= now' -> Forall (fun b => exists t0, In (OAdd t0 (rb_buf b)) tr /\ t0 <= r_now s /\ rb_ttl b = t0 + ttl) q ->
       Forall (fun b => exists t0, In (OAdd t0 (rb_buf b)) (tr ++ tr2) /\ t0 <= now' /\ rb_ttl b = t0 + ttl) q).
    { intros now' q tr2 L. apply Forall_impl. intros b (t0 & I & L0 & Et). exists t0. split; [apply in_or_app; auto|]. split; [lia|auto]. }
    destruct E as [q next w e now t t' a L1 L2 Lq|q1 b q2 next w e now t t' a L1 L2 Lq F1 F2|ex d w e now t t' L1 L2 L3 F|ex b q d w e now t L1 L2 F Lb|b q next a w e now t' oc L1 No|b q next a w e now t' L1|q next w e now];
    cbn [r_q r_next r_ph r_writes r_errs r_now] in *.
    - (* add *)
      constructor; cbn [r_q r_next r_ph r_writes r_errs r_now].
      + rewrite added_app, map_app. cbn [added flat_map map rb_buf app]. rewrite gone_app. change (gone [OAdd t a]) with (@nil A).
        rewrite app_nil_r. rewrite Ip. rewrite <- !app_assoc. apply Permutation_app_head. apply Permutation_app_comm.
      + rewrite app_length. cbn. lia.
      + apply Forall_app. split; [apply AgeUp; auto; lia|]. constructor; auto. exists t. cbn. split; [apply in_or_app; simpl; auto|]. split; [lia|auto].
      + auto.
      + split; [split; [discriminate|destruct q; discriminate]|]. intros d Hd. inversion Hd; subst. destruct next as [d|]; [|lia].
        destruct In_ as [_ In_]. specialize (In_ d eq_refl). lia.
      + intros tr' t0 a0 E. apply app_inj_tail in E. destruct E; discriminate.
      + intros t0 a0 I. apply in_app_or in I. destruct I as [I|[I|[]]]; [|discriminate]. destruct (Is t0 a0 I) as (Lt & t1 & J & K).
        split; [lia|]. exists t1. split; [apply in_or_app; auto|auto].
      + intros t0 a0 I. apply in_app_or in I. destruct I as [I|[I|[]]]; [|discriminate]. destruct (Ie t0 a0 I) as (t1 & J & K).
        exists t1. split; [apply in_or_app; auto|auto].
      + intros l1 t0 a0 l2 E. apply app_cons_split in E. destruct E as [(l2' & E & ->)|(o1 & _ & E)].
        * destruct (Ir _ _ _ _ E) as [->|(te & o & l3 & -> & L)]; [|right; exists te, o, (l3 ++ [OAdd t a]); auto].
          exfalso. exact (Ib _ _ _ E).
        * destruct o1 as [|x [|y o1]]; cbn in E; inversion E.
      + intros te a0 o I. apply in_app_or in I. destruct I as [I|[I|[]]]; [|discriminate]. destruct (Ien te a0 o I) as [K1 K2].
        split; [lia|]. intros d Hd. inversion Hd; subst. destruct next as [d|]; [auto|lia].
      + apply fop_app. split; auto. split; [repeat constructor|]. intros x y _ [<-|[]]. destruct x; auto.
    - (* evict and add *)
      constructor; cbn [r_q r_next r_ph r_writes r_errs r_now].
      + rewrite added_app, map_app. cbn [added flat_map map rb_buf app]. rewrite gone_app. change (gone [OEvict (rb_buf b); OAdd t a]) with [rb_buf b].
        rewrite Ip. rewrite !map_app. cbn [map]. rewrite <- !app_assoc. apply Permutation_app_head. cbn [app].
        rewrite (Permutation_app_comm (gone tr) [a]). rewrite Permutation_cons_append. cbn [app].
        rewrite <- app_assoc. cbn [app]. auto.
      + rewrite !app_length in *. cbn in *. lia.
      + apply Forall_app in Ia. destruct Ia as [Ia1 Ia2]. inversion Ia2; subst.
        apply Forall_app. split; [apply AgeUp; [lia|apply Forall_app; auto]|]. constructor; auto. exists t. cbn. split; [apply in_or_app; simpl; auto|]. split; [lia|auto].
      + auto.
      + split; [split; [discriminate|intros E; apply app_eq_nil in E; destruct E; discriminate]|]. intros d Hd. inversion Hd; subst. destruct next as [d|]; [|lia].
        destruct In_ as [_ In_]. specialize (In_ d eq_refl). lia.
      + intros tr' t0 a0 E. change [OEvict (rb_buf b); OAdd t a] with ([OEvict (rb_buf b)] ++ [OAdd t a]) in E. rewrite app_assoc in E. apply app_inj_tail in E. destruct E; discriminate.
      + intros t0 a0 I. apply in_app_or in I. destruct I as [I|[I|[I|[]]]]; try discriminate. destruct (Is t0 a0 I) as (Lt & t1 & J & K).
        split; [lia|]. exists t1. split; [apply in_or_app; auto|auto].
      + intros t0 a0 I. apply in_app_or in I. destruct I as [I|[I|[I|[]]]]; try discriminate. destruct (Ie t0 a0 I) as (t1 & J & K).
        exists t1. split; [apply in_or_app; auto|auto].
      + intros l1 t0 a0 l2 E. apply app_cons_split in E. destruct E as [(l2' & E & ->)|(o1 & _ & E)].
        * destruct (Ir _ _ _ _ E) as [->|(te & o & l3 & -> & L)]; [|right; exists te, o, (l3 ++ [OEvict (rb_buf b); OAdd t a]); auto].
          exfalso. exact (Ib _ _ _ E).
        * destruct o1 as [|x [|y [|z o1]]]; cbn in E; inversion E.
      + intros te a0 o I. apply in_app_or in I. destruct I as [I|[I|[I|[]]]]; try discriminate. destruct (Ien te a0 o I) as [K1 K2].
        split; [lia|]. intros d Hd. inversion Hd; subst. destruct next as [d|]; [auto|lia].
      + apply fop_app. split; auto. split; [repeat constructor|]. intros x y _ [<-|[<-|[]]]; destruct x; auto.
    - (* only expiry *)
      constructor; cbn [r_q r_next r_ph r_writes r_errs r_now].
      + rewrite added_app, gone_app, gone_ex, added_ex, app_nil_r. cbn [map app]. rewrite Ip. apply Permutation_app_comm.
      + cbn. lia.
      + constructor.
      + auto.
      + split; [tauto|]. discriminate.
      + destruct ex as [|b0 ex]; [cbn [map]; rewrite app_nil_r; auto|]. apply no_start_ex. discriminate.
      + intros t0 a0 I. apply in_app_or in I. destruct I as [I|I]; [|apply in_map_iff in I; destruct I as (? & ? & _); discriminate].
        destruct (Is t0 a0 I) as (Lt & t1 & J & K). split; [lia|]. exists t1. split; [apply in_or_app; auto|auto].
      + intros t0 a0 I. apply in_app_or in I. destruct I as [I|I].
        * destruct (Ie t0 a0 I) as (t1 & J & K). exists t1. split; [apply in_or_app; auto|auto].
        * apply in_map_iff in I. destruct I as (x & Ex & I). inversion Ex; subst. apply in_map_iff in I. destruct I as (bb & <- & I).
          rewrite Forall_forall in Ia, F. destruct (Ia bb I) as (t1 & J & K & Et). exists t1. split; [apply in_or_app; auto|]. specialize (F bb I). cbn beta in F. lia.
      + intros l1 t0 a0 l2 E. apply app_cons_split in E. destruct E as [(l2' & E & ->)|(o1 & _ & E)].
        * destruct (Ir _ _ _ _ E) as [->|(te & o & l3 & -> & L)]; [|right; exists te, o, (l3 ++ map (OExpire t) (map rb_buf ex)); auto].
          exfalso. exact (Ib _ _ _ E).
        * exfalso. assert (I : In (OStart t0 a0) (map (OExpire t) (map rb_buf ex))) by (rewrite E; apply in_or_app; simpl; auto).
          apply in_map_iff in I. destruct I as (? & ? & _); discriminate.
      + intros te a0 o I. apply in_app_or in I. destruct I as [I|I]; [|apply in_map_iff in I; destruct I as (? & ? & _); discriminate].
        destruct (Ien te a0 o I) as [K1 K2]. split; [lia|]. discriminate.
      + apply fop_app. split; auto. split.
        * clear. induction (map rb_buf ex) as [|x l IH]; cbn [map]; [constructor|]. constructor; auto. apply Forall_forall. auto.
        * intros x y _ I. apply in_map_iff in I. destruct I as (z & <- & _). destruct x; auto.
    - (* start *)
      constructor; cbn [r_q r_next r_ph r_writes r_errs r_now].
      + rewrite !added_app, !gone_app, gone_ex, added_ex. cbn [added flat_map app]. change (gone [OStart t (rb_buf b)]) with (@nil A).
        rewrite !app_nil_r. rewrite Ip, map_app. rewrite <- app_assoc.
        rewrite Permutation_app_comm, <- app_assoc. auto.
      + rewrite app_length in Il. cbn in *. lia.
      + apply Forall_app in Ia. destruct Ia as [Ia1 Ia2]. apply AgeUp; auto; lia.
      + eauto.
      + auto.
      + rewrite app_assoc. eauto.
      + intros t0 a0 I. rewrite app_assoc in I. apply in_app_or in I. destruct I as [I|[I|[]]].
        * apply in_app_or in I. destruct I as [I|I]; [|apply in_map_iff in I; destruct I as (? & ? & _); discriminate].
          destruct (Is t0 a0 I) as (Lt & t1 & J & K). split; [lia|]. exists t1. split; [apply in_or_app; auto|auto].
        * inversion I; subst. split; [lia|]. apply Forall_app in Ia. destruct Ia as [_ Ia]. inversion Ia as [|? ? (t1 & J & K & Et) _]; subst.
          exists t1. split; [apply in_or_app; auto|]. lia.
      + intros t0 a0 I. rewrite app_assoc in I. apply in_app_or in I. destruct I as [I|[I|[]]]; [|discriminate]. apply in_app_or in I. destruct I as [I|I].
        * destruct (Ie t0 a0 I) as (t1 & J & K). exists t1. split; [apply in_or_app; auto|auto].
        * apply in_map_iff in I. destruct I as (x & Ex & I). inversion Ex; subst. apply in_map_iff in I. destruct I as (bb & <- & I).
          apply Forall_app in Ia. destruct Ia as [Ia _].
          rewrite Forall_forall in Ia, F. destruct (Ia bb I) as (t1 & J & K & Et). exists t1. split; [apply in_or_app; auto|]. specialize (F bb I). cbn beta in F. lia.
      + intros l1 t0 a0 l2 E. apply app_cons_split in E. destruct E as [(l2' & E & ->)|(o1 & _ & E)].
        * destruct (Ir _ _ _ _ E) as [->|(te & o & l3 & -> & L)]; [|right; eexists te, o, (l3 ++ _); split; [cbn [app]; reflexivity|auto]].
          exfalso. exact (Ib _ _ _ E).
        * apply app_cons_split in E. destruct E as [(l2' & E & ->)|(o2 & -> & E)].
          -- exfalso. assert (I : In (OStart t0 a0) (map (OExpire t) (map rb_buf ex))) by (rewrite E; apply in_or_app; simpl; auto).
             apply in_map_iff in I. destruct I as (? & ? & _); discriminate.
          -- destruct o2 as [|x [|y o2]]; cbn in E; inversion E; subst. auto.
      + intros te a0 o I. rewrite app_assoc in I. apply in_app_or in I. destruct I as [I|[I|[]]]; [|discriminate].
        apply in_app_or in I. destruct I as [I|I]; [|apply in_map_iff in I; destruct I as (? & ? & _); discriminate].
        destruct (Ien te a0 o I) as [K1 K2]. split; [lia|]. discriminate.
      + rewrite app_assoc. apply fop_app. split; [apply fop_app; split; [auto|split]|split].
        * clear. induction (map rb_buf ex) as [|x l IH]; cbn [map]; [constructor|]. constructor; auto. apply Forall_forall. auto.
        * intros x y _ I. apply in_map_iff in I. destruct I as (z & <- & _). destruct x; auto.
        * repeat constructor.
        * intros x y I [<-|[]]. destruct x as [| | | |te a0 o|]; auto. apply in_app_or in I.
          destruct I as [I|I]; [|apply in_map_iff in I; destruct I as (? & ? & _); discriminate].
          destruct (Ien te a0 o I) as [_ K]. specialize (K d eq_refl). lia.
    - (* delivered or rejected *)
      destruct Ih as (b' & q' & E & Ea). inversion E; subst b' q'. clear E. subst a. destruct Ib as (tr' & ts & -> & Ets). subst next.
      constructor; cbn [r_q r_next r_ph r_writes r_errs r_now].
      + rewrite added_app, gone_app. cbn [added flat_map]. rewrite app_nil_r. rewrite Ip. cbn [map app].
        assert (G : gone [OEnd t' (rb_buf b) oc] = [rb_buf b]) by (destruct oc; auto; congruence). rewrite G.
        rewrite app_assoc. apply Permutation_cons_append.
      + cbn [length] in Il. lia.
      + inversion Ia; subst. apply AgeUp; auto; lia.
      + auto.
      + unfold arm. destruct q; split; try tauto; try discriminate.
        * split; discriminate.
        * intros d Hd. inversion Hd; subst. lia.
      + intros tr2 t0 a0 E. apply app_inj_tail in E. destruct E; discriminate.
      + intros t0 a0 I. apply in_app_or in I. destruct I as [I|[I|[]]]; [|discriminate]. destruct (Is t0 a0 I) as (Lt & t1 & J & K).
        split; [lia|]. exists t1. split; [apply in_or_app; auto|auto].
      + intros t0 a0 I. apply in_app_or in I. destruct I as [I|[I|[]]]; [|discriminate]. destruct (Ie t0 a0 I) as (t1 & J & K).
        exists t1. split; [apply in_or_app; auto|auto].
      + intros l1 t0 a0 l2 E. apply app_cons_split in E. destruct E as [(l2' & E & ->)|(o1 & _ & E)].
        * destruct (Ir _ _ _ _ E) as [->|(te & o & l3 & -> & L)]; [|right; eexists te, o, (l3 ++ _); split; [cbn [app]; reflexivity|auto]].
          apply app_inj_tail in E. destruct E as [_ E]. inversion E; subst. right. exists t', oc, []. split; auto.
        * destruct o1 as [|x [|y o1]]; cbn in E; inversion E.
      + intros te a0 o I. apply in_app_or in I. destruct I as [I|[I|[]]].
        * destruct (Ien te a0 o I) as [K1 K2]. split; [lia|]. intros d Hd. destruct q; inversion Hd; subst. lia.
        * inversion I; subst. split; [lia|]. intros d Hd. destruct q; inversion Hd; subst. lia.
      + apply fop_app. split; auto. split; [repeat constructor|]. intros x y _ [<-|[]]. destruct x; auto.
    - (* cycled *)
      destruct Ih as (b' & q' & E & Ea). inversion E; subst b' q'. clear E. subst a. destruct Ib as (tr' & ts & -> & Ets). subst next.
      constructor; cbn [r_q r_next r_ph r_writes r_errs r_now].
      + rewrite added_app, gone_app. cbn [added flat_map]. rewrite app_nil_r. change (gone [OEnd t' (rb_buf b) WTemp]) with (@nil A).
        rewrite app_nil_r, Ip, map_app. cbn [map app]. rewrite <- app_assoc. cbn [app]. apply Permutation_middle.
      + rewrite app_length. cbn [length] in *. lia.
      + inversion Ia; subst. apply Forall_app. split; [apply AgeUp; auto; lia|]. apply AgeUp; auto; lia.
      + auto.
      + split; [split; [discriminate|destruct q; discriminate]|]. intros d Hd. inversion Hd; subst. lia.
      + intros tr2 t0 a0 E. apply app_inj_tail in E. destruct E; discriminate.
      + intros t0 a0 I. apply in_app_or in I. destruct I as [I|[I|[]]]; [|discriminate]. destruct (Is t0 a0 I) as (Lt & t1 & J & K).
        split; [lia|]. exists t1. split; [apply in_or_app; auto|auto].
      + intros t0 a0 I. apply in_app_or in I. destruct I as [I|[I|[]]]; [|discriminate]. destruct (Ie t0 a0 I) as (t1 & J & K).
        exists t1. split; [apply in_or_app; auto|auto].
      + intros l1 t0 a0 l2 E. apply app_cons_split in E. destruct E as [(l2' & E & ->)|(o1 & _ & E)].
        * destruct (Ir _ _ _ _ E) as [->|(te & o & l3 & -> & L)]; [|right; eexists te, o, (l3 ++ _); split; [cbn [app]; reflexivity|auto]].
          apply app_inj_tail in E. destruct E as [_ E]. inversion E; subst. right. exists t', WTemp, []. split; auto.
        * destruct o1 as [|x [|y o1]]; cbn in E; inversion E.
      + intros te a0 o I. apply in_app_or in I. destruct I as [I|[I|[]]].
        * destruct (Ien te a0 o I) as [K1 K2]. split; [lia|]. intros d Hd. inversion Hd; subst. lia.
        * inversion I; subst. split; [lia|]. intros d Hd. inversion Hd; subst. lia.
      + apply fop_app. split; auto. split; [repeat constructor|]. intros x y _ [<-|[]]. destruct x; auto.
    - (* stop *)
      constructor; cbn [r_q r_next r_ph r_writes r_errs r_now].
      + rewrite added_app, gone_app. cbn [added flat_map]. change (gone [@OStop A]) with (@nil A). rewrite !app_nil_r. auto.
      + auto.
      + apply AgeUp; auto; lia.
      + auto.
      + auto.
      + intros tr' t0 a0 E. apply app_inj_tail in E. destruct E; discriminate.
      + intros t0 a0 I. apply in_app_or in I. destruct I as [I|[I|[]]]; [|discriminate]. destruct (Is t0 a0 I) as (Lt & t1 & J & K).
        split; [lia|]. exists t1. split; [apply in_or_app; auto|auto].
      + intros t0 a0 I. apply in_app_or in I. destruct I as [I|[I|[]]]; [|discriminate]. destruct (Ie t0 a0 I) as (t1 & J & K).
        exists t1. split; [apply in_or_app; auto|auto].
      + intros l1 t0 a0 l2 E. apply app_cons_split in E. destruct E as [(l2' & E & ->)|(o1 & _ & E)].
        * destruct (Ir _ _ _ _ E) as [->|(te & o & l3 & -> & L)]; [|right; exists te, o, (l3 ++ [OStop]); auto].
          exfalso. exact (Ib _ _ _ E).
        * destruct o1 as [|x [|y o1]]; cbn in E; inversion E.
      + intros te a0 o I. apply in_app_or in I. destruct I as [I|[I|[]]]; [|discriminate]. destruct (Ien te a0 o I) as [K1 K2]. split; auto.
      + apply fop_app. split; auto. split; [repeat constructor|]. intros x y _ [<-|[]]. destruct x; auto.
  Qed.

  Lemma inv_init now0 : inv (newRetry now0) [].
  Proof.
    constructor; cbn; auto; try (intros; contradiction); try lia.
    - split; [tauto|discriminate].
    - intros [|? tr'] t a; discriminate.
    - intros [|? l1]; discriminate.
    - constructor.
  Qed.

  Lemma reach_inv now0 s tr : reach now0 s tr -> inv s tr.
  Proof. induction 1; [apply inv_init|eapply inv_step; eauto]. Qed.

  Lemma run_reach now0 ls : forall s tr, rrun (newRetry now0) ls = Some (s, tr) -> reach now0 s tr.
  Proof.
    induction ls as [|l ls IH] using rev_ind; intros s tr H.
    - inversion H; subst. constructor.
    - rewrite run_app in H. destruct (rrun (newRetry now0) ls) as [[s1 o1]|] eqn:E; [|discriminate].
      cbn [Retry.rrun] in H. destruct (rstep s1 l) as [[s2 o2]|] eqn:E2; [|discriminate]. inversion H; subst.
      rewrite app_nil_r. econstructor; [apply IH; eauto|]. eapply step_effect; eauto. apply (iv_ph _ _ (reach_inv _ _ _ (IH _ _ eq_refl))).
  Qed.
End Run.
