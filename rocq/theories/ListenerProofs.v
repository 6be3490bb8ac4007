From Verif Require Import Base Timestamps NumProofs Splitter SplitterProofs Batch BatchSpec BatchProofs
  LinesSpec Listener ListenerSpec.
Local Open Scope Z_scope.

Lemma natsMax_Z : Z.of_nat natsMax = 1048576.
Proof. unfold natsMax, MaxNATSMsgSize. rewrite Z2Nat.id; lia. Qed.

Lemma natsMax_pos : (1 <= natsMax)%nat.
Proof. pose proof natsMax_Z. lia. Qed.

Global Opaque natsMax.

Lemma fails_S pf n : fails pf (S n) = fails pf n + (if pf n then 1 else 0).
Proof.
  unfold fails. rewrite seq_S, filter_app, app_length. simpl. destruct (pf n); simpl; lia.
Qed.

Lemma publish_fold pf : forall cs s,
  ls_failed s = fails pf (length (ls_pub s)) ->
  let s' := fold_left (publish pf) cs s in
  ls_pub s' = ls_pub s ++ cs /\ ls_batch s' = ls_batch s /\ ls_received s' = ls_received s /\
  ls_sent s' = ls_sent s /\ ls_read_errors s' = ls_read_errors s /\
  ls_failed s' = fails pf (length (ls_pub s')).
Proof.
  induction cs as [|c cs IH]; intros s F; cbn [fold_left]; cbv zeta.
  - rewrite app_nil_r. auto 10.
  - assert (F' : ls_failed (publish pf s c) = fails pf (length (ls_pub (publish pf s c)))).
    { unfold publish; simpl. rewrite app_length, Nat.add_1_r, fails_S, <- F.
      destruct (pf (length (ls_pub s))); lia. }
    destruct (IH (publish pf s c) F') as (A & B & C & D & E & G).
    split; [rewrite A; unfold publish; simpl; rewrite <- app_assoc; auto|]. auto 10.
Qed.

Lemma sendBatch_empty pf s now : b_buf (ls_batch s) = [] -> sendBatch pf s now = s.
Proof. intros H. unfold sendBatch, Size. rewrite H. auto. Qed.

Lemma sendBatch_full pf s now : b_buf (ls_batch s) <> [] ->
  ls_failed s = fails pf (length (ls_pub s)) ->
  let s' := sendBatch pf s now in
  ls_pub s' = ls_pub s ++ split_all natsMax (b_buf (ls_batch s)) /\
  ls_batch s' = Reset (ls_batch s) now /\ ls_received s' = ls_received s /\
  ls_sent s' = ls_sent s + 1 /\ ls_read_errors s' = ls_read_errors s /\
  ls_failed s' = fails pf (length (ls_pub s')).
Proof.
  intros H F. unfold sendBatch.
  assert (Sz : Size (ls_batch s) <? 1 = false).
  { unfold Size. destruct (b_buf (ls_batch s)); [congruence|]. simpl length. lia. }
  rewrite Sz. cbv zeta.
  set (s1 := mkL _ _ _ _ _ _).
  destruct (publish_fold pf (split_all natsMax (Bytes (ls_batch s1))) s1 F) as (A & B & C & D & E & G).
  unfold set_batch. cbn [ls_pub ls_batch ls_received ls_sent ls_read_errors ls_failed].
  unfold Bytes in *. rewrite B, C, D, E, G, A. auto 10.
Qed.

(* ------------------------------------------------------------------ *)
(** * UDP *)

Lemma with_nl_app a d : d <> [] -> with_nl (a ++ d) = a ++ with_nl d.
Proof.
  intros H. destruct d as [|x d] using rev_ind; [congruence|]. clear IHd.
  unfold with_nl. rewrite app_assoc, !rev_app_distr. simpl.
  destruct (Ascii.eqb x nl); rewrite <- ?app_assoc; auto.
Qed.

Lemma with_nl_length d : (length d <= length (with_nl d) <= length d + 1)%nat.
Proof.
  unfold with_nl. destruct (rev d) eqn:E.
  - assert (d = []) by (rewrite <- (rev_involutive d), E; auto). subst. simpl. lia.
  - destruct (Ascii.eqb a nl); rewrite ?app_length; simpl; lia.
Qed.

Lemma with_nl_nonempty d : d <> [] -> with_nl d <> [].
Proof. intros H. pose proof (with_nl_length d). destruct d; [congruence|]. destruct (with_nl (a :: d)); simpl in *; [lia|discriminate]. Qed.

Lemma with_nl_ended d : d <> [] -> exists p, with_nl d = p ++ [nl].
Proof.
  intros H. destruct d as [|x d] using rev_ind; [congruence|]. clear IHd.
  unfold with_nl. rewrite rev_app_distr. simpl. destruct (Ascii.eqb_spec x nl) as [->|]; eauto.
Qed.

(** The batch holds exactly the pending group of the reference behaviour. *)
Definition urel (pf : nat -> bool) (c : lconf) (s : lstate) (sp : spst) : Prop :=
  Inv (ls_batch s) /\ lc_max_size c <= b_cap (ls_batch s) /\
  b_buf (ls_batch s) = concat (sp_pend sp) /\
  b_writes (ls_batch s) = Z.of_nat (length (sp_pend sp)) /\
  (sp_pend sp <> [] -> b_created (ls_batch s) = sp_first sp) /\
  Forall (fun d => d <> []) (sp_pend sp) /\
  (sp_pend sp = [] \/ total (sp_pend sp) + 65536 < lc_max_size c) /\
  ls_pub s = flat_map (fun g => split_all natsMax (concat g)) (sp_groups sp) /\
  ls_sent s = Z.of_nat (length (sp_groups sp)) /\
  ls_failed s = fails pf (length (ls_pub s)).

Lemma room_ok pf c s sp : urel pf c s sp -> 65536 <= Remaining (growIfLow (ls_batch s)).
Proof.
  intros (I & Cp & B & W & Fi & Ne & Sz & _). apply room_iff; auto.
  destruct Sz as [E|E].
  - rewrite E in B. simpl in B. assert (Z0 : Size (ls_batch s) = 0) by (unfold Size; rewrite B; auto).
    unfold Remaining. lia.
  - left. unfold Remaining, Size, total in *. rewrite B. lia.
Qed.

Lemma concat_nonempty (l : list bytes) : l <> [] -> Forall (fun d => d <> []) l -> concat l <> [].
Proof. intros H F. destruct l as [|x l]; [congruence|]. inversion F; subst. simpl. destruct x; [congruence|discriminate]. Qed.

Lemma concat_snoc (l : list bytes) x : concat (l ++ [x]) = concat l ++ x.
Proof. rewrite concat_app. simpl. rewrite app_nil_r. auto. Qed.

Lemma udp_step_rel pf c s sp u :
  urel pf c s sp -> Z.of_nat (length (u_data u)) <= 65536 ->
  urel pf c (udp_step pf c s u) (sp_step c sp u) /\
  ls_received (udp_step pf c s u) = ls_received s + Z.of_nat (length (arrived [u])) /\
  ls_read_errors (udp_step pf c s u) = ls_read_errors s + read_errs [u].
Proof.
  intros R Hd. pose proof (room_ok _ _ _ _ R) as Room.
  destruct R as (I & Cp & B & W & Fi & Ne & Sz & Pb & Sn & Fl).
  destruct (growIfLow_same (ls_batch s) I) as (I1 & B1 & W1 & C1 & Cp1).
  set (b1 := growIfLow (ls_batch s)) in *.
  (* state after reading and adding the newline *)
  assert (Mid : exists b2,
     Inv b2 /\ lc_max_size c <= b_cap b2 /\
     b_buf b2 = concat (sp_pend sp ++ arrived [u]) /\
     b_writes b2 = Z.of_nat (length (sp_pend sp ++ arrived [u])) /\
     (sp_pend sp ++ arrived [u] <> [] -> b_created b2 = match sp_pend sp with [] => u_t1 u | _ => sp_first sp end) /\
     udp_step pf c s u = maybeSendBatch pf c
        (mkL b2 (ls_received s + Z.of_nat (length (arrived [u]))) (ls_sent s)
             (ls_read_errors s + read_errs [u]) (ls_failed s) (ls_pub s)) (u_t2 u) (u_t3 u)).
  { unfold udp_step, ReadOnceFrom. fold b1. cbv beta iota zeta.
    assert (Er : match match u_err u with EEOF => ENone | _ => u_err u end with
                 | ENone | ETimeout => ls_read_errors s | _ => ls_read_errors s + 1 end
              = ls_read_errors s + read_errs [u]).
    { unfold read_errs. simpl. destruct (u_err u); simpl; lia. }
    rewrite firstn_all2 by lia. rewrite Er.
    unfold arrived. cbn [map filter].
    destruct (u_data u) as [|x d] eqn:Ed.
    - exists b1. cbn [beqs negb filter map length]. rewrite app_nil_r, B1, W1, C1.
      split; auto. split; [lia|]. split; auto. split; auto. split.
      + intros Hn. rewrite Fi by auto. destruct (sp_pend sp); congruence.
      + rewrite Z.add_0_r. auto.
    - cbn [beqs negb]. cbn [map length].
      assert (Ie : Inv (extend b1 (x :: d))) by (apply extend_Inv; auto; lia).
      set (b2 := countWrite (extend b1 (x :: d)) (u_t1 u)).
      assert (I2 : Inv b2).
      { destruct Ie as (?&?&?). unfold b2, Inv, countWrite, Size in *; simpl in *. lia. }
      exists (EnsureNewline b2).
      assert (EN : Inv (EnsureNewline b2) /\ b_buf (EnsureNewline b2) = with_nl (b_buf b2) /\
                   b_writes (EnsureNewline b2) = b_writes b2 /\ b_created (EnsureNewline b2) = b_created b2 /\
                   b_cap b2 <= b_cap (EnsureNewline b2)).
      { unfold EnsureNewline. rewrite with_nl_spec.
        destruct (Nat.ltb 0 (length (b_buf b2)) && negb (byte_at (b_buf b2) (length (b_buf b2) - 1) nl))%bool.
        - destruct (appendImpl_spec b2 [nl] I2) as (A & Bf & Wr & Cr & _). repeat split; auto; try apply A.
          unfold appendImpl. cbn [b_cap].
          assert (GW : forall f b n, Inv b -> b_cap b <= b_cap (grow_while f b n)).
          { induction f as [|f IH]; intros b n Hb; cbn [grow_while]; [lia|].
            destruct (Remaining b <? n); [|lia]. specialize (IH (grow b) n (grow_Inv b Hb)). pose proof (grow_more b Hb). lia. }
          apply GW; auto.
        - repeat split; auto; try apply I2. lia. }
      destruct EN as (E1 & E2 & E3 & E4 & E5). rewrite E2, E3, E4.
      assert (Bb : b_buf b2 = concat (sp_pend sp) ++ x :: d) by (unfold b2; simpl; rewrite B1, B; auto).
      rewrite Bb, with_nl_app by discriminate. rewrite concat_snoc.
      split; auto. split; [assert (b_cap b2 = b_cap b1) by reflexivity; lia|]. split; auto. split; [|split].
      + unfold b2; simpl. rewrite W1, W, app_length. simpl. lia.
      + intros _. unfold b2; simpl. rewrite W1, C1. destruct (sp_pend sp) as [|y l] eqn:Ep.
        * rewrite W. simpl. auto.
        * rewrite W. simpl length. replace (Z.of_nat (S (length l)) =? 0) with false by lia. apply Fi. discriminate.
      + auto. }
  destruct Mid as (b2 & I2 & Cp2 & B2 & W2 & C2 & ->).
  set (s2 := mkL b2 _ _ _ _ _). unfold sp_step, maybeSendBatch.
  assert (Ne2 : Forall (fun d => d <> []) (sp_pend sp ++ arrived [u])).
  { apply Forall_app. split; auto. unfold arrived. cbn [map filter].
    destruct (u_data u) eqn:Ed; cbn [beqs negb map]; constructor; auto. apply with_nl_nonempty. discriminate. }
  destruct (sp_pend sp ++ arrived [u]) as [|p0 pl] eqn:Ep.
  - (* nothing pending *)
    assert (Send : (if shouldSend c (ls_batch s2) (u_t2 u) then sendBatch pf s2 (u_t3 u) else s2) = s2).
    { rewrite sendBatch_empty by exact B2. destruct (shouldSend _ _ _); auto. }
    rewrite Send. split; [|split; auto].
    unfold urel. cbn [ls_batch sp_pend sp_groups ls_pub ls_sent ls_failed s2].
    repeat split; auto; try apply I2. congruence.
  - rewrite <- Ep in *. set (pend := sp_pend sp ++ arrived [u]) in *.
    assert (Hn : pend <> []) by (rewrite Ep; discriminate).
    assert (Hb : b_buf b2 <> []) by (rewrite B2; apply concat_nonempty; auto).
    assert (SS : shouldSend c (ls_batch s2) (u_t2 u) =
      limit_reachedb c pend match sp_pend sp with [] => u_t1 u | _ => sp_first sp end (u_t2 u)).
    { unfold shouldSend, limit_reachedb, Writes, Age, maxUDPDatagramSize, Size, total. cbn [ls_batch s2].
      rewrite W2, B2, (C2 Hn). assert (0 < Z.of_nat (length pend)) by (rewrite Ep; simpl; lia).
      replace (Z.of_nat (length pend) <=? 0) with false by lia.
      destruct (lc_max_count c <=? Z.of_nat (length pend)); auto.
      destruct (lc_max_age c <=? _); auto. simpl. destruct (_ <=? 65536); auto. }
    rewrite SS.
    assert (Ematch : forall (X Y : spst), match pend with [] => X | _ :: _ => Y end = Y) by (intros; rewrite Ep; auto).
    cbv zeta. try rewrite Ematch.
    destruct (limit_reachedb c pend _ (u_t2 u)) eqn:EL.
    + destruct (sendBatch_full pf s2 (u_t3 u) Hb Fl) as (A1 & A2 & A3 & A4 & A5 & A6).
      split; [|split; auto].
      unfold urel. cbn [sp_pend sp_groups sp_first]. rewrite A6, A1, A2, A4. unfold Reset.
      cbn [ls_batch b_buf b_cap b_writes b_created s2 ls_pub ls_sent].
      destruct I2 as (?&?&?).
      split; [unfold Inv, Size; simpl; lia|]. split; auto. split; auto. split; auto. split; [congruence|].
      split; auto. split; auto. split; [|split].
      * rewrite flat_map_app. simpl. rewrite app_nil_r, Pb, B2. auto.
      * rewrite app_length. simpl. lia.
      * auto.
    + split; [|split; auto].
      unfold urel. cbn [ls_batch sp_pend sp_groups sp_first ls_pub ls_sent ls_failed s2].
      split; auto. split; auto. split; auto. split; auto. split; [intros; apply C2; auto|].
      split; auto. split; auto. right.
      unfold limit_reachedb in EL. lia.
Qed.

Lemma arrived_cons u us : arrived (u :: us) = arrived [u] ++ arrived us.
Proof. unfold arrived. cbn [map filter]. destruct (negb (beqs (u_data u) [])); auto. Qed.

Lemma read_errs_cons u us : read_errs (u :: us) = read_errs [u] + read_errs us.
Proof. unfold read_errs. cbn [filter]. destruct (u_err u); simpl length; lia. Qed.

Lemma udp_run_rel pf c now us : 0 <= lc_max_size c ->
  Forall (fun u => Z.of_nat (length (u_data u)) <= 65536) us ->
  let s := udp_run pf c (newListener c now) us in
  urel pf c s (sp_run c us) /\
  ls_received s = Z.of_nat (length (arrived us)) /\ ls_read_errors s = read_errs us.
Proof.
  intros Hc. unfold udp_run, sp_run.
  assert (G : forall us s sp, urel pf c s sp -> Forall (fun u => Z.of_nat (length (u_data u)) <= 65536) us ->
     let s' := fold_left (udp_step pf c) us s in
     urel pf c s' (fold_left (sp_step c) us sp) /\
     ls_received s' = ls_received s + Z.of_nat (length (arrived us)) /\
     ls_read_errors s' = ls_read_errors s + read_errs us).
  { induction us0 as [|u us0 IH]; intros s sp R F; cbn [fold_left]; cbv zeta.
    - unfold arrived, read_errs. simpl. split; auto. split; lia.
    - inversion F as [|? ? F1 F2]; subst.
      destruct (udp_step_rel pf c s sp u R F1) as (R1 & R2 & R3).
      destruct (IH _ _ R1 F2) as (S1 & S2 & S3). split; auto.
      rewrite arrived_cons, read_errs_cons, app_length. lia. }
  intros F. assert (R0 : urel pf c (newListener c now) (mkSp [] [] 0)).
  { unfold urel, newListener, New, Inv, Size. simpl. repeat split; auto; try lia; try congruence. }
  destruct (G us _ _ R0 F) as (A & B & C). simpl in B, C. auto.
Qed.

Lemma sp_conserve c us : concat (sp_groups (sp_run c us)) ++ sp_pend (sp_run c us) = arrived us.
Proof.
  unfold sp_run. assert (G : forall us sp,
    concat (sp_groups (fold_left (sp_step c) us sp)) ++ sp_pend (fold_left (sp_step c) us sp)
    = (concat (sp_groups sp) ++ sp_pend sp) ++ arrived us).
  { clear us. induction us as [|u us IH]; intros sp; cbn [fold_left].
    - unfold arrived; simpl. rewrite app_nil_r; auto.
    - rewrite IH, arrived_cons, app_assoc. f_equal. unfold sp_step.
      destruct (sp_pend sp ++ arrived [u]) as [|p0 pl] eqn:E.
      + cbn [sp_groups sp_pend]. rewrite <- app_assoc, E. auto.
      + rewrite <- app_assoc, E. rewrite <- E. destruct (limit_reachedb _ _ _ _); cbn [sp_groups sp_pend]; auto.
        rewrite concat_app. simpl. rewrite !app_nil_r. auto. }
  rewrite G. auto.
Qed.

Lemma sp_groups_props c us : 0 <= lc_max_size c -> Forall (fun u => Z.of_nat (length (u_data u)) <= 65536) us ->
  Forall (fun g => g <> [] /\ total g <= Z.max 65537 (lc_max_size c)) (sp_groups (sp_run c us)).
Proof.
  intros Hc. unfold sp_run.
  assert (G : forall us sp, (sp_pend sp = [] \/ total (sp_pend sp) + 65536 < lc_max_size c) ->
     Forall (fun g => g <> [] /\ total g <= Z.max 65537 (lc_max_size c)) (sp_groups sp) ->
     Forall (fun u => Z.of_nat (length (u_data u)) <= 65536) us ->
     Forall (fun g => g <> [] /\ total g <= Z.max 65537 (lc_max_size c)) (sp_groups (fold_left (sp_step c) us sp))).
  { clear us. induction us as [|u us IH]; intros sp Hp Hg F; auto. cbn [fold_left]. inversion F as [|? ? F1 F2]; subst.
    assert (Tu : total (arrived [u]) <= 65537).
    { unfold total, arrived. cbn [map filter]. destruct (negb (beqs (u_data u) [])); cbn [map concat]; [|simpl; lia].
      rewrite app_nil_r. pose proof (with_nl_length (u_data u)). lia. }
    assert (Tp : total (sp_pend sp ++ arrived [u]) <= Z.max 65537 (lc_max_size c)).
    { unfold total in *. rewrite concat_app, app_length. destruct Hp as [->|Hp]; simpl; lia. }
    apply IH; auto.
    - unfold sp_step. destruct (sp_pend sp ++ arrived [u]) eqn:E; [left; auto|]. rewrite <- E.
      destruct (limit_reachedb c _ _ _) eqn:EL; cbn [sp_pend]; [left; auto|]. right.
      unfold limit_reachedb in EL. lia.
    - unfold sp_step. destruct (sp_pend sp ++ arrived [u]) eqn:E; auto. rewrite <- E in *.
      destruct (limit_reachedb c _ _ _); cbn [sp_groups]; auto. apply Forall_app. split; auto.
      constructor; auto. split; [rewrite E; discriminate|auto]. }
  intros F. apply G; [left; reflexivity | constructor | exact F].
Qed.

Lemma sp_groups_nonempty c us : Forall (fun g => g <> []) (sp_groups (sp_run c us)).
Proof.
  unfold sp_run. assert (G : forall us sp, Forall (fun g => g <> []) (sp_groups sp) ->
     Forall (fun g => g <> []) (sp_groups (fold_left (sp_step c) us sp))); [|apply G; constructor].
  clear us. induction us as [|u us IH]; intros sp Hg; auto. cbn [fold_left]. apply IH.
  unfold sp_step. destruct (sp_pend sp ++ arrived [u]) eqn:E; auto. rewrite <- E.
  destruct (limit_reachedb _ _ _ _); cbn [sp_groups]; auto.
  apply Forall_app. split; auto. constructor; auto. rewrite E; discriminate.
Qed.

Lemma flat_split_concat gs : concat (flat_map (fun g => split_all natsMax (concat g)) gs) = concat (concat gs).
Proof.
  induction gs as [|g gs IH]; simpl; auto.
  rewrite !concat_app, IH, split_all_concat by apply natsMax_pos. auto.
Qed.

(** C16 *)
Lemma udp_conservation pf c now us : 0 <= lc_max_size c ->
  Forall (fun u => Z.of_nat (length (u_data u)) <= 65536) us ->
  let s := udp_run pf c (newListener c now) us in
  concat (ls_pub s) ++ Bytes (ls_batch s) = concat (arrived us).
Proof.
  intros Hc F. destruct (udp_run_rel pf c now us Hc F) as ((I & Cp & B & W & Fi & Ne & Sz & Pb & Sn & Fl) & _).
  cbv zeta. unfold Bytes. rewrite B, Pb, flat_split_concat, <- concat_app, sp_conserve. auto.
Qed.

Lemma arrived_shape us : Forall (fun d => exists p, d = p ++ [nl]) (arrived us).
Proof.
  unfold arrived. apply Forall_forall. intros d H. apply in_map_iff in H. destruct H as (x & <- & H).
  apply filter_In in H. destruct H as [_ H]. apply with_nl_ended. intros ->. discriminate.
Qed.

(** C17 *)
Lemma udp_messages pf c now us : 0 <= lc_max_size c <= 1048576 ->
  Forall (fun u => Z.of_nat (length (u_data u)) <= 65536) us ->
  exists groups pend,
    concat groups ++ pend = arrived us /\ Forall (fun g => g <> []) groups /\
    ls_pub (udp_run pf c (newListener c now) us) = map (@concat _) groups /\
    Bytes (ls_batch (udp_run pf c (newListener c now) us)) = concat pend /\
    Forall (fun m => m <> [] /\ Z.of_nat (length m) <= 1048576 /\ exists p, m = p ++ [nl])
           (ls_pub (udp_run pf c (newListener c now) us)).
Proof.
  intros Hc F. destruct (udp_run_rel pf c now us) as ((I & Cp & B & W & Fi & Ne & Sz & Pb & Sn & Fl) & _); auto; [lia|].
  exists (sp_groups (sp_run c us)), (sp_pend (sp_run c us)).
  pose proof (sp_conserve c us) as Cs. pose proof (sp_groups_props c us) as Gp.
  pose proof (arrived_shape us) as Ar. rewrite <- Cs in Ar. apply Forall_app in Ar. destruct Ar as [Ar _].
  assert (Gp' : Forall (fun g => g <> [] /\ total g <= 1048576 /\ Forall (fun d => exists p, d = p ++ [nl]) g)
                  (sp_groups (sp_run c us))).
  { specialize (Gp ltac:(lia) F). clear -Gp Ar Hc.
    induction (sp_groups (sp_run c us)) as [|g gs IH]; [constructor|]. inversion Gp; subst.
    simpl in Ar. apply Forall_app in Ar. destruct Ar as [A1 A2]. constructor; [|auto].
    split; [tauto|]. split; [lia|auto]. }
  assert (Ne' : forall g, g <> [] -> Forall (fun d => exists p, d = p ++ [nl]) g -> concat g <> [] /\ exists p, concat g = p ++ [nl]).
  { intros g Hg Hf. destruct g as [|x g] using rev_ind; [congruence|]. clear IHg.
    apply Forall_app in Hf. destruct Hf as [_ Hf]. inversion Hf as [|? ? [p ->] _]; subst.
    rewrite concat_snoc, app_assoc. split; [|eauto]. intros E. apply (f_equal (@length _)) in E.
    rewrite !app_length in E. simpl in E. lia. }
  assert (Pm : ls_pub (udp_run pf c (newListener c now) us) = map (@concat _) (sp_groups (sp_run c us))).
  { rewrite Pb. clear -Gp' Ne'. induction Gp' as [|g gs (G1 & G2 & G3) _ IH]; auto.
    cbn [flat_map map]. rewrite IH. rewrite split_all_small; auto.
    - apply Ne'; auto.
    - pose proof natsMax_Z. unfold total in G2. lia. }
  split; auto. split; [apply sp_groups_nonempty|]. split; auto. split; auto.
  rewrite Pm. apply Forall_map. eapply Forall_impl; [|exact Gp'].
  intros g (G1 & G2 & G3). destruct (Ne' g G1 G3). auto.
Qed.

(** C18: limits after every iteration, counters. *)
Lemma udp_limits pf c now us u : 0 <= lc_max_size c ->
  Forall (fun u => Z.of_nat (length (u_data u)) <= 65536) (us ++ [u]) ->
  let s := udp_run pf c (newListener c now) (us ++ [u]) in
  Bytes (ls_batch s) = [] \/
  (Writes (ls_batch s) < lc_max_count c /\ Age (ls_batch s) (u_t2 u) < lc_max_age c /\
   Size (ls_batch s) + 65536 < lc_max_size c).
Proof.
  intros Hc F. pose proof (udp_run_rel pf c now (us ++ [u]) Hc F) as ((I & Cp & B & W & Fi & Ne & Sz & Pb & Sn & Fl) & _).
  cbv zeta. set (s := udp_run pf c (newListener c now) (us ++ [u])) in *.
  assert (L : sp_pend (sp_run c (us ++ [u])) = [] \/
     limit_reachedb c (sp_pend (sp_run c (us ++ [u]))) (sp_first (sp_run c (us ++ [u]))) (u_t2 u) = false).
  { unfold sp_run. rewrite fold_left_app. cbn [fold_left].
    set (sp := fold_left (sp_step c) us (mkSp [] [] 0)). unfold sp_step.
    destruct (sp_pend sp ++ arrived [u]) eqn:E; [left; auto|]. rewrite <- E.
    destruct (limit_reachedb c (sp_pend sp ++ arrived [u]) _ (u_t2 u)) eqn:EL; cbn [sp_pend sp_first]; auto. }
  destruct L as [L|L]; [left; unfold Bytes; rewrite B, L; auto|].
  destruct (sp_pend (sp_run c (us ++ [u]))) as [|p pl] eqn:Ep; [left; unfold Bytes; rewrite B; auto|].
  right. rewrite <- Ep in *. unfold Writes, Size, Age. rewrite W, B, Fi by (rewrite Ep; discriminate).
  unfold limit_reachedb, total in L. rewrite Ep in *. simpl length in *.
  replace (Z.of_nat (S (length pl)) <=? 0) with false by lia. lia.
Qed.

Lemma udp_counters pf c now us : 0 <= lc_max_size c ->
  Forall (fun u => Z.of_nat (length (u_data u)) <= 65536) us ->
  let s := udp_run pf c (newListener c now) us in
  ls_received s = Z.of_nat (length (arrived us)) /\
  ls_read_errors s = read_errs us /\
  ls_sent s = Z.of_nat (length (sp_groups (sp_run c us))) /\
  ls_failed s = fails pf (length (ls_pub s)).
Proof.
  intros Hc F. destruct (udp_run_rel pf c now us Hc F) as ((I & Cp & B & W & Fi & Ne & Sz & Pb & Sn & Fl) & R1 & R2).
  auto.
Qed.

(** The whole behaviour: what is published and pending is what the reference says. *)
Lemma udp_reference pf c now us : 0 <= lc_max_size c ->
  Forall (fun u => Z.of_nat (length (u_data u)) <= 65536) us ->
  let s := udp_run pf c (newListener c now) us in
  ls_pub s = flat_map (fun g => split_all natsMax (concat g)) (sp_groups (sp_run c us)) /\
  Bytes (ls_batch s) = concat (sp_pend (sp_run c us)) /\
  Writes (ls_batch s) = Z.of_nat (length (sp_pend (sp_run c us))).
Proof.
  intros Hc F. destruct (udp_run_rel pf c now us Hc F) as ((I & Cp & B & W & Fi & Ne & Sz & Pb & Sn & Fl) & R1 & R2).
  auto.
Qed.

Lemma udp_room pf c now us : 0 <= lc_max_size c ->
  Forall (fun u => Z.of_nat (length (u_data u)) <= 65536) us ->
  65536 <= Remaining (growIfLow (ls_batch (udp_run pf c (newListener c now) us))).
Proof.
  intros Hc F. destruct (udp_run_rel pf c now us Hc F) as [R _]. eapply room_ok; eauto.
Qed.

(* ------------------------------------------------------------------ *)
(** * Page rounding (C55) *)

Lemma round_up_spec ps n : 0 < ps ->
  let r := roundUpToPageSize ps n in
  (exists k, 0 < k /\ r = k * ps) /\ n <= r /\ (forall k, 0 < k -> n <= k * ps -> r <= k * ps).
Proof.
  intros Hp. unfold roundUpToPageSize. destruct (Z.leb_spec n 0).
  - split; [exists 1; lia|]. split; [lia|]. intros k Hk _. nia.
  - rewrite Z.quot_div_nonneg by lia. set (q := (n + ps - 1) / ps).
    assert (Q : n + ps - 1 = ps * q + (n + ps - 1) mod ps) by (apply Z.div_mod; lia).
    pose proof (Z.mod_pos_bound (n + ps - 1) ps Hp).
    split; [exists q; split; auto; nia|]. split; [nia|].
    intros k Hk Hn. assert (q <= k); [|nia].
    assert (q < k + 1); [|lia]. apply Z.div_lt_upper_bound; lia.
Qed.
