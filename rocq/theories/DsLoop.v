(** A downsampler that gets its own output as input. *)
From Verif Require Import Base Text TextSpec NumSpec NumProofs LinesSpec RulesSpec RulesProofs Splitter SplitterProofs Convert Avg AvgSpec AvgProofs PromProofs
  Assigner AssignerSpec AssignerProofs AvgPrint DsProofs DsMain DsEnd.
From Coq Require Import Sorted.
Local Open Scope Z_scope.

(** The messages the worker has received. *)
Definition got {B} (ts : list (turn B)) : list bytes := flat_map (fun t => match t_in _ t with Some (d, _) => [d] | None => [] end) ts.

(** The line "cpu x=1i" with a timestamp, as a message. *)
Definition cpu_at (ts : Z) : bytes := lit "cpu x=1i " ++ FormatInt ts ++ [nl].

Section Loop.
  Variable fo : floatOps.
  Variable gosort : forall A : Type, (A -> A -> bool) -> list A -> list A.
  Hypothesis Hsort : sorts gosort.
  Variable fail : nat -> bool.
  Notation B := (avgBucket fo).
  Notation nb := (fun _ : Z => @nil (bytes * fieldPairs fo)).
  Notation run := (worker_run B lerr nb (AddLine fo) fail).

  (** [echoes m0 d0 ts]: the worker, starting in state [d0], has got [m0] from outside and else only what it had
      published before, in order and each once. *)
  Definition echoes (m0 : bytes) (d0 : dstate B) (ts : list (turn B)) : Prop :=
    forall pre t post, ts = pre ++ t :: post -> exists rest, m0 :: d_pub (d_st _ (run d0 pre)) = got (pre ++ [t]) ++ rest.

  Lemma echoes_nil m0 d0 : echoes m0 d0 [].
  Proof. intros pre t post E; destruct pre; discriminate E. Qed.

  Lemma echoes_snoc m0 d0 ts t : echoes m0 d0 ts -> (exists rest, m0 :: d_pub (d_st _ (run d0 ts)) = got (ts ++ [t]) ++ rest) -> echoes m0 d0 (ts ++ [t]).
  Proof.
    intros H N pre x post E. destruct post as [|y post] using rev_ind.
    - apply app_inj_tail in E. destruct E as [<- <-]. exact N.
    - change (pre ++ x :: post ++ [y]) with (pre ++ (x :: post) ++ [y]) in E. rewrite app_assoc in E. apply app_inj_tail in E. destruct E as [E _]. exact (H _ _ _ E).
  Qed.

  (** avgBucket.Bytes with the maps iterated in the order of insertion. *)
  Definition plain_render (eb : Z * B) : bytes := bucketBytes fo gosort (fst eb) (map (fun kf : bytes * fieldPairs fo => (kf, map fst (snd kf))) (snd eb)).

  Lemma plain_renders i now : renders fo gosort (mkTurn _ i now plain_render).
  Proof.
    intros e b. exists (map (fun kf : bytes * fieldPairs fo => (kf, map fst (snd kf))) b). split; [|reflexivity]. split.
    - rewrite map_map. cbn [fst]. rewrite map_id. apply Permutation_refl.
    - apply Forall_forall. intros x H. apply in_map_iff in H. destruct H as (kf & <- & _). apply Permutation_refl.
  Qed.

  Definition one : B := [(lit "cpu", [(lit "x", VInt fo 1 1)])].

  Lemma render_one e : int64 e -> plain_render (e, one) = cpu_at e.
  Proof.
    intros Ie. unfold plain_render, one, cpu_at. cbn [fst snd map bucketBytes fieldsBytes].
    assert (G : gosort bytes bltb [lit "x"] = [lit "x"]).
    { destruct (Hsort bytes bltb [lit "x"]) as [P _]; [apply AvgPrint.bltb_weak|]. apply Permutation_length_1_inv. exact P. }
    rewrite G. rewrite wrap64_id by exact Ie. cbn [fields_loop]. change (mget [(lit "x", VInt fo 1 1)] (lit "x")) with (Some (VInt fo 1 1)).
    unfold valueBytes. change (FormatInt 1) with (lit "1"). cbn [lit list_ascii_of_string app]. reflexivity.
  Qed.

  Lemma split_line l : ~ In nl l -> Split (l ++ [nl]) = [l; []].
  Proof.
    induction l as [|c l IH]; intros N; [reflexivity|]. cbn [app Split]. destruct (Ascii.eqb_spec c nl) as [->|Nc]; [exfalso; apply N; left; reflexivity|].
    rewrite IH by (intros X; apply N; right; exact X). reflexivity.
  Qed.

  Lemma cpu_line ts now : 0 <= ts <= maxInt64 ->
    Split (cpu_at ts) = [lit "cpu x=1i " ++ FormatInt ts; []] /\ assignTimestamp (lit "cpu x=1i " ++ FormatInt ts) now = (ts, lit "cpu x=1i").
  Proof.
    intros H. assert (Ie : int64 ts) by (unfold int64, minInt64, maxInt64, two63 in *; lia).
    destruct (FormatInt_facts ts Ie) as (_ & Ns & Nn & Ne). split.
    - unfold cpu_at. rewrite app_assoc. apply split_line. intros X. apply in_app_iff in X. destruct X as [X|X]; [|exact (Nn X)].
      cbn in X. repeat (destruct X as [X|X]; [discriminate X|]). exact X.
    - pose proof (stamp_spec (lit "cpu x=1i " ++ FormatInt ts) now) as S1.
      assert (S2 : stamped (lit "cpu x=1i " ++ FormatInt ts) now ts (lit "cpu x=1i")).
      { left. split; [rewrite app_length; cbn [length lit list_ascii_of_string]; lia|]. exists (FormatInt ts). split; [|split; [exact Ns|split; [apply FormatInt_length19; exact H|split; [|exact Ie]]]].
        - right. split; [reflexivity|]. intros (p & E). destruct (exists_last Ne) as (f & z & Ef). rewrite Ef in E. rewrite app_assoc in E. apply app_inj_tail in E. destruct E as [_ ->].
          apply Nn. rewrite Ef. apply in_app_iff. right. left. reflexivity.
        - destruct (FormatInt_spec ts Ie) as [[T _] _]. exact T. }
      destruct (stamped_fun unit unit (fun _ => tt) (fun b _ => (b, [])) 1 0 eq_refl _ _ _ _ _ _ S1 S2) as [E1 E2].
      destruct (assignTimestamp (lit "cpu x=1i " ++ FormatInt ts) now) as [a b]. cbn [fst snd] in *. subst. reflexivity.
  Qed.

  Lemma add_one : AddLine fo [] (lit "cpu x=1i") = (one, []).
  Proof. reflexivity. Qed.

  Variables p now0 e0 : Z.
  Hypothesis Hp : 0 < p.
  Hypothesis He : period_end p now0 e0.

  (** The state between two rounds: nothing held, the current period ends at [e + p]. *)
  Definition resting (d : dstate B) (e : Z) : Prop := d_asg _ d = mkAsg B p (e, []) (e + p, []) (e + 2 * p, []) (e - p).

  Lemma start_resting : resting (Assigner.newWorker B nb p now0) (e0 - p).
  Proof.
    unfold resting, Assigner.newWorker, newAssigner. cbn [d_asg]. rewrite (nextT_end p now0 e0) by auto.
    destruct He as [_ A]. rewrite (next_aligned p e0) by auto. rewrite (prev_aligned p e0) by auto. f_equal; f_equal; lia.
  Qed.

  Lemma round d e ts now clk : resting d e -> (e + goEpoch) mod p = 0 -> e - p <= ts < e -> 0 <= ts -> e <= maxInt64 -> now < e + p ->
    let d' := run d [mkTurn _ (Some (cpu_at ts, clk)) now plain_render; mkTurn _ None (e + p) plain_render] in
    resting d' (e + p) /\ d_pub (d_st _ d') = d_pub (d_st _ d) ++ [cpu_at e] /\
    d_pub (d_st _ (run d [mkTurn _ (Some (cpu_at ts, clk)) now plain_render])) = d_pub (d_st _ d).
  Proof.
    intros R A Ht Hp0 Hm Hn. destruct d as [a st]. unfold resting in R. cbn [d_asg] in R. subst a. cbn zeta.
    assert (Bt : 0 <= ts <= maxInt64) by lia. destruct (cpu_line ts (clk 0%nat) Bt) as [Es Ea].
    assert (Eu : Update B lerr (AddLine fo) (mkAsg B p (e, []) (e + p, []) (e + 2 * p, []) (e - p)) (cpu_at ts) clk = (mkAsg B p (e, one) (e + p, []) (e + 2 * p, []) (e - p), [])).
    { unfold Update. rewrite Es. cbn [update_lines]. change (lit "cpu x=1i " ++ FormatInt ts) with ("c"%char :: lit "pu x=1i " ++ FormatInt ts). cbv iota.
      change ("c"%char :: lit "pu x=1i " ++ FormatInt ts) with (lit "cpu x=1i " ++ FormatInt ts). unfold update_line. rewrite Ea. cbn [a_tmin a_prev fst snd a_curr a_next a_period].
      replace (ts <? e - p) with false by lia. replace (ts <? e) with true by lia. rewrite add_one. reflexivity. }
    assert (E1 : run (mkD B (mkAsg B p (e, []) (e + p, []) (e + 2 * p, []) (e - p)) st) [mkTurn _ (Some (cpu_at ts, clk)) now plain_render] =
      mkD B (mkAsg B p (e, one) (e + p, []) (e + 2 * p, []) (e - p)) (mkDS (d_received st + 1) (d_sent st) (d_invalid_lines st) (d_invalid_ts st) (d_failed st) (d_pub st))).
    { unfold worker_run. cbn [fold_left]. unfold worker_turn. cbn [t_in d_asg d_st t_now t_render]. rewrite Eu. cbn [fold_left]. unfold emit. cbn [a_curr fst].
      replace (now <? e + p) with true by lia. reflexivity. }
    change [mkTurn B (Some (cpu_at ts, clk)) now plain_render; mkTurn B None (e + p) plain_render] with
      ([mkTurn B (Some (cpu_at ts, clk)) now plain_render] ++ [mkTurn B None (e + p) plain_render]).
    unfold worker_run in *. rewrite fold_left_app, E1. cbn [d_st d_pub].
    assert (E2 : worker_turn B lerr nb (AddLine fo) fail
       (mkD B (mkAsg B p (e, one) (e + p, []) (e + 2 * p, []) (e - p)) (mkDS (d_received st + 1) (d_sent st) (d_invalid_lines st) (d_invalid_ts st) (d_failed st) (d_pub st)))
       (mkTurn B None (e + p) plain_render) =
       mkD B (mkAsg B p (e + p, []) (e + 2 * p, []) (e + 3 * p, []) e)
         (mkDS (d_received st + 1) (d_sent st + 1) (d_invalid_lines st) (d_invalid_ts st) (if fail (length (d_pub st)) then d_failed st + 1 else d_failed st) (d_pub st ++ [cpu_at e]))).
    { unfold worker_turn. cbn [t_in d_asg d_st t_now t_render]. unfold emit. cbn [a_curr a_next a_prev a_period fst].
      replace (e + p <? e + p) with false by lia. rewrite render_one by (unfold int64, minInt64, maxInt64, two63 in *; lia).
      assert (Ne : cpu_at e <> []) by discriminate. destruct (cpu_at e) as [|c0 r0] eqn:Ec; [contradiction|]. rewrite <- Ec.
      assert (Sm : split_all dsMax (cpu_at e) = [cpu_at e]).
      { apply split_all_small; [discriminate|]. assert (L : (length (cpu_at e) <= 40)%nat).
        { unfold cpu_at. rewrite !app_length. assert (0 <= e <= maxInt64) by lia. pose proof (FormatInt_length19 e H) as L19. cbn [length lit list_ascii_of_string]. lia. }
        apply Nat2Z.inj_le. unfold dsMax. rewrite Z2Nat.id by lia. lia. }
      unfold bytes in *. rewrite Sm. cbn [fold_left]. unfold dpublish. cbn [d_received d_sent d_invalid_lines d_invalid_ts d_failed d_pub].
      rewrite (next_aligned p (e + 2 * p)); [|exact Hp|apply (aligned_shift p e 2); auto]. f_equal. f_equal; [f_equal; lia|lia]. }
    cbn [fold_left]. rewrite E2. cbn [d_asg d_st d_pub]. split; [unfold resting; cbn [d_asg]; f_equal; f_equal; lia|]. split; reflexivity.
  Qed.

  Lemma run_app d a b : run d (a ++ b) = run (run d a) b.
  Proof. unfold worker_run. apply fold_left_app. Qed.
  Lemma got_app a b : @got B (a ++ b) = got a ++ got b.
  Proof. unfold got. apply flat_map_app. Qed.

  (** The ends of the periods whose averages are published. *)
  Definition period_at (k : nat) : Z := e0 + (Z.of_nat k - 1) * p.

  Lemma echo_forever ts0 : e0 - 2 * p <= ts0 < e0 - p -> 0 <= ts0 -> forall n, period_at n <= maxInt64 ->
    exists ts, Forall (renders fo gosort) ts /\ echoes (cpu_at ts0) (Assigner.newWorker B nb p now0) ts /\
      StronglySorted Z.le (now0 :: map (t_now _) ts) /\ Forall (fun z => z <= period_at n + p) (now0 :: map (t_now _) ts) /\
      resting (run (Assigner.newWorker B nb p now0) ts) (period_at n + p) /\
      length (got ts) = S n /\ d_pub (d_st _ (run (Assigner.newWorker B nb p now0) ts)) = map (fun k => cpu_at (period_at k)) (seq 0 (S n)) /\
      exists x, cpu_at ts0 :: d_pub (d_st _ (run (Assigner.newWorker B nb p now0) ts)) = got ts ++ [x].
  Proof.
    intros Ht H0. set (d0 := Assigner.newWorker B nb p now0). destruct He as [Hnow Al].
    assert (Alk : forall k, (period_at k + goEpoch) mod p = 0).
    { intros k. unfold period_at. apply (aligned_shift p e0 (Z.of_nat k - 1)); auto. }
    assert (Step : forall ts n now tsx, Forall (renders fo gosort) ts -> echoes (cpu_at ts0) d0 ts -> StronglySorted Z.le (now0 :: map (t_now _) ts) ->
      Forall (fun z => z <= now) (now0 :: map (t_now _) ts) -> resting (run d0 ts) (period_at n) -> period_at n <= maxInt64 ->
      period_at n - p <= tsx < period_at n -> 0 <= tsx -> now < period_at n + p ->
      cpu_at ts0 :: d_pub (d_st _ (run d0 ts)) = got ts ++ [cpu_at tsx] ->
      let ts' := ts ++ [mkTurn _ (Some (cpu_at tsx, fun _ => now)) now plain_render; mkTurn _ None (period_at n + p) plain_render] in
      Forall (renders fo gosort) ts' /\ echoes (cpu_at ts0) d0 ts' /\ StronglySorted Z.le (now0 :: map (t_now _) ts') /\
      Forall (fun z => z <= period_at n + p) (now0 :: map (t_now _) ts') /\ resting (run d0 ts') (period_at n + p) /\
      length (got ts') = S (length (got ts)) /\ d_pub (d_st _ (run d0 ts')) = d_pub (d_st _ (run d0 ts)) ++ [cpu_at (period_at n)] /\
      cpu_at ts0 :: d_pub (d_st _ (run d0 ts')) = got ts' ++ [cpu_at (period_at n)]).
    { intros ts n now tsx Fr Ec So Fn Re Hm Hx Hx0 Hn Eq ts'.
      destruct (round (run d0 ts) (period_at n) tsx now (fun _ => now) Re (Alk n) Hx Hx0 Hm Hn) as (R1 & R2 & R3).
      set (m := mkTurn B (Some (cpu_at tsx, fun _ => now)) now plain_render) in *. set (k := mkTurn B None (period_at n + p) plain_render) in *.
      assert (Ets : ts' = (ts ++ [m]) ++ [k]) by (unfold ts'; rewrite <- app_assoc; reflexivity).
      rewrite <- (run_app d0 ts [m; k]) in R1, R2. fold ts' in R1, R2. rewrite <- (run_app d0 ts [m]) in R3.
      assert (Gm : got (ts ++ [m]) = got ts ++ [cpu_at tsx]) by (rewrite got_app; reflexivity).
      assert (Gk : got ts' = got ts ++ [cpu_at tsx]) by (rewrite Ets, got_app, Gm; apply app_nil_r).
      assert (Mp : map (t_now B) ts' = map (t_now B) ts ++ [now; period_at n + p]) by (unfold ts'; rewrite map_app; reflexivity).
      split; [apply Forall_app; split; [exact Fr|]; constructor; [apply plain_renders|constructor; [apply plain_renders|constructor]]|].
      split. { rewrite Ets. apply echoes_snoc; [apply echoes_snoc; [exact Ec|]|].
        - rewrite Gm. exists []. rewrite app_nil_r. exact Eq.
        - rewrite <- Ets, Gk, R3. exists []. rewrite app_nil_r. exact Eq. }
      rewrite Mp, app_comm_cons. split.
      { clear - So Fn Hn. revert So Fn. generalize (now0 :: map (t_now B) ts). induction l as [|z l IH]; intros So Fn; cbn [app].
        - constructor; [constructor; [constructor|constructor]|constructor; [lia|constructor]].
        - inversion So as [|? ? So1 Fz]; subst. inversion Fn as [|? ? Hz Fn']; subst. constructor; [apply IH; assumption|]. apply Forall_app. split; [exact Fz|]. constructor; [lia|constructor; [lia|constructor]]. }
      split. { apply Forall_app. split; [|constructor; [lia|constructor; [lia|constructor]]]. eapply Forall_impl; [|exact Fn]. cbn. intros; lia. }
      split; [exact R1|]. split; [rewrite Gk, app_length; cbn [length]; lia|]. split; [exact R2|].
      rewrite R2, Gk, app_comm_cons. f_equal. exact Eq. }
    induction n as [|n IH]; intros Hm.
    - destruct (Step [] 0%nat now0 ts0) as (A1 & A2 & A3 & A4 & A5 & A6 & A7 & A8).
      + constructor.
      + apply echoes_nil.
      + constructor; constructor.
      + constructor; [lia|constructor].
      + replace (period_at 0) with (e0 - p) by (unfold period_at; lia). exact start_resting.
      + exact Hm.
      + unfold period_at. lia.
      + exact H0.
      + unfold period_at. lia.
      + reflexivity.
      + eexists. split; [exact A1|]. split; [exact A2|]. split; [exact A3|]. split; [exact A4|]. split; [exact A5|]. split; [exact A6|]. split; [exact A7|]. eexists. exact A8.
    - destruct IH as (ts & B1 & B2 & B3 & B4 & B5 & B6 & B7 & x & B8); [unfold period_at in *; lia|].
      assert (Es : period_at (S n) = period_at n + p) by (unfold period_at; lia).
      assert (Ex : x = cpu_at (period_at n)).
      { rewrite B7, seq_S, map_app in B8. cbn [map] in B8. rewrite app_comm_cons in B8. apply app_inj_tail in B8. symmetry. apply B8. }
      subst x. destruct (Step ts (S n) (period_at n + p) (period_at n)) as (A1 & A2 & A3 & A4 & A5 & A6 & A7 & A8); auto.
      + rewrite Es. exact B5.
      + lia.
      + unfold period_at. nia.
      + lia.
      + eexists. split; [exact A1|]. split; [exact A2|]. split; [exact A3|]. split; [exact A4|]. split; [exact A5|]. split; [rewrite A6, B6; reflexivity|].
        split; [|eexists; exact A8]. rewrite A7, B7. rewrite (seq_S (S n)), map_app. reflexivity.
  Qed.
End Loop.
