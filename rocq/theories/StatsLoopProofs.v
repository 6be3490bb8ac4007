(** Proofs for C114: the statistics goroutine in time. *)
From Verif Require Import Base StatsLoop.
Local Open Scope Z_scope.

Section Loop.
  Variables (f : bool) (iv : Z).

  Lemma srun_app l1 : forall l2 s, srun f iv s (l1 ++ l2) =
    match srun f iv s l1 with None => None | Some (s1, o1) => match srun f iv s1 l2 with None => None | Some (s2, o2) => Some (s2, o1 ++ o2) end end.
  Proof.
    induction l1 as [|l l1 IH]; intros l2 s; cbn [app srun].
    - destruct (srun f iv s l2) as [[s2 o2]|]; reflexivity.
    - destruct (sstep f iv s l) as [[s1 o1]|]; [|reflexivity]. rewrite IH.
      destruct (srun f iv s1 l1) as [[s2 o2]|]; [|reflexivity].
      destruct (srun f iv s2 l2) as [[s3 o3]|]; [|reflexivity]. rewrite app_assoc. reflexivity.
  Qed.

  Definition sane_pc (s : sst) : Prop :=
    match s_pc s with
    | Top b => b <= s_time s
    | HaveNow b now => b <= now <= s_time s
    | HaveSnap b v => b <= s_time s /\ v <= s_value s
    | Composed b now v => b <= now <= s_time s /\ v <= s_value s
    | Tail b => b <= s_time s
    | Waiting since => since <= s_time s
    | Done => s_stop s = true
    end.

  Lemma step_facts s l s' o : sane_pc s -> sstep f iv s l = Some (s', o) ->
    sane_pc s' /\ s_time s <= s_time s' /\ s_time s' = at_time l /\ s_value s <= s_value s' /\ (s_stop s = true -> s_stop s' = true).
  Proof.
    intros I H. destruct s as [tm v pc st]. cbn [s_time s_value s_pc s_stop] in *. unfold sane_pc in *. cbn [s_pc s_time s_value s_stop] in I.
    unfold sstep in H. cbv zeta in H. cbn [s_time s_value s_pc s_stop] in H.
    destruct (Z.ltb_spec (at_time l) tm) as [Lt|Ge]; [discriminate H|].
    destruct l as [t n|t|t|t ok|t|t|t|t]; cbn [at_time] in *.
    - destruct (Z.ltb_spec n 0) as [X|X]; [discriminate H|]. inversion H; subst. cbn [s_time s_value s_pc s_stop].
      split; [destruct pc; try lia; exact I|]. split; [lia|]. split; [reflexivity|]. split; [lia|auto].
    - destruct pc; try discriminate H; try (destruct f; [discriminate H|]); inversion H; subst; cbn [s_time s_value s_pc s_stop];
        (split; [lia|]); (split; [lia|]); (split; [reflexivity|]); (split; [lia|auto]).
    - destruct pc; try discriminate H; try (destruct f; [|discriminate H]); inversion H; subst; cbn [s_time s_value s_pc s_stop];
        (split; [lia|]); (split; [lia|]); (split; [reflexivity|]); (split; [lia|auto]).
    - destruct pc; try discriminate H; inversion H; subst; cbn [s_time s_value s_pc s_stop];
        (split; [lia|]); (split; [lia|]); (split; [reflexivity|]); (split; [lia|auto]).
    - destruct pc; try discriminate H; inversion H; subst; cbn [s_time s_value s_pc s_stop];
        (split; [lia|]); (split; [lia|]); (split; [reflexivity|]); (split; [lia|auto]).
    - destruct pc; try discriminate H; destruct (since + iv <=? t); [|discriminate H]; inversion H; subst; cbn [s_time s_value s_pc s_stop];
        (split; [lia|]); (split; [lia|]); (split; [reflexivity|]); (split; [lia|auto]).
    - destruct pc; try discriminate H; destruct st; [|discriminate H]; inversion H; subst; cbn [s_time s_value s_pc s_stop];
        (split; [reflexivity|]); (split; [lia|]); (split; [reflexivity|]); (split; [lia|auto]).
    - inversion H; subst. cbn [s_time s_value s_pc s_stop].
      split; [destruct pc; try lia; reflexivity|]. split; [lia|]. split; [reflexivity|]. split; [lia|auto].
  Qed.

  Lemma run_facts ls : forall s s' o, sane_pc s -> srun f iv s ls = Some (s', o) ->
    sane_pc s' /\ s_time s <= s_time s' /\ s_value s <= s_value s' /\ (s_stop s = true -> s_stop s' = true).
  Proof.
    induction ls as [|l ls IH]; intros s s' o I H; cbn [srun] in H.
    - inversion H; subst. split; [exact I|]. split; [lia|]. split; [lia|auto].
    - destruct (sstep f iv s l) as [[s1 o1]|] eqn:E; [|discriminate]. destruct (srun f iv s1 ls) as [[s2 o2]|] eqn:E2; [|discriminate]. inversion H; subst.
      destruct (step_facts _ _ _ _ I E) as (I1 & A & _ & B & C). destruct (IH _ _ _ I1 E2) as (I2 & A2 & B2 & C2).
      split; [exact I2|]. split; [lia|]. split; [lia|auto].
  Qed.
  Lemma start_sane t v : sane_pc (sstart t v).
  Proof. cbn. lia. Qed.

  (** By when a report with at least [v0] is out. *)
  Definition by_when (R W v0 : Z) (pc : spc) : Z :=
    match pc with
    | Top b | HaveNow b _ => b + R
    | HaveSnap b v | Composed b _ v => if v0 <=? v then b + R else b + R + (Z.max 0 iv + W + R)
    | Tail b => b + R + (Z.max 0 iv + W + R)
    | Waiting since => since + Z.max 0 iv + W + R
    | Done => 0
    end.

  Lemma fresh_gen R W B v0 : 0 <= R -> 0 <= W -> forall ls s s' o, sane_pc s -> v0 <= s_value s -> timely f iv R W s ls ->
    srun f iv s ls = Some (s', o) -> s_stop s' = false -> by_when R W v0 (s_pc s) <= B -> s_time s <= B ->
    s_time s' <= B \/ exists t stamp v ok, In (Report t stamp v ok) o /\ v0 <= v /\ t <= B.
  Proof.
    intros HR HW. induction ls as [|l ls IH]; intros s s' o I V T H St Bw Tb; cbn [srun] in H.
    - inversion H; subst. left. exact Tb.
    - destruct (sstep f iv s l) as [[s1 o1]|] eqn:E; [|discriminate]. destruct (srun f iv s1 ls) as [[s2 o2]|] eqn:E2; [|discriminate]. inversion H; subst.
      cbn [timely] in T. rewrite E in T. destruct T as [D T].
      destruct (step_facts _ _ _ _ I E) as (I1 & A & A' & V' & C). destruct (run_facts _ _ _ _ I1 E2) as (_ & _ & _ & C2).
      assert (Rest : by_when R W v0 (s_pc s1) <= B -> s_time s1 <= B ->
        s_time s' <= B \/ exists t stamp v ok, In (Report t stamp v ok) (o1 ++ o2) /\ v0 <= v /\ t <= B).
      { intros Bw1 Tb1. destruct (IH s1 s' o2 I1 ltac:(lia) T E2 St Bw1 Tb1) as [X|(t & stamp & v & ok & X & Y)]; [left; exact X|].
        right. exists t, stamp, v, ok. split; [apply in_or_app; right; exact X|exact Y]. }
      assert (Now' : s_time s1 <= B).
      { rewrite A'. unfold deadline in D. unfold by_when in Bw. destruct (s_pc s) as [b|b now|b v|b now v|b|since|] eqn:P;
          try lia; try (destruct (v0 <=? v); lia).
        unfold sane_pc in I. rewrite P in I. rewrite (C2 (C I)) in St. discriminate St. }
      clear A'. destruct s as [tm v pc st]. cbn [s_time s_value s_pc s_stop] in *.
      unfold sstep in E. cbv zeta in E. cbn [s_time s_value s_pc s_stop] in E.
      destruct (Z.ltb_spec (at_time l) tm) as [Lt|Ge]; [discriminate E|].
      unfold sane_pc in I. cbn [s_pc s_time s_value s_stop] in I. unfold deadline in D. cbn [s_pc] in D.
      destruct l as [t n|t|t|t ok|t|t|t|t]; cbn [at_time] in *.
      + destruct (Z.ltb_spec n 0) as [X|X]; [discriminate E|]. inversion E; subst. exact (Rest Bw Now').
      + destruct pc as [b|b now|b v1|b now v1|b|since|]; try discriminate E; try (destruct f; [discriminate E|]); inversion E; subst; exact (Rest Bw Now').
      + destruct pc as [b|b now|b v1|b now v1|b|since|]; try discriminate E; try (destruct f; [|discriminate E]); inversion E; subst;
          cbn [s_pc s_value by_when] in *; apply Rest; try exact Now'; replace (v0 <=? v) with true by lia; exact Bw.
      + destruct pc as [b|b now|b v1|b now v1|b|since|]; try discriminate E. inversion E; subst. cbn [by_when s_pc] in *.
        destruct (Z.leb_spec v0 v1) as [L|L].
        * right. exists t, (timeToMillis now), v1, ok. split; [left; reflexivity|]. split; [exact L|exact Now'].
        * apply Rest; [exact Bw|exact Now'].
      + destruct pc as [b|b now|b v1|b now v1|b|since|]; try discriminate E. inversion E; subst. cbn [by_when s_pc] in *. apply Rest; [lia|exact Now'].
      + destruct pc as [b|b now|b v1|b now v1|b|since|]; try discriminate E. destruct (since + iv <=? t); [|discriminate E]. inversion E; subst.
        cbn [by_when s_pc] in *. apply Rest; [lia|exact Now'].
      + destruct pc as [b|b now|b v1|b now v1|b|since|]; try discriminate E. destruct st; [|discriminate E].
        rewrite (C2 (C eq_refl)) in St. discriminate St.
      + inversion E; subst. rewrite (C2 eq_refl) in St. discriminate St.
  Qed.

  Lemma timely_app R W l1 : forall l2 s s1 o1, timely f iv R W s (l1 ++ l2) -> srun f iv s l1 = Some (s1, o1) -> timely f iv R W s1 l2.
  Proof.
    induction l1 as [|l l1 IH]; intros l2 s s1 o1 T H; cbn [app timely srun] in *; [inversion H; subst; exact T|].
    destruct (sstep f iv s l) as [[s2 o2]|]; [|discriminate]. destruct (srun f iv s2 l1) as [[s3 o3]|] eqn:E; [|discriminate]. inversion H; subst.
    exact (IH _ _ _ _ (proj2 T) E).
  Qed.

  Lemma fresh R W t0 v0 l1 l2 s1 o1 s2 o2 : 0 <= R -> 0 <= W -> timely f iv R W (sstart t0 v0) (l1 ++ l2) ->
    srun f iv (sstart t0 v0) l1 = Some (s1, o1) -> srun f iv s1 l2 = Some (s2, o2) -> s_stop s2 = false ->
    s_time s1 + Z.max 0 iv + W + 2 * R < s_time s2 ->
    exists t stamp v ok, In (Report t stamp v ok) o2 /\ s_value s1 <= v /\ t <= s_time s1 + Z.max 0 iv + W + 2 * R.
  Proof.
    intros HR HW T H1 H2 St L. pose proof (timely_app _ _ _ _ _ _ _ T H1) as T2.
    destruct (run_facts _ _ _ _ (start_sane t0 v0) H1) as (I & _). destruct (run_facts _ _ _ _ I H2) as (_ & _ & _ & C).
    destruct (fresh_gen R W (s_time s1 + Z.max 0 iv + W + 2 * R) (s_value s1) HR HW l2 s1 s2 o2 I (Z.le_refl _) T2 H2 St) as [X|X]; [| |lia|exact X]; [|lia].
    destruct s1 as [tm v pc st]. unfold sane_pc in I. cbn [s_pc s_time s_value s_stop] in *. unfold by_when.
    destruct pc as [b|b now|b v1|b now v1|b|since|]; try lia; try (destruct (v <=? v1); lia).
  Qed.

  Lemma stop_step s l s' o : sstep f iv s l = Some (s', o) -> (forall t, l <> Stop t) -> s_stop s' = s_stop s.
  Proof.
    intros H N. destruct s as [tm v pc st]. unfold sstep in H. cbv zeta in H. cbn [s_time s_value s_pc s_stop] in *.
    destruct (at_time l <? tm); [discriminate H|]. destruct l as [t n|t|t|t ok|t|t|t|t]; [destruct (n <? 0)|destruct pc, f|destruct pc, f|destruct pc|destruct pc|destruct pc|destruct pc|destruct (N t eq_refl)];
      repeat match type of H with context [if ?b then _ else _] => destruct b end; try discriminate H; inversion H; subst; reflexivity.
  Qed.
  Lemma no_stop ls : forall s s' o, srun f iv s ls = Some (s', o) -> (forall t, ~ In (Stop t) ls) -> s_stop s' = s_stop s.
  Proof.
    induction ls as [|l ls IH]; intros s s' o H N; cbn [srun] in H; [inversion H; reflexivity|].
    destruct (sstep f iv s l) as [[s1 o1]|] eqn:E; [|discriminate]. destruct (srun f iv s1 ls) as [[s2 o2]|] eqn:E2; [|discriminate]. inversion H; subst.
    rewrite (IH _ _ _ E2 (fun t J => N t (or_intror J))). apply (stop_step _ _ _ _ E). intros t ->. exact (N t (or_introl eq_refl)).
  Qed.
  Lemma fresh' R W t0 v0 l1 l2 s1 o1 s2 o2 : 0 <= R -> 0 <= W -> timely f iv R W (sstart t0 v0) (l1 ++ l2) ->
    srun f iv (sstart t0 v0) l1 = Some (s1, o1) -> srun f iv s1 l2 = Some (s2, o2) -> (forall t, ~ In (Stop t) (l1 ++ l2)) ->
    s_time s1 + Z.max 0 iv + W + 2 * R < s_time s2 ->
    exists t stamp v ok, In (Report t stamp v ok) o2 /\ s_value s1 <= v /\ t <= s_time s1 + Z.max 0 iv + W + 2 * R.
  Proof.
    intros HR HW T H1 H2 N. apply (fresh R W t0 v0 l1 l2 s1 o1 s2 o2 HR HW T H1 H2).
    rewrite (no_stop _ _ _ _ H2) by (intros t J; apply (N t), in_or_app; right; exact J).
    rewrite (no_stop _ _ _ _ H1) by (intros t J; apply (N t), in_or_app; left; exact J). reflexivity.
  Qed.

  (** Values and timestamps. *)
  Definition read_inv (s0 : sst) (ls : list slabel) (s : sst) : Prop :=
    match s_pc s with
    | HaveNow b now => f = false /\ now <= s_time s
    | HaveSnap b v => f = true /\ exists l1 l2 s1 o1, ls = l1 ++ l2 /\ srun f iv s0 l1 = Some (s1, o1) /\ s_value s1 = v /\ b <= s_time s1 <= s_time s
    | Composed b now v => exists l1 l2 s1 o1, ls = l1 ++ l2 /\ srun f iv s0 l1 = Some (s1, o1) /\ s_value s1 = v /\ b <= s_time s1 /\ b <= now /\
        (if f then s_time s1 <= now <= s_time s else now <= s_time s1 <= s_time s)
    | _ => True
    end.
  Definition good_report (s0 : sst) (ls : list slabel) (o : sobs) : Prop :=
    match o with Report t stamp v _ =>
      exists l1 l2 s1 o1 now, ls = l1 ++ l2 /\ srun f iv s0 l1 = Some (s1, o1) /\ s_value s1 = v /\ stamp = timeToMillis now /\
        (if f then s_time s1 <= now <= t else now <= s_time s1 <= t)
    end.

  Lemma read_step s0 pre s o l s' o' : srun f iv s0 pre = Some (s, o) -> sane_pc s -> read_inv s0 pre s -> sstep f iv s l = Some (s', o') ->
    read_inv s0 (pre ++ [l]) s' /\ Forall (good_report s0 (pre ++ [l])) o'.
  Proof.
    intros H I R E. destruct s as [tm v pc st]. unfold read_inv in *. unfold sane_pc in I. cbn [s_time s_value s_pc s_stop] in *.
    unfold sstep in E. cbv zeta in E. cbn [s_time s_value s_pc s_stop] in E.
    destruct (Z.ltb_spec (at_time l) tm) as [Lt|Ge]; [discriminate E|].
    assert (Keep : forall t', tm <= t' ->
      match pc with
      | HaveNow _ now => f = false /\ now <= t'
      | HaveSnap b w => f = true /\ exists l1 l2 s1 o1, pre ++ [l] = l1 ++ l2 /\ srun f iv s0 l1 = Some (s1, o1) /\ s_value s1 = w /\ b <= s_time s1 <= t'
      | Composed b now w => exists l1 l2 s1 o1, pre ++ [l] = l1 ++ l2 /\ srun f iv s0 l1 = Some (s1, o1) /\ s_value s1 = w /\ b <= s_time s1 /\ b <= now /\
          (if f then s_time s1 <= now <= t' else now <= s_time s1 <= t')
      | _ => True
      end).
    { intros t' L. destruct pc as [b|b now|b w|b now w|b|since|]; try exact Logic.I.
      - destruct R as [R1 R2]. split; [exact R1|lia].
      - destruct R as (Rf & l1 & l2 & s1 & o1 & E1 & E2 & E3 & E4). split; [exact Rf|]. exists l1, (l2 ++ [l]), s1, o1.
        split; [rewrite E1, <- app_assoc; reflexivity|]. split; [exact E2|]. split; [exact E3|lia].
      - destruct R as (l1 & l2 & s1 & o1 & E1 & E2 & E3 & E4 & E5 & E6). exists l1, (l2 ++ [l]), s1, o1.
        split; [rewrite E1, <- app_assoc; reflexivity|]. split; [exact E2|]. split; [exact E3|]. split; [exact E4|]. split; [exact E5|]. destruct f; lia. }
    destruct l as [t n|t|t|t ok|t|t|t|t]; cbn [at_time] in *.
    - destruct (Z.ltb_spec n 0) as [X|X]; [discriminate E|]. inversion E; subst. split; [|constructor]. exact (Keep t Ge).
    - destruct pc as [b|b now|b w|b now w|b|since|]; try discriminate E.
      + destruct f; [discriminate E|]. inversion E; subst. split; [|constructor]. cbn [s_pc s_time]. split; [reflexivity|lia].
      + inversion E; subst. split; [|constructor]. cbn [s_pc s_time]. destruct R as (Rf & l1 & l2 & s1 & o1 & E1 & E2 & E3 & E4).
        exists l1, (l2 ++ [Now t]), s1, o1. split; [rewrite E1, <- app_assoc; reflexivity|]. split; [exact E2|]. split; [exact E3|]. rewrite Rf. lia.
    - destruct pc as [b|b now|b w|b now w|b|since|]; try discriminate E.
      + destruct f; [|discriminate E]. inversion E; subst. split; [|constructor]. cbn [s_pc s_time]. split; [reflexivity|].
        exists pre, [Snap t], (mkS tm v (Top b) st), o. split; [reflexivity|]. split; [exact H|]. split; [reflexivity|]. cbn [s_time]. lia.
      + inversion E; subst. split; [|constructor]. cbn [s_pc s_time]. destruct R as [R1 R2].
        exists pre, [Snap t], (mkS tm v (HaveNow b now) st), o. split; [reflexivity|]. split; [exact H|]. split; [reflexivity|]. rewrite R1. cbn [s_time]. lia.
    - destruct pc as [b|b now|b w|b now w|b|since|]; try discriminate E. inversion E; subst. split; [exact Logic.I|]. constructor; [|constructor].
      destruct R as (l1 & l2 & s1 & o1 & E1 & E2 & E3 & E4 & E5 & E6). exists l1, (l2 ++ [Publish t ok]), s1, o1, now.
      split; [rewrite E1, <- app_assoc; reflexivity|]. split; [exact E2|]. split; [exact E3|]. split; [reflexivity|]. destruct f; lia.
    - destruct pc as [b|b now|b w|b now w|b|since|]; try discriminate E. inversion E; subst. split; [exact Logic.I|constructor].
    - destruct pc as [b|b now|b w|b now w|b|since|]; try discriminate E. destruct (since + iv <=? t); [|discriminate E]. inversion E; subst. split; [exact Logic.I|constructor].
    - destruct pc as [b|b now|b w|b now w|b|since|]; try discriminate E. destruct st; [|discriminate E]. inversion E; subst. split; [exact Logic.I|constructor].
    - inversion E; subst. split; [|constructor]. exact (Keep t Ge).
  Qed.

  Lemma good_mono s0 ls ls' o : good_report s0 ls o -> good_report s0 (ls ++ ls') o.
  Proof.
    destruct o as [t stamp v ok]. intros (l1 & l2 & s1 & o1 & now & E1 & E). exists l1, (l2 ++ ls'), s1, o1, now.
    split; [rewrite E1, <- app_assoc; reflexivity|exact E].
  Qed.
  Lemma read_run s0 ls : forall pre s o s' o', srun f iv s0 pre = Some (s, o) -> sane_pc s -> read_inv s0 pre s -> srun f iv s ls = Some (s', o') ->
    Forall (good_report s0 (pre ++ ls)) o'.
  Proof.
    induction ls as [|l ls IH]; intros pre s o s' o' H I R E; cbn [srun] in E; [inversion E; subst; constructor|].
    destruct (sstep f iv s l) as [[s1 o1]|] eqn:E1; [|discriminate]. destruct (srun f iv s1 ls) as [[s2 o2]|] eqn:E2; [|discriminate]. inversion E; subst.
    destruct (read_step _ _ _ _ _ _ _ H I R E1) as (R1 & G1). destruct (step_facts _ _ _ _ I E1) as (I1 & _).
    assert (H1 : srun f iv s0 (pre ++ [l]) = Some (s1, o ++ o1)). { rewrite srun_app, H. cbn [srun]. rewrite E1. rewrite app_nil_r. reflexivity. }
    pose proof (IH _ _ _ _ _ H1 I1 R1 E2) as G2. rewrite <- app_assoc in G2. cbn [app] in G2. apply Forall_app. split; [|exact G2].
    refine (Forall_impl _ _ G1). intros x X. pose proof (good_mono _ _ ls _ X) as Y. rewrite <- app_assoc in Y. exact Y.
  Qed.
  Lemma truthful t0 v0 ls s o : srun f iv (sstart t0 v0) ls = Some (s, o) -> Forall (good_report (sstart t0 v0) ls) o.
  Proof.
    intros H. apply (read_run (sstart t0 v0) ls [] (sstart t0 v0) [] s o eq_refl (start_sane t0 v0) Logic.I H).
  Qed.

  (** Stop. *)
  Lemma stops s t : s_stop s = true -> s_time s <= t -> exists ls s' o, (length ls <= 5)%nat /\ Forall (fun l => at_time l = t) ls /\
    srun f iv s ls = Some (s', o) /\ s_pc s' = Done.
  Proof.
    intros St L. destruct s as [tm v pc st]. cbn [s_stop s_time] in *. subst st.
    assert (X : t <? tm = false) by lia. assert (Y : t <? t = false) by lia.
    exists (match pc with
            | Top _ => if f then [Snap t; Now t; Publish t true; Enter t; Exit t] else [Now t; Snap t; Publish t true; Enter t; Exit t]
            | HaveNow _ _ => [Snap t; Publish t true; Enter t; Exit t]
            | HaveSnap _ _ => [Now t; Publish t true; Enter t; Exit t]
            | Composed _ _ _ => [Publish t true; Enter t; Exit t]
            | Tail _ => [Enter t; Exit t]
            | Waiting _ => [Exit t]
            | Done => []
            end).
    destruct pc as [b|b now|b w|b now w|b|since|]; [destruct f| | | | | |]; do 2 eexists;
      (split; [cbn; lia|]); (split; [repeat constructor|]);
      (split; [repeat (unfold sstep; cbn [srun at_time s_time s_value s_pc s_stop]; rewrite ?X, ?Y); reflexivity|reflexivity]).
  Qed.

  (** What is never reported. *)
  Definition last_value (v0 : Z) (o : list sobs) : Z := last (map value_of o) v0.
  Lemma last_cons (l : list Z) : forall d x, last (x :: l) d = last l x.
  Proof. induction l as [|y l IH]; intros d x; [reflexivity|]. change (last (y :: l) d = last (y :: l) x). rewrite !IH. reflexivity. Qed.
  Lemma unread_run ls : forall s s' o u lastv, srun f iv s ls = Some (s', o) ->
    (match s_pc s with HaveSnap _ v | Composed _ _ v => s_value s = v + u | _ => s_value s = lastv + u end) ->
    match s_pc s' with HaveSnap _ v | Composed _ _ v => s_value s' = v + unread u ls | _ => s_value s' = last_value lastv o + unread u ls end.
  Proof.
    induction ls as [|l ls IH]; intros s s' o u lastv H U; cbn [srun] in H.
    - inversion H; subst. exact U.
    - destruct (sstep f iv s l) as [[s1 o1]|] eqn:E; [|discriminate]. destruct (srun f iv s1 ls) as [[s2 o2]|] eqn:E2; [|discriminate]. inversion H; subst.
      destruct s as [tm v pc st]. unfold sstep in E. cbv zeta in E. cbn [s_time s_value s_pc s_stop] in *.
      destruct (Z.ltb_spec (at_time l) tm) as [Lt|Ge]; [discriminate E|].
      destruct l as [t n|t|t|t ok|t|t|t|t]; cbn [at_time unread] in *.
      + destruct (n <? 0); [discriminate E|]. inversion E; subst. apply (IH _ _ _ (u + n) lastv E2). cbn [s_pc s_value]. destruct pc; lia.
      + destruct pc as [b|b now|b w|b now w|b|since|]; try discriminate E; try (destruct f; [discriminate E|]); inversion E; subst; apply (IH _ _ _ u lastv E2); cbn; lia.
      + destruct pc as [b|b now|b w|b now w|b|since|]; try discriminate E; try (destruct f; [|discriminate E]); inversion E; subst; apply (IH _ _ _ 0 lastv E2); cbn; lia.
      + destruct pc as [b|b now|b w|b now w|b|since|]; try discriminate E. inversion E; subst.
        assert (LL : last_value lastv ([Report t (timeToMillis now) w ok] ++ o2) = last_value w o2).
        { unfold last_value. cbn [app map value_of]. exact (last_cons _ _ _). }
        rewrite LL. apply (IH _ _ _ u w E2). cbn. cbn; lia.
      + destruct pc as [b|b now|b w|b now w|b|since|]; try discriminate E. inversion E; subst. apply (IH _ _ _ u lastv E2). cbn; lia.
      + destruct pc as [b|b now|b w|b now w|b|since|]; try discriminate E. destruct (since + iv <=? t); [|discriminate E]. inversion E; subst. apply (IH _ _ _ u lastv E2). cbn; lia.
      + destruct pc as [b|b now|b w|b now w|b|since|]; try discriminate E. destruct st; [|discriminate E]. inversion E; subst. apply (IH _ _ _ u lastv E2). cbn; lia.
      + inversion E; subst. apply (IH _ _ _ u lastv E2). cbn. destruct pc; lia.
  Qed.
  Lemma lost t0 v0 ls s o : srun f iv (sstart t0 v0) ls = Some (s, o) -> s_pc s = Done -> s_value s - last_value v0 o = unread 0 ls.
  Proof.
    intros H D. pose proof (unread_run ls _ _ _ 0 v0 H) as X. rewrite D in X. cbn [sstart s_pc s_value] in X. specialize (X ltac:(lia)). lia.
  Qed.

  (** Later reports say no less. *)
  Lemma above L ls : forall s s' o, sane_pc s -> L <= s_value s -> (match s_pc s with HaveSnap _ v | Composed _ _ v => L <= v | _ => True end) ->
    srun f iv s ls = Some (s', o) -> forall r, In r o -> L <= value_of r.
  Proof.
    induction ls as [|l ls IH]; intros s s' o I V P H r J; cbn [srun] in H; [inversion H; subst; destruct J|].
    destruct (sstep f iv s l) as [[s1 o1]|] eqn:E; [|discriminate]. destruct (srun f iv s1 ls) as [[s2 o2]|] eqn:E2; [|discriminate]. inversion H; subst.
    destruct (step_facts _ _ _ _ I E) as (I1 & _ & _ & V' & _).
    assert (X : (match s_pc s1 with HaveSnap _ v | Composed _ _ v => L <= v | _ => True end) /\ forall r, In r o1 -> L <= value_of r).
    { destruct s as [tm v pc st]. unfold sstep in E. cbv zeta in E. cbn [s_time s_value s_pc s_stop] in *. destruct (at_time l <? tm); [discriminate E|].
      destruct l as [t n|t|t|t ok|t|t|t|t]; [destruct (n <? 0); [discriminate E|]; inversion E; subst; split; [exact P|intros ? []]| | | | | | |inversion E; subst; split; [exact P|intros ? []]];
        (destruct pc as [b|b now|b w|b now w|b|since|]; try discriminate E); try (destruct f; try discriminate E);
        try (destruct (since + iv <=? at_time (Timer t)); [|discriminate E]); try (destruct st; [|discriminate E]);
        inversion E; subst; cbn [s_pc value_of]; (split; [first [exact Logic.I|exact P|lia]|intros r' J'; try destruct J' as [<-|[]]; cbn [value_of]; first [destruct J'|exact P]]). }
    destruct X as [X1 X2]. apply in_app_or in J. destruct J as [J|J]; [exact (X2 _ J)|]. exact (IH s1 s' o2 I1 ltac:(lia) X1 E2 r J).
  Qed.
  Lemma no_less ls : forall s s' o, sane_pc s -> srun f iv s ls = Some (s', o) -> forall a r b, o = a ++ r :: b -> forall r', In r' b -> value_of r <= value_of r'.
  Proof.
    induction ls as [|l ls IH]; intros s s' o I H a r b Es r' J; cbn [srun] in H; [inversion H as [[H1 H2]]; rewrite <- H2 in Es; destruct a; discriminate Es|].
    destruct (sstep f iv s l) as [[s1 o1]|] eqn:E; [|discriminate]. destruct (srun f iv s1 ls) as [[s2 o2]|] eqn:E2; [|discriminate]. inversion H as [[H1 H2]]. subst s2. rewrite <- H2 in Es. clear H H2.
    destruct (step_facts _ _ _ _ I E) as (I1 & _).
    assert (X : o1 = [] \/ exists x, o1 = [x] /\ value_of x <= s_value s1 /\ exists bb, s_pc s1 = Tail bb).
    { destruct s as [tm v pc st]. unfold sane_pc in I. unfold sstep in E. cbv zeta in E. cbn [s_time s_value s_pc s_stop] in *. destruct (at_time l <? tm); [discriminate E|].
      destruct l as [t n|t|t|t ok|t|t|t|t]; [destruct (n <? 0); [discriminate E|]; inversion E; subst; left; reflexivity| | | | | | |inversion E; subst; left; reflexivity];
        (destruct pc as [b0|b0 now|b0 w|b0 now w|b0|since|]; try discriminate E); try (destruct f; try discriminate E);
        try (destruct (since + iv <=? at_time (Timer t)); [|discriminate E]); try (destruct st; [|discriminate E]);
        inversion E; subst; first [left; reflexivity|right; eexists; split; [reflexivity|]; split; [cbn; lia|exists b0; reflexivity]]. }
    destruct X as [->|(x & -> & V & bb & P)]; [exact (IH _ _ _ I1 E2 _ _ _ Es _ J)|].
    destruct a as [|y a]; cbn [app] in Es; inversion Es; subst.
    - apply (above (value_of r) ls s1 s' b I1 V); [rewrite P; exact Logic.I|exact E2|exact J].
    - exact (IH _ _ _ I1 E2 _ _ _ eq_refl _ J).
  Qed.
  Lemma later t0 v0 ls s o : srun f iv (sstart t0 v0) ls = Some (s, o) -> forall a r b, o = a ++ r :: b -> forall r', In r' b -> value_of r <= value_of r'.
  Proof. exact (no_less ls _ _ _ (start_sane t0 v0)). Qed.
End Loop.

Definition short_life (f : bool) : list slabel :=
  if f then [Snap 0; Now 0; Publish 0 true; Enter 0; Count 1 7; Stop 2; Exit 2] else [Now 0; Snap 0; Publish 0 true; Enter 0; Count 1 7; Stop 2; Exit 2].
Lemma never_reported f iv : exists s, srun f iv (sstart 0 0) (short_life f) = Some (s, [Report 0 0 0 true]) /\ s_pc s = Done /\ s_value s = 7.
Proof. destruct f; eexists; (split; [reflexivity|]); split; reflexivity. Qed.
