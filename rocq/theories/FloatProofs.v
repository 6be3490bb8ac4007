From Coq Require Import Reals Lra.
From Flocq Require Import Core BinarySingleNaN Plus_error.
From Verif Require Import Base Avg AvgSpec AvgProofs AvgNum AvgPrint DsMain Floats.
Local Open Scope R_scope.

#[local] Existing Instance prec53.
#[local] Existing Instance emax1024.

Notation fexp := (SpecFloat.fexp 53 1024).
Notation rnd := (round radix2 fexp ZnearestE).
Notation fmt := (generic_format radix2 fexp).

#[local] Instance vexp : Valid_exp fexp := fexp_correct 53 1024 prec53.
#[local] Instance mexp : Monotone_exp fexp := FLT_exp_monotone (-1074) 53.
#[local] Instance nftz : Exp_not_FTZ fexp.
Proof. apply @monotone_exp_not_FTZ with (1 := vexp). exact mexp. Qed.

Lemma fmt_B2R (x : f64) : fmt (B2R x).
Proof. apply generic_format_B2R. Qed.

Lemma step_pos a b n : fmt a -> fmt b -> 0 < a - b -> 2 <= n -> 0 <= rnd (rnd (a - b) / n) <= a - b.
Proof.
  intros Fa Fb Hp Hn.
  set (t := a - b). set (f := round radix2 fexp Zfloor t).
  assert (Ff : fmt f) by (apply generic_format_round; typeclasses eauto).
  assert (Hf0 : 0 <= f) by (apply round_ge_generic; [typeclasses eauto | typeclasses eauto | apply generic_format_0 | unfold t; lra]).
  assert (Hfne : f <> 0).
  { unfold f, t, Rminus. apply round_plus_neq_0; try typeclasses eauto; trivial.
    - apply generic_format_opp, Fb.
    - unfold Rminus in Hp; lra. }
  assert (Hft : f <= t) by (apply round_DN_pt; typeclasses eauto).
  assert (Hd0 : 0 <= rnd t) by (apply round_ge_generic; [typeclasses eauto | typeclasses eauto | apply generic_format_0 | unfold t; lra]).
  assert (Hd : rnd t <= 2 * f).
  { destruct (generic_format_EM radix2 fexp t) as [Ft|NFt].
    - rewrite round_generic; [|typeclasses eauto|exact Ft].
      unfold f. rewrite round_generic; [unfold t; lra|typeclasses eauto|exact Ft].
    - apply Rle_trans with (round radix2 fexp Zceil t).
      + destruct (round_DN_or_UP radix2 fexp ZnearestE t) as [E|E]; rewrite E; [|lra].
        apply Rle_trans with t; [exact Hft|]. apply round_UP_pt; typeclasses eauto.
      + rewrite round_UP_DN_ulp; [|exact NFt]. fold f.
        assert (ulp radix2 fexp t <= f); [|lra].
        rewrite <- (ulp_DN radix2 fexp t); [|unfold t; lra]. fold f.
        apply ulp_le_id; [lra|exact Ff]. }
  assert (Hdn : 0 <= rnd t / n <= f).
  { split.
    - apply Rmult_le_pos; [exact Hd0|]. apply Rlt_le, Rinv_0_lt_compat. lra.
    - apply Rmult_le_reg_r with n; [lra|]. unfold Rdiv. rewrite Rmult_assoc, Rinv_l, Rmult_1_r by lra.
      apply Rle_trans with (2 * f); [exact Hd|]. rewrite (Rmult_comm f n). apply Rmult_le_compat_r; lra. }
  split.
  - apply round_ge_generic; [typeclasses eauto | typeclasses eauto | apply generic_format_0 | apply Hdn].
  - apply Rle_trans with f; [|exact Hft].
    apply round_le_generic; [typeclasses eauto | typeclasses eauto | exact Ff | apply Hdn].
Qed.

Lemma step_real a b n : fmt a -> fmt b -> 2 <= n ->
  let d := rnd (rnd (a - b) / n) in
  (b <= a -> b <= rnd (b + d) <= a) /\ (a <= b -> a <= rnd (b + d) <= b) /\ Rabs d <= Rabs (a - b).
Proof.
  intros Fa Fb Hn d.
  assert (Hpos : b < a -> 0 <= d <= a - b) by (intros; apply step_pos; trivial; lra).
  assert (Hneg : a < b -> a - b <= d <= 0).
  { intros Hlt. assert (H : 0 <= rnd (rnd (b - a) / n) <= b - a) by (apply step_pos; trivial; lra).
    assert (E : d = - rnd (rnd (b - a) / n)).
    { unfold d. replace (a - b) with (- (b - a)) by lra. rewrite round_NE_opp.
      unfold Rdiv. rewrite Ropp_mult_distr_l_reverse. apply round_NE_opp. }
    lra. }
  assert (Hz : a = b -> d = 0).
  { intros ->. unfold d. replace (b - b) with 0 by lra. rewrite round_0; [|typeclasses eauto].
    unfold Rdiv. rewrite Rmult_0_l. apply round_0; typeclasses eauto. }
  assert (L : forall x y, fmt x -> x <= y -> x <= rnd y) by (intros; apply round_ge_generic; trivial; typeclasses eauto).
  assert (U : forall x y, fmt x -> y <= x -> rnd y <= x) by (intros; apply round_le_generic; trivial; typeclasses eauto).
  destruct (Rtotal_order a b) as [Hab|[Hab|Hab]].
  - specialize (Hneg Hab). split; [intros; lra|]. split.
    + intros _. split; [apply L|apply U]; trivial; lra.
    + rewrite !Rabs_left1; lra.
  - specialize (Hz Hab). subst a. split; [|split].
    + intros _. split; [apply L|apply U]; trivial; lra.
    + intros _. split; [apply L|apply U]; trivial; lra.
    + rewrite Hz. rewrite Rabs_R0. apply Rabs_pos.
  - specialize (Hpos Hab). split; [|split; [intros; lra|]].
    + intros _. split; [apply L|apply U]; trivial; lra.
    + rewrite !Rabs_pos_eq; lra.
Qed.

Lemma rnd_bounded x y z : fmt x -> fmt z -> x <= y <= z -> x <= rnd y <= z.
Proof. intros Fx Fz H. split; [apply round_ge_generic|apply round_le_generic]; trivial; try typeclasses eauto; apply H. Qed.

Lemma lt_emax (x : f64) : Rabs (B2R x) < bpow radix2 1024.
Proof. apply abs_B2R_lt_emax. Qed.

Lemma sub_spread (x avg lo hi : f64) : within lo hi x -> within lo hi avg ->
  is_finite lo = true -> is_finite hi = true -> is_finite (f64_sub hi lo) = true ->
  B2R (f64_sub x avg) = rnd (B2R x - B2R avg) /\ is_finite (f64_sub x avg) = true.
Proof.
  intros [Fx Hx] [Fa Ha] Fl Fh Fs.
  assert (B : Rabs (rnd (B2R hi - B2R lo)) < bpow radix2 1024).
  { generalize (Bminus_correct 53 1024 _ _ mode_NE hi lo Fh Fl). cbn [round_mode].
    destruct (Rlt_bool_spec (Rabs (rnd (B2R hi - B2R lo))) (bpow radix2 1024)) as [H|H]; [trivial|].
    intros [E _]. exfalso. unfold f64_sub in Fs.
    rewrite is_finite_SF_B2SF in Fs || rewrite <- is_finite_SF_B2SF in Fs. rewrite E in Fs. discriminate. }
  assert (B' : Rabs (rnd (B2R x - B2R avg)) < bpow radix2 1024).
  { eapply Rle_lt_trans; [|exact B].
    assert (P : 0 <= rnd (B2R hi - B2R lo)) by (apply round_ge_generic; [typeclasses eauto | typeclasses eauto | apply generic_format_0 | lra]).
    rewrite (Rabs_pos_eq _ P). apply Rabs_le. split.
    - rewrite <- round_NE_opp. apply round_le; try typeclasses eauto. lra.
    - apply round_le; try typeclasses eauto. lra. }
  generalize (Bminus_correct 53 1024 _ _ mode_NE x avg Fx Fa). cbn [round_mode].
  rewrite Rlt_bool_true by exact B'. intros (E & F & _). split; assumption.
Qed.

Lemma bpow1_le : 2 < bpow radix2 1024.
Proof. replace 2 with (bpow radix2 1) by reflexivity. apply bpow_lt. lia. Qed.

Lemma f64_of_correct n : (0 <= n <= maxInt64)%Z -> B2R (f64_of n) = rnd (IZR n) /\ is_finite (f64_of n) = true.
Proof.
  intros Hn. generalize (binary_normalize_correct 53 1024 _ _ mode_NE n 0 false). cbn [round_mode].
  assert (EF : F2R (Float radix2 n 0) = IZR n) by (unfold F2R; cbn; lra). rewrite EF.
  rewrite Rlt_bool_true.
  - intros (E & F & _). split; assumption.
  - assert (H : 0 <= rnd (IZR n) <= bpow radix2 63).
    { apply rnd_bounded.
      - apply generic_format_0.
      - apply generic_format_bpow. vm_compute. discriminate.
      - split; [apply IZR_le; lia|]. replace (bpow radix2 63) with (IZR (2 ^ 63)) by reflexivity. apply IZR_le. unfold maxInt64, two63 in Hn. lia. }
    rewrite Rabs_pos_eq by lra. eapply Rle_lt_trans; [apply H|]. apply bpow_lt. lia.
Qed.

Lemma f64_of_ge2 n : (2 <= n <= maxInt64)%Z -> 2 <= B2R (f64_of n).
Proof.
  intros Hn. destruct (f64_of_correct n) as [E _]; [lia|]. rewrite E.
  apply round_ge_generic; try typeclasses eauto.
  - replace 2 with (bpow radix2 1) by reflexivity. apply generic_format_bpow. vm_compute. discriminate.
  - apply IZR_le. lia.
Qed.

Definition upd (avg x : f64) (n : Z) : f64 := f64_add avg (f64_div (f64_sub x avg) (f64_of n)).

Lemma upd_value (x avg lo hi : f64) n : within lo hi x -> within lo hi avg ->
  is_finite lo = true -> is_finite hi = true -> is_finite (f64_sub hi lo) = true -> (2 <= n <= maxInt64)%Z ->
  B2R (upd avg x n) = rnd (B2R avg + rnd (rnd (B2R x - B2R avg) / B2R (f64_of n))) /\ is_finite (upd avg x n) = true.
Proof.
  intros Wx Wa Fl Fh Fs Hn.
  destruct (sub_spread x avg lo hi Wx Wa Fl Fh Fs) as [Es Fsub].
  pose proof (f64_of_ge2 n Hn) as G2.
  destruct (step_real (B2R x) (B2R avg) (B2R (f64_of n)) (fmt_B2R x) (fmt_B2R avg) G2) as (U1 & U2 & U3).
  set (d := rnd (rnd (B2R x - B2R avg) / B2R (f64_of n))) in *.
  assert (Ed : B2R (f64_div (f64_sub x avg) (f64_of n)) = d /\ is_finite (f64_div (f64_sub x avg) (f64_of n)) = true).
  { assert (Hz : B2R (f64_of n) <> 0) by lra.
    generalize (Bdiv_correct 53 1024 _ _ mode_NE (f64_sub x avg) (f64_of n) Hz). cbn [round_mode]. rewrite Es. fold d.
    rewrite Rlt_bool_true.
    - intros (E & F & _). split; [exact E|]. unfold f64_div. rewrite F. exact Fsub.
    - assert (Rd : Rabs d <= Rabs (rnd (B2R x - B2R avg))).
      { unfold d. apply abs_round_le_generic; try typeclasses eauto.
        - apply generic_format_abs, generic_format_round; typeclasses eauto.
        - unfold Rdiv. rewrite Rabs_mult. rewrite <- (Rmult_1_r (Rabs (rnd _))) at 2.
          apply Rmult_le_compat_l; [apply Rabs_pos|]. rewrite Rabs_pos_eq.
          + rewrite <- Rinv_1. apply Rinv_le; lra.
          + apply Rlt_le, Rinv_0_lt_compat. lra. }
      eapply Rle_lt_trans; [exact Rd|]. rewrite <- Es. apply lt_emax. }
  destruct Ed as [Ed Fd]. destruct Wa as [Fa Ha].
  generalize (Bplus_correct 53 1024 _ _ mode_NE avg (f64_div (f64_sub x avg) (f64_of n)) Fa Fd). cbn [round_mode]. rewrite Ed.
  rewrite Rlt_bool_true; [intros (E & F & _); split; assumption|].
  pose proof (lt_emax x) as Lx. pose proof (lt_emax avg) as La.
  apply Rabs_def2 in Lx. apply Rabs_def2 in La.
  destruct (Rle_or_lt (B2R avg) (B2R x)) as [C|C].
  - specialize (U1 C). apply Rabs_def1; lra.
  - assert (C' : B2R x <= B2R avg) by lra. specialize (U2 C'). apply Rabs_def1; lra.
Qed.

Lemma upd_between (x avg lo hi : f64) n : within lo hi x -> within lo hi avg ->
  is_finite lo = true -> is_finite hi = true -> is_finite (f64_sub hi lo) = true -> (2 <= n <= maxInt64)%Z ->
  within lo hi (upd avg x n).
Proof.
  intros Wx Wa Fl Fh Fs Hn. destruct (upd_value x avg lo hi n) as [E F]; trivial.
  split; [exact F|]. rewrite E. pose proof (f64_of_ge2 n Hn) as G2.
  destruct (step_real (B2R x) (B2R avg) (B2R (f64_of n)) (fmt_B2R x) (fmt_B2R avg) G2) as (U1 & U2 & _).
  destruct Wx as [_ Wx]. destruct Wa as [_ Wa].
  destruct (Rle_or_lt (B2R avg) (B2R x)) as [C|C].
  - specialize (U1 C). lra.
  - assert (C' : B2R x <= B2R avg) by lra. specialize (U2 C'). lra.
Qed.

(** Accuracy. *)
Definition uu : R := bpow radix2 (-53).
Definition eta : R := bpow radix2 (-1075).

Lemma uu_pos : 0 < uu.
Proof. apply bpow_gt_0. Qed.
Lemma uu_le : uu <= 1.
Proof. replace 1 with (bpow radix2 0) by reflexivity. apply bpow_le. lia. Qed.
Lemma eta_pos : 0 < eta.
Proof. apply bpow_gt_0. Qed.
Lemma uu_ro : Relative.u_ro radix2 53 = uu.
Proof. unfold Relative.u_ro, uu. replace (/ 2) with (bpow radix2 (-1)) by reflexivity. rewrite <- bpow_plus. f_equal. Qed.

Lemma plus_err a b : fmt a -> fmt b -> exists e, Rabs e <= uu /\ rnd (a + b) = (a + b) * (1 + e).
Proof.
  intros Fa Fb. destruct (FLT_plus_error_N_ex radix2 (-1074) 53 (fun x => negb (Z.even x)) a b Fa Fb) as (e & He & E).
  exists e. split; [|exact E]. rewrite uu_ro in He. eapply Rle_trans; [exact He|].
  pose proof uu_pos. apply Rmult_le_reg_r with (1 + uu); [lra|]. unfold Rdiv. rewrite Rmult_assoc, Rinv_l by lra.
  assert (0 <= uu * uu) by (apply Rmult_le_pos; lra). lra.
Qed.

Lemma gen_err a : exists e h, Rabs e <= uu /\ Rabs h <= eta /\ rnd a = a * (1 + e) + h.
Proof.
  destruct (Relative.error_N_FLT radix2 (-1074) 53 prec53 (fun x => negb (Z.even x)) a) as (e & h & He & Hh & _ & E).
  exists e, h. split; [|split; [|exact E]].
  - rewrite <- uu_ro. exact He.
  - unfold eta. replace (-1075)%Z with (-1 + -1074)%Z by reflexivity. rewrite bpow_plus. exact Hh.
Qed.

Lemma abs_mult_le a b x y : Rabs a <= x -> Rabs b <= y -> Rabs (a * b) <= x * y.
Proof. intros Ha Hb. rewrite Rabs_mult. apply Rmult_le_compat; trivial; apply Rabs_pos. Qed.

Lemma step_err M x avg n : fmt x -> fmt avg -> Rabs x <= M -> Rabs avg <= M -> 2 <= n ->
  Rabs (rnd (avg + rnd (rnd (x - avg) / n)) - (avg + (x - avg) / n)) <= 4 * uu * M + eta.
Proof.
  intros Fx Fa Hx Ha Hn. set (s := x - avg). set (d := rnd (rnd s / n)).
  assert (Fd : fmt d) by (apply generic_format_round; typeclasses eauto).
  assert (Bd : Rabs (avg + d) <= M).
  { apply Rabs_le. apply Rabs_le_inv in Hx. apply Rabs_le_inv in Ha.
    destruct (Rtotal_order x avg) as [C|[C|C]].
    - assert (H : 0 <= rnd (rnd (avg - x) / n) <= avg - x) by (apply step_pos; trivial; lra).
      assert (E : d = - rnd (rnd (avg - x) / n)).
      { unfold d, s. replace (x - avg) with (- (avg - x)) by lra. rewrite round_NE_opp.
        unfold Rdiv. rewrite Ropp_mult_distr_l_reverse. apply round_NE_opp. }
      lra.
    - assert (E : d = 0).
      { unfold d, s. replace (x - avg) with 0 by lra. rewrite round_0; [|typeclasses eauto].
        unfold Rdiv. rewrite Rmult_0_l. apply round_0; typeclasses eauto. }
      lra.
    - assert (H : 0 <= d <= x - avg) by (apply step_pos; trivial; lra). lra. }
  destruct (plus_err avg d Fa Fd) as (e3 & He3 & E3). rewrite E3.
  destruct (plus_err x (- avg) Fx (generic_format_opp _ _ _ Fa)) as (e1 & He1 & E1). fold (x - avg) in E1. fold s in E1.
  destruct (gen_err (rnd s / n)) as (e2 & h & He2 & Hh & E2). fold d in E2. rewrite E1 in E2.
  pose proof uu_pos as Pu. pose proof uu_le as Lu.
  assert (Hsn : Rabs (s / n) <= M).
  { unfold Rdiv. assert (Rabs s <= 2 * M) by (unfold s; apply Rabs_le; apply Rabs_le_inv in Hx; apply Rabs_le_inv in Ha; lra).
    replace M with (2 * M * / 2) by lra. apply abs_mult_le; [assumption|].
    rewrite Rabs_pos_eq by (apply Rlt_le, Rinv_0_lt_compat; lra). apply Rinv_le; lra. }
  replace ((avg + d) * (1 + e3) - (avg + s / n)) with ((avg + d) * e3 + (s / n) * (e1 + e2 + e1 * e2) + h).
  2:{ replace (d) with (s / n * (1 + e1) * (1 + e2) + h) by (rewrite E2; unfold Rdiv; ring). ring. }
  assert (T1 : Rabs ((avg + d) * e3) <= M * uu) by (apply abs_mult_le; assumption).
  assert (T2 : Rabs ((s / n) * (e1 + e2 + e1 * e2)) <= M * (3 * uu)).
  { apply abs_mult_le; [exact Hsn|]. eapply Rle_trans; [apply Rabs_triang|].
    assert (Rabs (e1 * e2) <= uu * 1) by (apply abs_mult_le; lra).
    assert (Rabs (e1 + e2) <= Rabs e1 + Rabs e2) by apply Rabs_triang. lra. }
  eapply Rle_trans; [apply Rabs_triang|]. 
  assert (Rabs ((avg + d) * e3 + s / n * (e1 + e2 + e1 * e2)) <= Rabs ((avg + d) * e3) + Rabs (s / n * (e1 + e2 + e1 * e2))) by apply Rabs_triang.
  lra.
Qed.

Lemma f64_of_exact n : (0 <= n < 2 ^ 53)%Z -> B2R (f64_of n) = IZR n.
Proof.
  intros Hn. destruct (f64_of_correct n) as [E _].
  - split; [lia|]. unfold maxInt64, two63. lia.
  - rewrite E. apply round_generic; [typeclasses eauto|].
    replace (IZR n) with (F2R (Float radix2 n 0)) by (unfold F2R; cbn; lra).
    apply generic_format_FLT. exists (Float radix2 n 0); [reflexivity| |vm_compute; discriminate].
    cbn [Fnum]. rewrite Z.abs_eq by lia. change (radix_val radix2) with 2%Z. lia.
Qed.

Lemma running_within parse format lo hi : is_finite lo = true -> is_finite hi = true -> is_finite (f64_sub hi lo) = true ->
  forall xs avg c, within lo hi avg -> Forall (within lo hi) (somes xs) -> (1 <= c)%Z ->
    (c + Z.of_nat (length (somes xs)) <= maxInt64)%Z ->
    within lo hi (float_running (fo64 parse format) avg c xs).
Proof.
  intros Fl Fh Fs. induction xs as [|[x|] xs IH]; intros avg c Wa Wx Hc Hn; cbn [float_running].
  - exact Wa.
  - cbn [somes flat_map app] in Wx, Hn. fold (somes xs) in Wx, Hn. cbn [length] in Hn.
    inversion Wx as [|? ? Wx0 Wxs]; subst.
    rewrite wrap64_id by (split; [unfold minInt64, two63|]; lia).
    apply IH; [|exact Wxs|lia|lia].
    apply (upd_between x avg lo hi (c + 1)); trivial. split; [lia|]. lia.
  - apply IH; assumption.
Qed.

Lemma running_error parse format lo hi M : is_finite lo = true -> is_finite hi = true -> is_finite (f64_sub hi lo) = true ->
  - M <= B2R lo -> B2R hi <= M ->
  forall xs avg c s, within lo hi avg -> Forall (within lo hi) (somes xs) -> (1 <= c)%Z ->
    (c + Z.of_nat (length (somes xs)) < 2 ^ 53)%Z ->
    Rabs (IZR c * B2R avg - s) <= IZR c * (IZR c + 1) / 2 * (4 * uu * M + eta) ->
    let n := (c + Z.of_nat (length (somes xs)))%Z in
    Rabs (IZR n * B2R (float_running (fo64 parse format) avg c xs) - (s + rsum (map B2R (somes xs))))
      <= IZR n * (IZR n + 1) / 2 * (4 * uu * M + eta).
Proof.
  intros Fl Fh Fs Ml Mh. induction xs as [|[x|] xs IH]; intros avg c s Wa Wx Hc Hn He; cbn [float_running].
  - cbn [somes flat_map length map rsum fold_right]. cbn zeta. change (Z.of_nat 0) with 0%Z. rewrite Z.add_0_r, Rplus_0_r. exact He.
  - cbn [somes flat_map app] in Wx, Hn. fold (somes xs) in Wx, Hn. cbn [length] in Hn.
    inversion Wx as [|? ? Wx0 Wxs]; subst.
    assert (Hc1 : (2 <= c + 1 <= maxInt64)%Z) by (unfold maxInt64, two63; lia).
    rewrite wrap64_id by (split; [unfold minInt64, two63|]; lia).
    pose proof (upd_between x avg lo hi (c + 1) Wx0 Wa Fl Fh Fs Hc1) as Wu.
    assert (Hc' : (1 <= c + 1)%Z) by lia.
    assert (Hn' : (c + 1 + Z.of_nat (length (somes xs)) < 2 ^ 53)%Z) by lia.
    assert (He' : Rabs (IZR (c + 1) * B2R (upd avg x (c + 1)) - (s + B2R x)) <= IZR (c + 1) * (IZR (c + 1) + 1) / 2 * (4 * uu * M + eta)).
    { destruct (upd_value x avg lo hi (c + 1) Wx0 Wa Fl Fh Fs Hc1) as [E _].
      rewrite (f64_of_exact (c + 1)) in E by lia.
      assert (N2 : 2 <= IZR (c + 1)) by (apply IZR_le; lia).
      pose proof (step_err M (B2R x) (B2R avg) (IZR (c + 1)) (fmt_B2R x) (fmt_B2R avg)) as SE.
      rewrite <- E in SE. destruct Wx0 as [_ Wx0]. destruct Wa as [_ Wa].
      specialize (SE ltac:(apply Rabs_le; lra) ltac:(apply Rabs_le; lra) N2).
      set (err := B2R (upd avg x (c + 1)) - (B2R avg + (B2R x - B2R avg) / IZR (c + 1))) in *.
      replace (IZR (c + 1) * B2R (upd avg x (c + 1)) - (s + B2R x))
        with ((IZR c * B2R avg - s) + IZR (c + 1) * err).
      2:{ unfold err. rewrite plus_IZR in *. field. lra. }
      assert (T : Rabs (IZR (c + 1) * err) <= IZR (c + 1) * (4 * uu * M + eta)).
      { apply abs_mult_le; [|exact SE]. rewrite Rabs_pos_eq; lra. }
      eapply Rle_trans; [apply Rabs_triang|]. rewrite plus_IZR in *.
      set (B := 4 * uu * M + eta) in *. set (cc := IZR c) in *.
      assert (0 <= B) by (eapply Rle_trans; [apply Rabs_pos|exact SE]).
      replace ((cc + 1) * (cc + 1 + 1) / 2 * B) with (cc * (cc + 1) / 2 * B + (cc + 1) * B) by field. lra. }
    specialize (IH (upd avg x (c + 1)) (c + 1)%Z (s + B2R x) Wu Wxs Hc' Hn' He').
    cbn [somes flat_map app]. fold (somes xs). cbn [length map]. cbn zeta in *.
    replace (c + Z.of_nat (S (length (somes xs))))%Z with (c + 1 + Z.of_nat (length (somes xs)))%Z by lia.
    replace (s + rsum (B2R x :: map B2R (somes xs))) with (s + B2R x + rsum (map B2R (somes xs))) by (cbn [rsum fold_right]; unfold rsum; ring).
    exact IH.
  - exact (IH avg c s Wa Wx Hc Hn He).
Qed.

(** The field's value. *)
Lemma float_field parse format pts k n t vs : Forall (good_point (fo64 parse format)) pts ->
  values k n pts = FNum t :: vs ->
  exists v x, field_in (fo64 parse format) (bucket_of (fo64 parse format) pts) k n = Some v /\ parse t = Some x /\
    valueBytes (fo64 parse format) v = format (float_running (fo64 parse format) x 1 (map (fun v => parse (vraw v)) vs)).
Proof.
  intros F V. destruct (field_value _ pts k n F) as (v & A & Sm); [congruence|].
  rewrite V in Sm. inversion Sm as [| | |? x ? P E1 E2]; subst. exists v, x. auto.
Qed.

Lemma float_average : forall parse format pts k n t vs (lo hi : f64) (M : R),
  Forall (good_point (fo64 parse format)) pts -> values k n pts = FNum t :: vs ->
  let xs := numbers parse (FNum t :: vs) in
  is_finite lo = true -> is_finite hi = true -> is_finite (f64_sub hi lo) = true ->
  Forall (within lo hi) xs -> - M <= B2R lo -> B2R hi <= M -> (Z.of_nat (length xs) < 2 ^ 53)%Z ->
  exists v y, field_in (fo64 parse format) (bucket_of (fo64 parse format) pts) k n = Some v /\
    valueBytes (fo64 parse format) v = format y /\ within lo hi y /\
    Rabs (B2R y - mean xs) <= (IZR (Z.of_nat (length xs)) + 1) / 2 * (4 * bpow radix2 (-53) * M + bpow radix2 (-1075)).
Proof.
  intros parse format pts k n t vs lo hi M G V xs Fl Fh Fs W Ml Mh Hn.
  destruct (float_field parse format pts k n t vs G V) as (v & x & A & P & B).
  eexists v, _. split; [exact A|]. split; [exact B|].
  assert (Ex : xs = x :: numbers parse vs) by (unfold xs, numbers; cbn [map somes flat_map vraw]; rewrite P; reflexivity).
  clearbody xs. subst xs. inversion W as [|? ? W0 Ws]; subst.
  unfold mean. cbn [length map] in *. set (rs := map (fun v => parse (vraw v)) vs) in *.
  change (numbers parse vs) with (somes rs) in *.
  assert (L : (1 + Z.of_nat (length (somes rs)))%Z = Z.of_nat (S (length (somes rs)))) by lia.
  split.
  - apply running_within; trivial; [lia|]. unfold maxInt64, two63. lia.
  - assert (E := running_error parse format lo hi M Fl Fh Fs Ml Mh rs x 1%Z (B2R x) W0 Ws ltac:(lia) ltac:(lia)).
    cbn zeta in E. rewrite L in E. unfold uu, eta in E.
    set (B' := 4 * bpow radix2 (-53) * M + bpow radix2 (-1075)) in *.
    assert (PB : 0 <= B').
    { unfold B'. assert (0 <= M). { destruct W0 as [_ W0]. lra. }
      apply Rplus_le_le_0_compat; [apply Rmult_le_pos; [apply Rmult_le_pos; [lra|]|assumption]|]; apply bpow_ge_0. }
    assert (E0 : Rabs (1 * B2R x - B2R x) <= 1 * (1 + 1) / 2 * B').
    { replace (1 * B2R x - B2R x) with 0 by lra. rewrite Rabs_R0. lra. }
    specialize (E E0).
    cbn [rsum fold_right]. fold (rsum (map B2R (somes rs))).
    set (y := B2R (float_running (fo64 parse format) x 1 rs)) in *.
    set (N := IZR (Z.of_nat (S (length (somes rs))))) in *.
    assert (PN : 0 < N) by (unfold N; apply IZR_lt; lia).
    set (S' := B2R x + rsum (map B2R (somes rs))) in *.
    apply Rmult_le_reg_l with N; [exact PN|].
    rewrite <- (Rabs_pos_eq N) at 1 by lra. rewrite <- Rabs_mult.
    replace (N * (y - S' / N)) with (N * y - S') by (field; lra).
    eapply Rle_trans; [exact E|]. apply Req_le. field.
Qed.

Lemma float_constant : forall parse format pts k n t vs (x : f64),
  Forall (good_point (fo64 parse format)) pts -> values k n pts = FNum t :: vs ->
  is_finite x = true -> Forall (fun y : f64 => is_finite y = true /\ B2R y = B2R x) (numbers parse (FNum t :: vs)) ->
  (Z.of_nat (length (numbers parse (FNum t :: vs))) <= maxInt64)%Z ->
  exists v y, field_in (fo64 parse format) (bucket_of (fo64 parse format) pts) k n = Some v /\
    valueBytes (fo64 parse format) v = format y /\ is_finite y = true /\ B2R y = B2R x.
Proof.
  intros parse format pts k n t vs x G V Fx W Hn.
  destruct (float_field parse format pts k n t vs G V) as (v & x0 & A & P & B).
  eexists v, _. split; [exact A|]. split; [exact B|].
  unfold numbers in W, Hn. cbn [map somes flat_map vraw] in W, Hn. rewrite P in W, Hn. cbn [app length] in W, Hn.
  inversion W as [|? ? W0 Ws]; subst.
  assert (Q : within x x (float_running (fo64 parse format) x0 1 (map (fun v => parse (vraw v)) vs))).
  { apply running_within; trivial.
    - generalize (Bminus_correct 53 1024 _ _ mode_NE x x Fx Fx). cbn [round_mode].
      replace (B2R x - B2R x) with 0 by lra. rewrite round_0 by typeclasses eauto. rewrite Rabs_R0.
      rewrite Rlt_bool_true by apply bpow_gt_0. intros (_ & F & _). exact F.
    - split; [apply W0|]. destruct W0; lra.
    - eapply Forall_impl; [|exact Ws]. intros y [Fy Ey]. split; [exact Fy|lra].
    - lia.
    - unfold somes. lia. }
  destruct Q as [Q1 Q2]. split; [exact Q1|lra].
Qed.

(** Values that are not finite. *)
Lemma add_fin a b : is_finite (f64_add a b) = true -> is_finite a = true /\ is_finite b = true.
Proof.
  destruct a as [s|s| |s m e H], b as [s'|s'| |s' m' e' H']; unfold f64_add; cbn; try (intros Q; discriminate Q); auto.
  destruct s, s'; cbn; intros Q; discriminate Q.
Qed.
Lemma sub_fin a b : is_finite (f64_sub a b) = true -> is_finite a = true /\ is_finite b = true.
Proof.
  destruct a as [s|s| |s m e H], b as [s'|s'| |s' m' e' H']; unfold f64_sub; cbn; try (intros Q; discriminate Q); auto.
  destruct s, s'; cbn; intros Q; discriminate Q.
Qed.
Lemma div_fin a b : is_finite b = true -> is_finite (f64_div a b) = true -> is_finite a = true.
Proof. destruct a as [s|s| |s m e H], b as [s'|s'| |s' m' e' H']; unfold f64_div; cbn; try (intros Q; discriminate Q); try (intros _ Q; discriminate Q); auto. Qed.

Lemma upd_fin avg x n : (0 <= n <= maxInt64)%Z -> is_finite (upd avg x n) = true -> is_finite avg = true /\ is_finite x = true.
Proof.
  intros Hn H. unfold upd in H. apply add_fin in H. destruct H as [H1 H2]. split; [exact H1|].
  apply div_fin in H2; [|apply f64_of_correct, Hn]. apply sub_fin in H2. apply H2.
Qed.

Lemma running_fin parse format : forall xs avg c, (1 <= c)%Z -> (c + Z.of_nat (length (somes xs)) <= maxInt64)%Z ->
  is_finite (float_running (fo64 parse format) avg c xs) = true -> is_finite avg = true /\ Forall (fun x => is_finite x = true) (somes xs).
Proof.
  induction xs as [|[x|] xs IH]; intros avg c Hc Hn H; cbn [float_running] in H.
  - split; [exact H|constructor].
  - cbn [somes flat_map app] in *. fold (somes xs) in *. cbn [length] in Hn.
    rewrite wrap64_id in H by (split; [unfold minInt64, two63|]; lia).
    apply IH in H; [|lia|lia]. destruct H as [H1 H2].
    change (is_finite (upd avg x (c + 1)) = true) in H1.
    apply upd_fin in H1; [|lia]. split; [apply H1|]. constructor; [apply H1|exact H2].
  - apply (IH avg c Hc Hn H).
Qed.

Lemma float_poison : forall parse format pts k n t vs (x : f64),
  Forall (good_point (fo64 parse format)) pts -> values k n pts = FNum t :: vs ->
  In x (numbers parse (FNum t :: vs)) -> is_finite x = false ->
  (Z.of_nat (length (numbers parse (FNum t :: vs))) <= maxInt64)%Z ->
  exists v y, field_in (fo64 parse format) (bucket_of (fo64 parse format) pts) k n = Some v /\
    valueBytes (fo64 parse format) v = format y /\ is_finite y = false.
Proof.
  intros parse format pts k n t vs x G V I Nx Hn.
  destruct (float_field parse format pts k n t vs G V) as (v & x0 & A & P & B).
  eexists v, _. split; [exact A|]. split; [exact B|].
  unfold numbers in I, Hn. cbn [map somes flat_map vraw] in I, Hn. rewrite P in I, Hn. cbn [app length] in I, Hn.
  match goal with |- is_finite ?y = false => destruct (is_finite y) eqn:E; [exfalso|reflexivity] end.
  apply running_fin in E; [|lia|rewrite Nat2Z.inj_succ in Hn; rewrite Z.add_comm; exact Hn]. destruct E as [E1 E2].
  destruct I as [<-|I]; [congruence|]. rewrite Forall_forall in E2. specialize (E2 x I). congruence.
Qed.

(** A reader for some texts. *)
Definition f64_lit (m e : Z) : f64 := binary_normalize 53 1024 prec53 emax1024 mode_NE m e false.
Definition parse0 (t : bytes) : option f64 :=
  if beqs t (lit "1.5") then Some (f64_lit 3 (-1)) else if beqs t (lit "2.5") then Some (f64_lit 5 (-1))
  else if beqs t (lit "8") then Some (f64_lit 8 0) else if beqs t (lit "NaN") then Some B754_nan
  else if beqs t (lit "-8.98846567431158e+307") then Some (f64_lit (-1) 1023)
  else if beqs t (lit "8.98846567431158e+307") then Some (f64_lit 1 1023) else None.
Definition fpts (ts : list string) : list point := map (fun t => (lit "cpu,h=a", [(lit "f", FNum (lit t))])) ts.

Lemma ex_fpts_good : Forall (good_point (fo64 parse0 (fun _ => []))) (fpts ["1.5"; "8"; "2.5"]%string).
Proof.
  assert (G : forall t x c, bare (t ++ [c]) -> c <> "i"%char -> parse0 (t ++ [c]) = Some x ->
      good_point (fo64 parse0 (fun _ => [])) (lit "cpu,h=a", [(lit "f", FNum (t ++ [c]))])).
  { intros t x c Hb Hi Hp. split; [free|]. split; [discriminate|]. split; [repeat constructor; intros []|].
    constructor; [|constructor]. split; [free|]. split; [exact Hb|]. split; [|exists x; exact Hp].
    intros [p E]. apply app_inj_tail in E. destruct E as [_ E]. exact (Hi E). }
  unfold fpts. cbn [map]. repeat apply Forall_cons; try apply Forall_nil.
  - eapply (G (lit "1.") _ "5"%char); [word|discriminate|reflexivity].
  - eapply (G (lit "") _ "8"%char); [word|discriminate|reflexivity].
  - eapply (G (lit "2.") _ "5"%char); [word|discriminate|reflexivity].
Qed.
