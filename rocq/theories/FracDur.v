(** Durations with a decimal point: time.ParseDuration with its float64 arithmetic. *)
From Coq Require Import Reals Lra.
From Flocq Require Import Core BinarySingleNaN.
From Verif Require Import Base Convert NumSpec NumProofs Units Avg AvgSpec Floats FloatProofs.
Local Open Scope Z_scope.

(** Go: x * y on float64. *)
Definition f64_mul : f64 -> f64 -> f64 := @Bmult 53 1024 prec53 emax1024 mode_NE.
(** time/format.go leadingFraction: scale is multiplied by 10 for every digit used. *)
Fixpoint scale (k : nat) : f64 := match k with O => f64_of 1 | S k' => f64_mul (scale k') (f64_of 10) end.
(** time/format.go ParseDuration: int64(float64(f) * (float64(unit) / scale)). *)
Definition frac64 (f : Z) (k : nat) (unit : Z) : Z := Btrunc (f64_mul (f64_of f) (f64_div (f64_of unit) (scale k))).

(** ** Specification *)

(** A number with decimals and a unit: [ds].[fs] times the unit, which is a whole number of nanoseconds because the unit is
    divisible by the last decimal place. *)
Inductive dur_part : bytes -> Z -> Prop :=
| dp_whole ds u n : digits ds -> duration_unit u n -> dur_part (ds ++ u) (dec_value ds * n)
| dp_point ds fs u n z : Forall is_digit ds -> Forall is_digit fs -> ds ++ fs <> [] -> duration_unit u n ->
    (10 ^ Z.of_nat (length fs) | n) -> z * 10 ^ Z.of_nat (length fs) = dec_value (ds ++ fs) * n ->
    dur_part (ds ++ [dotc] ++ fs ++ u) z.
Inductive dur_parts : bytes -> Z -> Prop :=
| dps_one s z : dur_part s z -> dur_parts s z
| dps_more s z s' z' : dur_part s z -> dur_parts s' z' -> dur_parts (s ++ s') (z + z').
(** With an optional sign. *)
Inductive point_text : bytes -> Z -> Prop :=
| pt_plain s z : dur_parts s z -> point_text s z
| pt_plus s z : dur_parts s z -> point_text ("+"%char :: s) z
| pt_minus s z : dur_parts s z -> point_text ("-"%char :: s) (- z).

(** ** Proofs *)

Lemma fmt_int n : 0 <= n < 2 ^ 53 -> fmt (IZR n).
Proof.
  intros Hn. replace (IZR n) with (F2R (Float radix2 n 0)) by (unfold F2R; cbn; lra).
  apply generic_format_FLT. exists (Float radix2 n 0); [reflexivity| |vm_compute; discriminate].
  cbn [Fnum]. rewrite Z.abs_eq by lia. change (radix_val radix2) with 2%Z. lia.
Qed.
Lemma rnd_int n : 0 <= n < 2 ^ 53 -> rnd (IZR n) = IZR n.
Proof. intros Hn. apply round_generic; [typeclasses eauto|]. apply fmt_int. exact Hn. Qed.
Lemma int_lt n : 0 <= n < 2 ^ 53 -> (Rabs (IZR n) < bpow radix2 1024)%R.
Proof.
  intros Hn. rewrite Rabs_pos_eq by (apply IZR_le; lia). apply Rlt_trans with (bpow radix2 53); [|apply bpow_lt; lia].
  replace (bpow radix2 53) with (IZR (2 ^ 53)) by reflexivity. apply IZR_lt. lia.
Qed.
Definition isval (x : f64) (n : Z) : Prop := B2R x = IZR n /\ is_finite x = true.
Lemma of_isval n : 0 <= n < 2 ^ 53 -> isval (f64_of n) n.
Proof. intros Hn. split; [apply f64_of_exact; exact Hn|]. apply f64_of_correct. unfold maxInt64, two63. lia. Qed.
Lemma mul_isval x y a b : isval x a -> isval y b -> 0 <= a * b < 2 ^ 53 -> isval (f64_mul x y) (a * b).
Proof.
  intros [Ex Fx] [Ey Fy] H. generalize (Bmult_correct 53 1024 prec53 emax1024 mode_NE x y). cbn [round_mode].
  rewrite Ex, Ey, <- mult_IZR. fold rnd. change (round radix2 (SpecFloat.fexp 53 1024) ZnearestE (IZR (a * b))) with (rnd (IZR (a * b))).
  rewrite rnd_int by exact H. rewrite Rlt_bool_true by (apply int_lt; exact H). intros (E & F & _). split; [exact E|].
  unfold f64_mul. rewrite F, Fx, Fy. reflexivity.
Qed.
Lemma div_isval x y a b : isval x (a * b) -> isval y b -> 0 < b -> 0 <= a < 2 ^ 53 -> isval (f64_div x y) a.
Proof.
  intros [Ex Fx] [Ey Fy] Hb H. assert (Nb : IZR b <> 0%R) by (apply IZR_neq; lia).
  generalize (Bdiv_correct 53 1024 prec53 emax1024 mode_NE x y). rewrite Ex, Ey. intros X. specialize (X Nb). cbn [round_mode] in X.
  replace (IZR (a * b) / IZR b)%R with (IZR a) in X by (rewrite mult_IZR; field; exact Nb).
  change (round radix2 (SpecFloat.fexp 53 1024) ZnearestE (IZR a)) with (rnd (IZR a)) in X.
  rewrite rnd_int in X by exact H. rewrite Rlt_bool_true in X by (apply int_lt; exact H). destruct X as (E & F & _). split; [exact E|].
  unfold f64_div. rewrite F. exact Fx.
Qed.
Lemma trunc_isval x a : isval x a -> Btrunc x = a.
Proof.
  intros [E _]. apply eq_IZR. rewrite (Btrunc_correct 53 1024 emax1024), E. apply round_generic; [typeclasses eauto|].
  apply generic_format_FIX. exists (Float radix2 a 0); [unfold F2R; cbn; lra|reflexivity].
Qed.
Lemma scale_isval k : 10 ^ Z.of_nat k < 2 ^ 53 -> isval (scale k) (10 ^ Z.of_nat k).
Proof.
  induction k as [|k IH]; intros H; [apply of_isval; lia|]. cbn [scale].
  replace (10 ^ Z.of_nat (S k)) with (10 ^ Z.of_nat k * 10) in * by (rewrite Nat2Z.inj_succ, Z.pow_succ_r by lia; lia).
  apply mul_isval; [apply IH; lia|apply of_isval; lia|lia].
Qed.

Lemma frac64_exact f k q : 0 <= f < 10 ^ Z.of_nat k -> 0 <= q -> q * 10 ^ Z.of_nat k < 2 ^ 53 -> 10 ^ Z.of_nat k < 2 ^ 53 ->
  frac64 f k (q * 10 ^ Z.of_nat k) = f * q.
Proof.
  intros Hf Hq Hu Hk. assert (P : 0 < 10 ^ Z.of_nat k) by (apply Z.pow_pos_nonneg; lia).
  apply trunc_isval. apply mul_isval; [apply of_isval; lia| |nia].
  apply (div_isval _ _ q (10 ^ Z.of_nat k)); [apply of_isval; nia|apply scale_isval; exact Hk|exact P|nia].
Qed.

Lemma dfold_app x a b : dfold x (a ++ b) = dfold (dfold x a) b.
Proof. unfold dfold. apply fold_left_app. Qed.
Lemma dfold_lin ds : forall x, dfold x ds = x * 10 ^ Z.of_nat (length ds) + dec_value ds.
Proof.
  unfold dec_value. induction ds as [|c ds IH]; intros x; [cbn; lia|].
  change (dfold x (c :: ds)) with (dfold (x * 10 + (Z.of_N (bval c) - 48)) ds). rewrite IH.
  change (fold_left (fun n c => n * 10 + (Z.of_N (bval c) - 48)) (c :: ds) 0) with (dfold (0 * 10 + (Z.of_N (bval c) - 48)) ds). rewrite IH.
  cbn [length]. rewrite Nat2Z.inj_succ, Z.pow_succ_r by lia. ring.
Qed.
Lemma dec_app a b : dec_value (a ++ b) = dec_value a * 10 ^ Z.of_nat (length b) + dec_value b.
Proof. change (dfold 0 (a ++ b) = dfold 0 a * 10 ^ Z.of_nat (length b) + dec_value b). rewrite dfold_app. apply dfold_lin. Qed.
Lemma dec_lt ds : Forall is_digit ds -> 0 <= dec_value ds < 10 ^ Z.of_nat (length ds).
Proof.
  induction 1 as [|c ds H F IH]; [cbn; lia|].
  change (c :: ds) with ([c] ++ ds). rewrite dec_app, app_length. cbn [length]. replace (Z.of_nat (1 + length ds)) with (Z.succ (Z.of_nat (length ds))) by lia.
  rewrite Z.pow_succ_r by lia. unfold is_digit in H. cbn [dec_value fold_left]. 
  change (dec_value [c]) with (0 * 10 + (Z.of_N (bval c) - 48)). nia.
Qed.

Lemma leadingFraction_digits fs rest : Forall is_digit fs -> (match rest with [] => True | c :: _ => ~ is_digit c end) ->
  forall x k, 0 <= x -> dfold x fs <= maxInt64 -> leadingFraction (fs ++ rest) x k false = (dfold x fs, (k + length fs)%nat, rest).
Proof.
  intros F Hr. induction F as [|c fs H F IH]; intros x k Hx L.
  - cbn [app dfold fold_left length]. rewrite Nat.add_0_r. destruct rest as [|c r]; [reflexivity|]. cbn [leadingFraction]. apply digit_val_None in Hr. rewrite Hr. reflexivity.
  - cbn [app leadingFraction]. pose proof H as H'. apply (fun h => proj2 (digit_val_Some c _) (conj h eq_refl)) in H'. rewrite H'.
    change (dfold x (c :: fs)) with (dfold (x * 10 + (Z.of_N (bval c) - 48)) fs) in *. set (d := Z.of_N (bval c) - 48) in *.
    assert (Hd : 0 <= d <= 9) by (unfold d, is_digit in *; lia). assert (G : x * 10 + d <= dfold (x * 10 + d) fs) by (apply dfold_ge; [exact F|lia]).
    clearbody d. clear H H' Hr. replace (maxInt64 / 10) with 922337203685477580 by reflexivity. unfold maxInt64, two63 in L.
    assert (Lx : x <= 922337203685477580 /\ 0 <= x * 10 + d <= 9223372036854775807). { clear IH. set (D := dfold (x * 10 + d) fs) in *. clearbody D. lia. }
    destruct Lx as [Lx Ly].
    assert (Ex : (922337203685477580 <? x) = false). { apply Z.ltb_ge. exact Lx. }
    rewrite Ex. rewrite wrap64_id by (clear - Ly; unfold int64, minInt64, maxInt64, two63; lia).
    replace (x * 10 + d <? 0) with false by (symmetry; apply Z.ltb_ge; apply Ly).
    rewrite (IH (x * 10 + d) (S k) (proj1 Ly) L). cbn [length]. f_equal. f_equal. clear. lia.
Qed.

Definition next_ok (rest : bytes) : Prop := match rest with [] => True | c :: _ => is_digit c \/ c = dotc end.
Lemma takeUnit_app' u rest : Forall (fun c => ~ is_digit c /\ c <> dotc) u -> next_ok rest -> takeUnit (u ++ rest) = (u, rest).
Proof.
  intros F Hr. induction F as [|c u [H1 H2] F IH].
  - destruct rest as [|c r]; [reflexivity|]. cbn [app takeUnit]. destruct Hr as [Hr|Hr]; [apply isDigit_iff in Hr; rewrite Hr, orb_true_r; reflexivity|].
    rewrite Hr, Ascii.eqb_refl. reflexivity.
  - cbn [app takeUnit]. replace (Ascii.eqb c dotc) with false by (symmetry; apply Ascii.eqb_neq; exact H2).
    replace (isDigit c) with false by (destruct (isDigit c) eqn:E; [apply isDigit_iff in E; contradiction|reflexivity]). cbn [orb]. rewrite IH. reflexivity.
Qed.

(** What is behind a number in [durLoop], for a unit of [n] nanoseconds. *)
Lemma dur_add frac fuel s3 v f k n d : 0 <= v -> 0 <= f -> (f = 0 \/ 0 <= frac f k n < n) -> 1 <= n <= 2 ^ 43 -> 0 <= d <= maxInt64 ->
  (if maxInt64 / n <? v then None
   else let v1 := v * n in
        let v2 := if 0 <? f then wrap64 (v1 + frac f k n) else v1 in
        if v2 <? 0 then None
        else let d' := wrap64 (d + v2) in if d' <? 0 then None else durLoop frac fuel s3 d') =
  (let t := v * n + (if 0 <? f then frac f k n else 0) in if d + t <=? maxInt64 then durLoop frac fuel s3 (d + t) else None).
Proof.
  intros Hv Hf Hfr Hn Hd. cbv zeta. set (g := if 0 <? f then frac f k n else 0).
  assert (Hg : 0 <= g < n) by (unfold g; destruct (Z.ltb_spec 0 f); lia).
  destruct (Z.ltb_spec (maxInt64 / n) v) as [Lm|Lm].
  - assert (maxInt64 < v * n) by (apply Z.lt_nge; intros X; pose proof (Z.div_le_lower_bound maxInt64 n v ltac:(lia) ltac:(lia)); lia).
    replace (d + (v * n + g) <=? maxInt64) with false by lia. reflexivity.
  - assert (Hm : v * n <= maxInt64) by (pose proof (Z.mul_div_le maxInt64 n ltac:(lia)); nia).
    assert (E2 : (if 0 <? f then wrap64 (v * n + frac f k n) else v * n) = if v * n + g <=? maxInt64 then v * n + g else v * n + g - two64).
    { unfold g. destruct (Z.ltb_spec 0 f) as [F0|F0].
      - destruct (Z.leb_spec (v * n + frac f k n) maxInt64) as [L|L].
        + apply wrap64_id. unfold int64, minInt64, maxInt64, two63 in *. nia.
        + unfold wrap64, maxInt64, two63, two64 in *. rewrite <- (Z_mod_plus_full _ (-1)). rewrite Z.mod_small; lia.
      - rewrite Z.add_0_r. replace (v * n <=? maxInt64) with true by lia. reflexivity. }
    rewrite E2. destruct (Z.leb_spec (v * n + g) maxInt64) as [L|L].
    + replace (v * n + g <? 0) with false by nia. destruct (Z.leb_spec (d + (v * n + g)) maxInt64) as [Ls|Ls].
      * rewrite wrap64_id by (unfold int64, minInt64, maxInt64, two63 in *; nia). replace (d + (v * n + g) <? 0) with false by nia. reflexivity.
      * assert (W : wrap64 (d + (v * n + g)) < 0). { unfold wrap64, maxInt64, two63, two64 in *. rewrite <- (Z_mod_plus_full _ (-1)). rewrite Z.mod_small; lia. }
        replace (wrap64 (d + (v * n + g)) <? 0) with true by lia. reflexivity.
    + replace (v * n + g - two64 <? 0) with true by (unfold two64, maxInt64, two63 in *; lia).
      replace (d + (v * n + g) <=? maxInt64) with false by lia. reflexivity.
Qed.

Lemma unit_le u n : duration_unit u n -> 1 <= n <= 2 ^ 43.
Proof. intros H. inversion H; subst; vm_compute; split; discriminate. Qed.

(** One round with a point. *)
Lemma dur_point frac fuel ds fs u n rest d : Forall is_digit ds -> Forall is_digit fs -> ds ++ fs <> [] -> duration_unit u n -> next_ok rest -> 0 <= d <= maxInt64 ->
  dec_value fs <= maxInt64 -> (dec_value fs = 0 \/ 0 <= frac (dec_value fs) (length fs) n < n) ->
  durLoop frac (S fuel) (ds ++ [dotc] ++ fs ++ u ++ rest) d =
  (let t := dec_value ds * n + (if 0 <? dec_value fs then frac (dec_value fs) (length fs) n else 0) in
   if d + t <=? maxInt64 then durLoop frac fuel rest (d + t) else None).
Proof.
  intros Dd Df Ne U Hr Hd Lf Hfr. destruct (unit_shape u n U) as (Hn & Nu & Fu). pose proof (unit_le u n U) as Un.
  assert (Ndot : ~ is_digit dotc) by (unfold is_digit; vm_compute; intros [? ?]; congruence).
  assert (Shape : exists c r, ds ++ [dotc] ++ fs ++ u ++ rest = c :: r /\ (Ascii.eqb c dotc || isDigit c) = true).
  { destruct ds as [|c ds]; [eexists _, _; split; [reflexivity|reflexivity]|]. inversion Dd; subst. eexists _, _. split; [reflexivity|].
    match goal with H : is_digit c |- _ => apply isDigit_iff in H; rewrite H end. apply orb_true_r. }
  destruct Shape as (c & r & Es & Ec). rewrite Es. cbn [durLoop]. rewrite Ec. cbn [negb]. rewrite <- Es. clear c r Es Ec.
  rewrite (leadingInt_digits ds ([dotc] ++ fs ++ u ++ rest) Dd Ndot 0) by lia. change (dfold 0 ds) with (dec_value ds).
  assert (V0 : 0 <= dec_value ds) by (apply dec_value_bound; exact Dd). assert (F0 : 0 <= dec_value fs) by (apply dec_value_bound; exact Df).
  replace (0 <=? maxInt64) with true by reflexivity. cbn [andb].
  destruct ((dec_value ds <=? maxInt64) || match ds with [] => true | _ => false end) eqn:Ev.
  - cbn [app]. rewrite Ascii.eqb_refl.
    assert (Hu : match u ++ rest with [] => True | c :: _ => ~ is_digit c end) by (destruct u as [|cu u]; [congruence|]; inversion Fu; subst; cbn; tauto).
    rewrite (leadingFraction_digits fs (u ++ rest) Df Hu 0 0) by (try exact Lf; lia). change (dfold 0 fs) with (dec_value fs). cbn [Nat.add].
    replace (negb (negb (Nat.eqb (length (dotc :: fs ++ u ++ rest)) (length (ds ++ dotc :: fs ++ u ++ rest))) || negb (Nat.eqb (length (u ++ rest)) (length (fs ++ u ++ rest))))) with false.
    2:{ symmetry. apply negb_false_iff, orb_true_iff. destruct ds as [|c ds].
        - right. apply negb_true_iff, Nat.eqb_neq. rewrite (app_length fs). destruct fs; [destruct (Ne eq_refl)|cbn; lia].
        - left. apply negb_true_iff, Nat.eqb_neq. rewrite (app_length (c :: ds)). cbn [length]. lia. }
    rewrite (takeUnit_app' u rest Fu Hr). apply unit_iff in U. destruct u as [|cu u]; [congruence|]. rewrite U.
    apply dur_add; auto.
  - apply orb_false_iff in Ev. destruct Ev as [Ev _]. apply Z.leb_gt in Ev. cbv zeta.
    set (g := if 0 <? dec_value fs then _ else _). assert (0 <= g) by (unfold g; destruct (Z.ltb_spec 0 (dec_value fs)); lia).
    replace (d + (dec_value ds * n + g) <=? maxInt64) with false by nia. reflexivity.
Qed.

Lemma dur_whole frac fuel ds u n rest d : digits ds -> duration_unit u n -> next_ok rest -> 0 <= d <= maxInt64 ->
  durLoop frac (S fuel) (ds ++ u ++ rest) d = if d + dec_value ds * n <=? maxInt64 then durLoop frac fuel rest (d + dec_value ds * n) else None.
Proof.
  intros [Nd Dd] U Hr Hd. destruct (unit_shape u n U) as (Hn & Nu & Fu). pose proof (unit_le u n U) as Un.
  destruct ds as [|c ds]; [congruence|]. inversion Dd as [|? ? Hc Dd']; subst.
  destruct u as [|cu u]; [congruence|]. inversion Fu as [|? ? [Hcu1 Hcu2] Fu']; subst.
  cbn [app durLoop]. pose proof Hc as Hc'. apply isDigit_iff in Hc'. rewrite Hc', orb_true_r. cbn [negb].
  change (c :: ds ++ cu :: u ++ rest) with ((c :: ds) ++ (cu :: u ++ rest)). rewrite (leadingInt_digits (c :: ds) (cu :: u ++ rest) Dd Hcu1 0) by lia.
  rewrite orb_false_r. change (dfold 0 (c :: ds)) with (dec_value (c :: ds)). set (v := dec_value (c :: ds)) in *.
  assert (V0 : 0 <= v) by (unfold v; apply dec_value_bound; exact Dd).
  replace (0 <=? maxInt64) with true by reflexivity. cbn [andb].
  destruct (Z.leb_spec v maxInt64) as [Lv|Lv].
  - replace (Ascii.eqb cu dotc) with false by (symmetry; apply Ascii.eqb_neq; exact Hcu2).
    replace (negb (Nat.eqb (length (cu :: u ++ rest)) (length ((c :: ds) ++ cu :: u ++ rest)))) with true by (symmetry; apply negb_true_iff, Nat.eqb_neq; rewrite app_length; cbn [length]; lia).
    cbn [orb negb]. change (cu :: u ++ rest) with ((cu :: u) ++ rest). rewrite takeUnit_app' by assumption.
    apply unit_iff in U. rewrite U. refine (eq_trans (dur_add frac fuel rest v 0 0 n d V0 ltac:(lia) (or_introl eq_refl) Un Hd) _).
    cbv zeta. change (0 <? 0) with false. cbv iota. rewrite Z.add_0_r. reflexivity.
  - replace (d + v * n <=? maxInt64) with false by nia. reflexivity.
Qed.

Lemma part_start s z : dur_part s z -> exists c r, s = c :: r /\ (is_digit c \/ c = dotc).
Proof.
  intros H. inversion H as [ds u n [N D] U|ds fs u n z' D F Ne U Dv E]; subst.
  - destruct ds as [|c ds]; [congruence|]. inversion D; subst. eexists _, _. split; [reflexivity|auto].
  - destruct ds as [|c ds]; [eexists _, _; split; [reflexivity|auto]|]. inversion D; subst. eexists _, _. split; [reflexivity|auto].
Qed.
Lemma parts_start' s z : dur_parts s z -> exists c r, s = c :: r /\ (is_digit c \/ c = dotc).
Proof. intros H. inversion H as [s0 z0 P|s0 z0 s1 z1 P Q]; subst; destruct (part_start _ _ P) as (c & r & -> & X); eexists _, _; split; try reflexivity; exact X. Qed.

(** One round, for a part of the specification. *)
Lemma dur_step fuel s z rest d : dur_part s z -> next_ok rest -> 0 <= d <= maxInt64 ->
  0 <= z /\ durLoop frac64 (S fuel) (s ++ rest) d = if d + z <=? maxInt64 then durLoop frac64 fuel rest (d + z) else None.
Proof.
  intros P Hr Hd. destruct P as [ds u n D U|ds fs u n z Dd Df Ne U Dv E].
  - split; [pose proof (dec_value_bound ds (proj2 D)); pose proof (unit_le u n U); nia|]. rewrite <- app_assoc. apply dur_whole; auto.
  - pose proof (unit_le u n U) as Un. destruct Dv as [q Dv]. set (p := 10 ^ Z.of_nat (length fs)) in *.
    assert (Pp : 0 < p) by (apply Z.pow_pos_nonneg; lia). pose proof (dec_lt fs Df) as Lf. fold p in Lf. pose proof (dec_value_bound ds Dd) as Vd.
    assert (Hq : 1 <= q) by nia. assert (Pn : p <= n) by nia.
    assert (Fx : frac64 (dec_value fs) (length fs) n = dec_value fs * q).
    { rewrite Dv. unfold p. apply frac64_exact; fold p; try lia; rewrite <- ?Dv; lia. }
    assert (Ez : z = dec_value ds * n + dec_value fs * q).
    { rewrite dec_app in E. fold p in E. apply (Z.mul_reg_r _ _ p); [lia|]. rewrite E. rewrite Dv. ring. }
    split; [nia|]. replace ((ds ++ [dotc] ++ fs ++ u) ++ rest) with (ds ++ [dotc] ++ fs ++ u ++ rest) by (rewrite <- !app_assoc; reflexivity).
    rewrite (dur_point frac64 fuel ds fs u n rest d Dd Df Ne U Hr Hd).
    + cbv zeta. rewrite Fx. replace (if 0 <? dec_value fs then dec_value fs * q else 0) with (dec_value fs * q) by (destruct (Z.ltb_spec 0 (dec_value fs)); nia).
      rewrite <- Ez. reflexivity.
    + unfold maxInt64, two63. lia.
    + right. rewrite Fx. nia.
Qed.

Lemma dur_sum s z : dur_parts s z -> 0 <= z /\ forall fuel d, (length s <= fuel)%nat -> 0 <= d <= maxInt64 ->
  durLoop frac64 fuel s d = if d + z <=? maxInt64 then Some (d + z) else None.
Proof.
  induction 1 as [s z P|s z s' z' P Q [Z0 IH]].
  - split; [apply (dur_step 0 s z [] 0 P); [exact I|unfold maxInt64, two63; lia]|]. intros fuel d L Hd. destruct (part_start s z P) as (c & r & E & _).
    destruct fuel as [|fuel]; [subst s; cbn in L; lia|]. destruct (dur_step fuel s z [] d P I Hd) as [_ X]. rewrite app_nil_r in X. rewrite X.
    destruct (_ <=? _); [|reflexivity]. destruct fuel; reflexivity.
  - destruct (parts_start' s' z' Q) as (c' & r' & E' & H'). assert (Hr : next_ok s') by (subst s'; exact H').
    assert (Zp : 0 <= z) by (apply (dur_step 0 s z s' 0 P Hr); unfold maxInt64, two63; lia).
    split; [lia|]. intros fuel d L Hd. destruct (part_start s z P) as (c & r & E & _).
    destruct fuel as [|fuel]; [subst s; cbn in L; lia|]. destruct (dur_step fuel s z s' d P Hr Hd) as [_ X]. rewrite X.
    destruct (Z.leb_spec (d + z) maxInt64) as [L1|L1].
    + rewrite IH; [|subst s; rewrite app_length in L; cbn [length] in L; lia|lia]. rewrite Z.add_assoc. reflexivity.
    + replace (d + (z + z') <=? maxInt64) with false by lia. reflexivity.
Qed.

Lemma duration_point s z v : point_text s z -> (ParseDuration frac64 s = Some v <-> v = z /\ Z.abs z <= maxInt64).
Proof.
  assert (G : forall s z neg, dur_parts s z ->
    (match s with [] => None | _ => match durLoop frac64 (length s) s 0 with None => None | Some d => Some (if neg : bool then - d else d) end end
     = if z <=? maxInt64 then Some (if neg then - z else z) else None) /\ 0 <= z /\ beqs s (lit "0") = false).
  { intros s0 z0 neg P. destruct (dur_sum s0 z0 P) as [Z0 X]. destruct (parts_start' s0 z0 P) as (c & r & E & _).
    split; [rewrite E at 1; rewrite X by (unfold maxInt64, two63; lia); rewrite Z.add_0_l; destruct (z0 <=? maxInt64); reflexivity|]. split; [exact Z0|].
    destruct (beqs s0 (lit "0")) eqn:B; [|reflexivity]. apply beqs_eq in B. exfalso. clear - P B. 
    assert (K : forall s z, dur_parts s z -> exists c, In c s /\ ~ is_digit c).
    { clear. assert (K1 : forall s z, dur_part s z -> exists c, In c s /\ ~ is_digit c).
      { intros s z P. destruct P as [ds u n D U|ds fs u n z Dd Df Ne U Dv E].
        - destruct (unit_shape u n U) as (_ & Nu & Fu). destruct u as [|c u]; [congruence|]. inversion Fu as [|? ? [X _] _]; subst. exists c. split; [apply in_app_iff; right; left; reflexivity|exact X].
        - exists dotc. split; [apply in_app_iff; right; left; reflexivity|]. unfold is_digit; vm_compute; intros [? ?]; congruence. }
      intros s z P. inversion P as [s0 z0 Q|s0 z0 s1 z1 Q R]; subst; destruct (K1 _ _ Q) as (c & I & N); exists c; (split; [|exact N]); auto. apply in_app_iff. left. exact I. }
    destruct (K s0 z0 P) as (c & I & N). rewrite B in I. destruct I as [<-|[]]. apply N. unfold is_digit. vm_compute. split; discriminate. }
  intros P. unfold ParseDuration. inversion P as [s0 z0 Q|s0 z0 Q|s0 z0 Q]; subst; destruct (G _ _ false Q) as (E & Z0 & B); destruct (G _ _ true Q) as (E' & _ & _).
  - assert (Sg : splitSign s = (false, s)).
    { destruct (parts_start' _ _ Q) as (c & r & -> & X). unfold splitSign.
      replace (Ascii.eqb c "-"%char) with false by (symmetry; apply Ascii.eqb_neq; intros ->; destruct X as [X|X]; [unfold is_digit in X; vm_compute in X; destruct X; congruence|discriminate]).
      replace (Ascii.eqb c "+"%char) with false by (symmetry; apply Ascii.eqb_neq; intros ->; destruct X as [X|X]; [unfold is_digit in X; vm_compute in X; destruct X; congruence|discriminate]). reflexivity. }
    rewrite Sg, B, E. destruct (Z.leb_spec z maxInt64); split; try discriminate; try lia; intros X; [injection X as <-; lia|]. destruct X as [-> _]. reflexivity.
  - cbn [splitSign]. change (Ascii.eqb "+" "-") with false. change (Ascii.eqb "+" "+") with true. cbv iota. rewrite B, E.
    destruct (Z.leb_spec z maxInt64); split; try discriminate; try lia; intros X; [injection X as <-; lia|]. destruct X as [-> _]. reflexivity.
  - cbn [splitSign]. change (Ascii.eqb "-" "-") with true. cbv iota. rewrite B, E'.
    destruct (Z.leb_spec z0 maxInt64); split; try discriminate; try lia; intros X; [injection X as <-; lia|]. destruct X as [-> _]. reflexivity.
Qed.
