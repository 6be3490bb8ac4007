(** Property theorems C66: averages of float fields, in IEEE 754 double precision. *)
From Coq Require Import Reals Lra.
From Flocq Require Import Core BinarySingleNaN.
From Verif Require Import Base TextSpec NumSpec Avg AvgSpec AvgProofs Floats FloatProofs.
Local Open Scope R_scope.

(** C66: for every reader and printer of float64 texts, every list of points and every float field:
    when the numbers received lie between [lo] and [hi], with hi - lo not overflowing, what is
    printed is a number between [lo] and [hi], and it differs from the exact mean of the n numbers
    by at most (n+1)/2 * (4 * 2^-53 * M + 2^-1075), M a bound of the numbers' magnitude. *)
Theorem C66_average : forall parse format pts k n t vs (lo hi : f64) (M : R),
  Forall (good_point (fo64 parse format)) pts -> values k n pts = FNum t :: vs ->
  let xs := numbers parse (FNum t :: vs) in
  is_finite lo = true -> is_finite hi = true -> is_finite (f64_sub hi lo) = true ->
  Forall (within lo hi) xs -> - M <= B2R lo -> B2R hi <= M -> (Z.of_nat (length xs) < 2 ^ 53)%Z ->
  exists v y, field_in (fo64 parse format) (bucket_of (fo64 parse format) pts) k n = Some v /\
    valueBytes (fo64 parse format) v = format y /\ within lo hi y /\
    Rabs (B2R y - mean xs) <= (IZR (Z.of_nat (length xs)) + 1) / 2 * (4 * bpow radix2 (-53) * M + bpow radix2 (-1075)).
Proof. exact float_average. Qed.
Print Assumptions C66_average.

(** A constant series keeps its value exactly. *)
Theorem C66_constant : forall parse format pts k n t vs (x : f64),
  Forall (good_point (fo64 parse format)) pts -> values k n pts = FNum t :: vs ->
  is_finite x = true -> Forall (fun y : f64 => is_finite y = true /\ B2R y = B2R x) (numbers parse (FNum t :: vs)) ->
  (Z.of_nat (length (numbers parse (FNum t :: vs))) <= maxInt64)%Z ->
  exists v y, field_in (fo64 parse format) (bucket_of (fo64 parse format) pts) k n = Some v /\
    valueBytes (fo64 parse format) v = format y /\ is_finite y = true /\ B2R y = B2R x.
Proof. exact float_constant. Qed.
Print Assumptions C66_constant.

(** One NaN or infinity among the numbers of a period makes the result NaN or infinite. *)
Theorem C66_not_finite : forall parse format pts k n t vs (x : f64),
  Forall (good_point (fo64 parse format)) pts -> values k n pts = FNum t :: vs ->
  In x (numbers parse (FNum t :: vs)) -> is_finite x = false ->
  (Z.of_nat (length (numbers parse (FNum t :: vs))) <= maxInt64)%Z ->
  exists v y, field_in (fo64 parse format) (bucket_of (fo64 parse format) pts) k n = Some v /\
    valueBytes (fo64 parse format) v = format y /\ is_finite y = false.
Proof. exact float_poison. Qed.
Print Assumptions C66_not_finite.

Example C66_case :
  let pts := fpts ["1.5"; "8"; "2.5"]%string in
  values (lit "cpu,h=a") (lit "f") pts = FNum (lit "1.5") :: [FNum (lit "8"); FNum (lit "2.5")] /\
  Forall (good_point (fo64 parse0 (fun _ => []))) pts /\
  is_finite (f64_sub (f64_lit 8 0) (f64_lit 3 (-1))) = true /\
  B2SF (float_running (fo64 parse0 (fun _ => [])) (f64_lit 3 (-1)) 1 [Some (f64_lit 8 0); Some (f64_lit 5 (-1))]) = B2SF (f64_lit 4 0).
Proof. split; [reflexivity|]. split; [apply ex_fpts_good|]. split; vm_compute; reflexivity. Qed.
Example C66_case_within :
  Forall (within (f64_lit 3 (-1)) (f64_lit 8 0)) (numbers parse0 [FNum (lit "1.5"); FNum (lit "8"); FNum (lit "2.5")]).
Proof. repeat constructor; cbn; unfold F2R; cbn; lra. Qed.

(** The bound on the spread is needed: the mean of -2^1023 and 2^1023 becomes infinite. *)
Theorem C66_overflow : forall parse format,
  let x := f64_lit (-1) 1023 in let y := f64_lit 1 1023 in
  is_finite x = true /\ is_finite y = true /\ mean [x; y] = 0 /\
  is_finite (float_running (fo64 parse format) x 1 [Some y]) = false.
Proof.
  intros parse format x y. split; [vm_compute; reflexivity|]. split; [vm_compute; reflexivity|].
  split; [|vm_compute; reflexivity]. unfold mean. cbn [map rsum fold_right].
  replace (B2R x) with (- B2R y).
  - unfold Rdiv. replace (- B2R y + (B2R y + 0)) with 0 by lra. apply Rmult_0_l.
  - rewrite <- B2R_Bopp. f_equal. apply B2SF_inj. vm_compute. reflexivity.
Qed.
Print Assumptions C66_overflow.
