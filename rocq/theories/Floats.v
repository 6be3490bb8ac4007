(** float64 arithmetic of the downsampler: IEEE 754 binary64, round to nearest even, as the Go specification requires
    (there is no multiplication in the expression, so no fused operation either). *)
From Coq Require Import Reals.
From Flocq Require Import Core BinarySingleNaN.
From Verif Require Import Base Avg AvgSpec.
Local Open Scope Z_scope.

Definition f64 := binary_float 53 1024.
Lemma prec53 : Prec_gt_0 53.
Proof. reflexivity. Qed.
Lemma emax1024 : Prec_lt_emax 53 1024.
Proof. reflexivity. Qed.

(** Go: x + y, x - y, x / y, float64(n) (downsampler/avgbucket.go:227-237). *)
Definition f64_add : f64 -> f64 -> f64 := @Bplus 53 1024 prec53 emax1024 mode_NE.
Definition f64_sub : f64 -> f64 -> f64 := @Bminus 53 1024 prec53 emax1024 mode_NE.
Definition f64_div : f64 -> f64 -> f64 := @Bdiv 53 1024 prec53 emax1024 mode_NE.
Definition f64_of (n : Z) : f64 := binary_normalize 53 1024 prec53 emax1024 mode_NE n 0 false.

(** Parsing and formatting (strconv) remain parameters. *)
Definition fo64 (parse : bytes -> option f64) (format : f64 -> bytes) : floatOps :=
  mkFloatOps f64 f64_add f64_sub f64_div f64_of parse format.

(** The finite value [x] lies between the finite values [lo] and [hi]. *)
Definition within (lo hi x : f64) : Prop := is_finite x = true /\ (B2R lo <= B2R x <= B2R hi)%R.

(** Sums of reals. *)
Definition rsum (l : list R) : R := fold_right Rplus 0%R l.

(** The float64 numbers among the values received for a field (strconv.ParseFloat accepts them). *)
Definition numbers (parse : bytes -> option f64) (vs : list fval) : list f64 := somes (map (fun v => parse (vraw v)) vs).

(** The arithmetic mean of float64 numbers, as a real number. *)
Definition mean (xs : list f64) : R := (rsum (map B2R xs) / IZR (Z.of_nat (length xs)))%R.
