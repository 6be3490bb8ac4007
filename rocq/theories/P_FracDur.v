(** Property theorem C94, durations with a decimal point. *)
From Flocq Require Import BinarySingleNaN.
From Verif Require Import Base NumSpec Units Floats FracDur.
Local Open Scope Z_scope.

(** A duration whose parts have decimals, no finer than a nanosecond (up to 9 for seconds, 10 for minutes, 11 for hours, 6 for
    milliseconds, 3 for microseconds), is accepted exactly when it fits the type, and is then exactly that many nanoseconds:
    the float64 arithmetic of time.ParseDuration loses nothing. *)
Theorem C94_point : forall s z v, point_text s z -> (ParseDuration frac64 s = Some v <-> v = z /\ Z.abs z <= maxInt64).
Proof. exact duration_point. Qed.
Print Assumptions C94_point.

(** Decimals say the same in every unit: 1.5h is 90m. *)
Theorem C94_point_agree : forall s s' z, point_text s z -> point_text s' z -> ParseDuration frac64 s = ParseDuration frac64 s'.
Proof.
  intros s s' z P P'. destruct (ParseDuration frac64 s) as [v|] eqn:E.
  - apply (duration_point s z v P) in E. symmetry. apply (duration_point s' z v P'). exact E.
  - destruct (ParseDuration frac64 s') as [v'|] eqn:E'; [|reflexivity]. apply (duration_point s' z v' P') in E'.
    apply (duration_point s z v' P) in E'. congruence.
Qed.
Print Assumptions C94_point_agree.

Example C94_case_point : point_text (lit "1.5h") (5400 * 10 ^ 9) /\ point_text (lit "-1h.25m0.000000001s") (- (3615 * 10 ^ 9 + 1)) /\ point_text (lit "2.s") (2 * 10 ^ 9).
Proof.
  assert (D : forall s, forallb (fun c => (48 <=? bval c)%N && (bval c <=? 57)%N) s = true -> Forall is_digit s).
  { intros s H. rewrite forallb_forall in H. apply Forall_forall. intros c I. specialize (H c I). apply andb_true_iff in H. destruct H as [H1 H2].
    apply N.leb_le in H1, H2. split; lia. }
  split; [|split].
  - apply pt_plain, dps_one, (dp_point (lit "1") (lit "5") (lit "h") (3600 * 10 ^ 9)); try (apply D; reflexivity); [discriminate|constructor|exists (360 * 10 ^ 9); reflexivity|vm_compute; reflexivity].
  - apply pt_minus. change (3615 * 10 ^ 9 + 1) with (dec_value (lit "1") * (3600 * 10 ^ 9) + (15 * 10 ^ 9 + 1)).
    apply (dps_more (lit "1h")); [apply (dp_whole (lit "1") (lit "h")); [split; [discriminate|apply D; reflexivity]|constructor]|].
    apply (dps_more (lit ".25m")); [apply (dp_point [] (lit "25") (lit "m") (60 * 10 ^ 9)); try (apply D; reflexivity); [discriminate|constructor|exists (6 * 10 ^ 8); reflexivity|vm_compute; reflexivity]|].
    apply dps_one, (dp_point (lit "0") (lit "000000001") (lit "s") (10 ^ 9)); try (apply D; reflexivity); [discriminate|constructor|exists 1; reflexivity|vm_compute; reflexivity].
  - apply pt_plain, dps_one, (dp_point (lit "2") [] (lit "s") (10 ^ 9)); try (apply D; reflexivity); [discriminate|constructor|exists (10 ^ 9); reflexivity|vm_compute; reflexivity].
Qed.
(** The arithmetic, computed. *)
Example C94_case_computed : map (fun s => ParseDuration frac64 (lit s)) ["1.5h"; "0.1s"; "0.000000001s"; "1.000000000s"; ".s"; "0.7ms"]%string
  = [Some (5400 * 10 ^ 9); Some (10 ^ 8); Some 1; Some (10 ^ 9); None; Some 700000].
Proof. vm_compute. reflexivity. Qed.
