(** Specification of decimal integer texts and of timestamps at the end of a line. *)
From Verif Require Import Base.
Local Open Scope Z_scope.

Definition is_digit (c : ascii) : Prop := (48 <= bval c <= 57)%N.

(** A non-empty string of decimal digits. *)
Definition digits (ds : bytes) : Prop := ds <> [] /\ Forall is_digit ds.

(** Mathematical value of a digit string (most significant digit first). *)
Definition dec_value (ds : bytes) : Z :=
  fold_left (fun n c => n * 10 + (Z.of_N (bval c) - 48)) ds 0.

(** [s] is an optionally negative decimal integer text of value [z]. *)
Inductive int_text : bytes -> Z -> Prop :=
| it_pos ds : digits ds -> int_text ds (dec_value ds)
| it_neg ds : digits ds -> int_text ("-"%char :: ds) (- dec_value ds).

(** The canonical decimal text of [z]: no superfluous zeros, no "-0". *)
Definition dec_text (z : Z) (s : bytes) : Prop :=
  int_text s z /\
  (z = 0 -> s = ["0"%char]) /\
  (forall r, s <> "0"%char :: r \/ z = 0) /\
  (forall r, s <> "-"%char :: "0"%char :: r).

(** [line] with one trailing newline (if any) removed is [body]. *)
Definition chomp (line body : bytes) : Prop :=
  line = body ++ [nl] \/ (line = body /\ ~ exists p, line = p ++ [nl]).

(** [line] carries timestamp [ts], written as [txt], after the prefix [pre] and a space. *)
Definition line_ts_split (line pre txt : bytes) (ts : Z) : Prop :=
  chomp line (pre ++ [sp] ++ txt) /\ ~ In sp txt /\ (length txt <= 19)%nat /\
  int_text txt ts /\ int64 ts.

(** [line] carries timestamp [ts] starting at index [off]. *)
Definition line_ts (line : bytes) (ts off : Z) : Prop :=
  exists pre txt, line_ts_split line pre txt ts /\ off = Z.of_nat (length pre) + 1.

(** Nanoseconds per unit of the HTTP precision parameter. *)
Inductive precision_ns : bytes -> Z -> Prop :=
| pr_u : precision_ns (lit "u") (10 ^ 3)
| pr_ms : precision_ns (lit "ms") (10 ^ 6)
| pr_s : precision_ns (lit "s") (10 ^ 9)
| pr_m : precision_ns (lit "m") (60 * 10 ^ 9)
| pr_h : precision_ns (lit "h") (3600 * 10 ^ 9)
| pr_other p : ~ In p (map lit ["u"; "ms"; "s"; "m"; "h"]%string) -> precision_ns p 1.
