(** Model of convert/convert.go and of the decimal formatting done by
    strconv.AppendInt / strconv.Itoa (Go standard library). *)
From Verif Require Import Base.
Local Open Scope Z_scope.

(** Value of an ASCII digit; [None] for any other byte: convert/convert.go:43-47. *)
Definition digit_val (c : ascii) : option Z :=
  let v := Z.of_N (bval c) in
  if (48 <=? v) && (v <=? 57) then Some (v - 48) else None.

(** convert/convert.go:41-49: accumulation in a uint64, which wraps. *)
Fixpoint toint_loop (s : bytes) (n : Z) : option Z :=
  match s with
  | [] => Some n
  | c :: r =>
      match digit_val c with
      | None => None
      | Some d => toint_loop r (wrapu64 (wrapu64 (n * 10) + d))
      end
  end.

(** convert/convert.go:27-61 ToInt; [None] is any of its errors. *)
Definition ToInt (s : bytes) : option Z :=
  match s with
  | [] => None
  | c :: r =>
      if Ascii.eqb c "-"%char then
        match r with
        | [] => None
        | _ =>
            match toint_loop r 0 with
            | None => None
            | Some n => if two63 <? n then None else Some (wrap64 (- wrap64 n))
            end
        end
      else
        match toint_loop s 0 with
        | None => None
        | Some n => if maxInt64 <? n then None else Some (wrap64 n)
        end
  end.

(** Digit character of 0..9. *)
Definition digit_chr (d : Z) : ascii := ascii_of_N (Z.to_N (48 + d)).

(** Decimal digits of n >= 0, most significant first, by repeated division.
    Models strconv.formatBits for base 10 (Go standard library); the fuel bounds the
    number of digits, 20 suffices for every 64 bit value. *)
Fixpoint dec_digits (fuel : nat) (n : Z) (acc : bytes) : bytes :=
  match fuel with
  | O => acc
  | S f =>
      let acc' := digit_chr (n mod 10) :: acc in
      if n / 10 =? 0 then acc' else dec_digits f (n / 10) acc'
  end.

(** strconv.AppendInt(nil, z, 10) for an int64 z. *)
Definition FormatInt (z : Z) : bytes :=
  if z <? 0 then "-"%char :: dec_digits 20 (- z) [] else dec_digits 20 z [].
