(** Model of influx/timestamps.go and listener.applyTimestampPrecision. *)
From Verif Require Import Base Convert.
Local Open Scope Z_scope.

(** influx/timestamps.go:39 and :50. *)
Definition minNanoTime : Z := minInt64 + 2.
Definition maxNanoTime : Z := maxInt64 - 1.

(** influx/timestamps.go:55: len("9223372036854775806"). *)
Definition MaxTsLen : nat := length (FormatInt maxNanoTime).

(** line[i] == c, false beyond the end. *)
Definition byte_at (line : bytes) (i : nat) (c : ascii) : bool :=
  match nth_error line i with Some x => Ascii.eqb x c | None => false end.

(** influx/timestamps.go:70-73 and :105-108: remove one trailing newline. *)
Definition strip_nl (line : bytes) : bytes :=
  if byte_at line (length line - 1) nl then firstn (length line - 1) line else line.

(** influx/timestamps.go:79-80: for i := length-1; i >= to; i--.  [cnt] is the number
    of iterations left; the index examined is to+cnt-1. *)
Fixpoint scan_down (line : bytes) (to cnt : nat) : option nat :=
  match cnt with
  | O => None
  | S c => if byte_at line (to + c) sp then Some (to + c)%nat else scan_down line to c
  end.

(** influx/timestamps.go:115-116: for i := from; i < length; i++. *)
Fixpoint scan_up (line : bytes) (i cnt : nat) : option nat :=
  match cnt with
  | O => None
  | S c => if byte_at line i sp then Some i else scan_up line (S i) c
  end.

(** influx/timestamps.go:81-85 and :117-121. *)
Definition ts_at (line : bytes) (o : option nat) : Z * Z :=
  match o with
  | None => (-1, -1)
  | Some i =>
      match ToInt (skipn (i + 1) line) with
      | None => (-1, -1)
      | Some out => (out, Z.of_nat (i + 1))
      end
  end.

(** influx/timestamps.go:63-90 ExtractTimestamp. *)
Definition ExtractTimestamp (line0 : bytes) : Z * Z :=
  if Nat.ltb (length line0) 6 then (-1, -1)
  else
    let line := strip_nl line0 in
    let to := (length line - MaxTsLen - 1)%nat in   (* nat subtraction = max(0, _) *)
    ts_at line (scan_down line to (length line - to)).

(** influx/timestamps.go:97-125 ExtractNanos. *)
Definition ExtractNanos (line0 : bytes) : Z * Z :=
  if Nat.ltb (length line0) 6 then (-1, -1)
  else
    let line := strip_nl line0 in
    let from := (length line - MaxTsLen - 1)%nat in
    ts_at line (scan_up line from (length line - from)).

(** influx/timestamps.go:141-156. *)
Definition getPrecisionMultiplier (precision : bytes) : Z :=
  if beqs precision (lit "u") then 1000
  else if beqs precision (lit "ms") then 1000000
  else if beqs precision (lit "s") then 1000000000
  else if beqs precision (lit "m") then 60000000000
  else if beqs precision (lit "h") then 3600000000000
  else 1.

(** influx/timestamps.go:159-168; Go division truncates (Z.quot). *)
Definition safeSignedMult (a b : Z) : Z * bool :=
  if (a =? 0) || (b =? 0) || (a =? 1) || (b =? 1) then (wrap64 (a * b), true)
  else if (a =? minNanoTime) || (b =? maxNanoTime) then (0, false)
  else let c := wrap64 (a * b) in (c, Z.quot c b =? a).

(** influx/timestamps.go:129-138; [None] is ErrTimeOutOfRange. *)
Definition SafeCalcTime (timestamp : Z) (precision : bytes) : option Z :=
  let mult := getPrecisionMultiplier precision in
  let (t, ok) := safeSignedMult timestamp mult in
  if ok then
    if (t <? minNanoTime) || (maxNanoTime <? t) then None else Some t
  else None.

(** listener/listener.go:331-346. *)
Definition applyTimestampPrecision (line : bytes) (precision : bytes) : bytes :=
  let (ts, offset) := ExtractTimestamp line in
  if offset =? -1 then line
  else
    match SafeCalcTime ts precision with
    | None => line
    | Some newTs => firstn (Z.to_nat offset) line ++ FormatInt newTs ++ [nl]
    end.
