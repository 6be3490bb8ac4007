(** Model of downsampler/assigner.go and of the worker loop of downsampler/downsampler.go, for
    any implementation of the bucket interface. *)
From Verif Require Import Base Timestamps Splitter.
Local Open Scope Z_scope.

(** Times are nanoseconds since the Unix epoch.  Go's Truncate works on the time since
    January 1 of year 1 UTC, this many nanoseconds earlier. *)
Definition goEpoch : Z := 62135596800 * 1000000000.

(** time.Time.Truncate. *)
Definition Truncate (t d : Z) : Z := if d <=? 0 then t else t - (t + goEpoch) mod d.

(** downsampler/assigner.go:144-150. *)
Definition prevT (period t : Z) : Z := Truncate (t - period) period.
Definition nextT (period t : Z) : Z := Truncate (t + period) period.

(** bytes.Split(lines, "\n"). *)
Fixpoint Split (b : bytes) : list bytes :=
  match b with
  | [] => [[]]
  | c :: r =>
      if Ascii.eqb c nl then [] :: Split r
      else match Split r with
           | [] => [[c]]
           | l :: ls => (c :: l) :: ls
           end
  end.

Section Assigner.
  (** downsampler/assigner.go:27-33: what a bucket holds besides its end time, with its
      operations; [E] is the type of errors. *)
  Variables (B E : Type).
  Variable newBucket : Z -> B.
  Variable addLine : B -> bytes -> B * list E.

  (** An error of Update, with the original line (assigner.go:196-216). *)
  Inductive uerr := UTooOld (line : bytes) | UTooNew (line : bytes) | ULine (e : E) (line : bytes).

  (** downsampler/assigner.go:82-88; each bucket with its end time. *)
  Record assigner := mkAsg {
    a_period : Z; a_prev : Z * B; a_curr : Z * B; a_next : Z * B; a_tmin : Z }.

  (** downsampler/assigner.go:41-55 at clock reading [now]. *)
  Definition newAssigner (period now : Z) : assigner :=
    let tc := nextT period now in
    let tp := prevT period tc in
    let tn := nextT period tc in
    mkAsg period (tp, newBucket tp) (tc, newBucket tc) (tn, newBucket tn) (tp - period).

  (** downsampler/assigner.go:167-173 extractTimestamp. *)
  Definition assignTimestamp (line : bytes) (now : Z) : Z * bytes :=
    let (nanos, offset) := ExtractTimestamp line in
    if offset <? 0 then (now, line) else (nanos, firstn (Z.to_nat (offset - 1)) line).

  (** downsampler/assigner.go:102-112 with findBucket (152-162): one line. *)
  Definition update_line (a : assigner) (origLine : bytes) (now : Z) : assigner * list uerr :=
    let (ts, line) := assignTimestamp origLine now in
    let add eb := let (b, errs) := addLine (snd eb) line in ((fst eb, b) : Z * B, map (fun e => ULine e origLine) errs) in
    if ts <? a_tmin a then (a, [UTooOld origLine])
    else if ts <? fst (a_prev a) then
      let (eb, errs) := add (a_prev a) in (mkAsg (a_period a) eb (a_curr a) (a_next a) (a_tmin a), errs)
    else if ts <? fst (a_curr a) then
      let (eb, errs) := add (a_curr a) in (mkAsg (a_period a) (a_prev a) eb (a_next a) (a_tmin a), errs)
    else if ts <? fst (a_next a) then
      let (eb, errs) := add (a_next a) in (mkAsg (a_period a) (a_prev a) (a_curr a) eb (a_tmin a), errs)
    else (a, [UTooNew origLine]).

  (** downsampler/assigner.go:95-114 Update; [clk k] is what clock.Now() returns for the k-th
      line if it is asked. *)
  Fixpoint update_lines (a : assigner) (ls : list bytes) (clk : nat -> Z) : assigner * list uerr :=
    match ls with
    | [] => (a, [])
    | line :: ls' =>
        match line with
        | [] => update_lines a ls' clk
        | _ =>
            let (a1, e1) := update_line a line (clk O) in
            let (a2, e2) := update_lines a1 ls' (fun k => clk (S k)) in
            (a2, e1 ++ e2)
        end
    end.
  Definition Update (a : assigner) (lines : bytes) (clk : nat -> Z) : assigner * list uerr :=
    update_lines a (Split lines) clk.

  (** downsampler/assigner.go:121-132 Bytes: None before the end of the current period,
      otherwise the emitted bucket. *)
  Definition emit (a : assigner) (now : Z) : assigner * option (Z * B) :=
    if now <? fst (a_curr a) then (a, None)
    else
      let tn := nextT (a_period a) (fst (a_next a)) in
      (mkAsg (a_period a) (a_curr a) (a_next a) (tn, newBucket tn) (fst (a_curr a) - a_period a), Some (a_prev a)).

  (** downsampler/assigner.go:136-142 UntilNext. *)
  Definition UntilNext (a : assigner) (now : Z) : Z := Z.max 0 (fst (a_curr a) - now).

  (* ---------------------------------------------------------------- *)
  (** * downsampler/downsampler.go:139-180 worker *)

  (** downsampler.go:31-38: counters; and the messages given to NATS. *)
  Record dstats := mkDS { d_received : Z; d_sent : Z; d_invalid_lines : Z; d_invalid_ts : Z; d_failed : Z; d_pub : list bytes }.
  Record dstate := mkD { d_asg : assigner; d_st : dstats }.

  (** downsampler/assigner.go:188-194 isTimestampError and downsampler.go:147-156. *)
  Definition count_error (s : dstats) (e : uerr) : dstats :=
    match e with
    | ULine _ _ => mkDS (d_received s) (d_sent s) (d_invalid_lines s + 1) (d_invalid_ts s) (d_failed s) (d_pub s)
    | _ => mkDS (d_received s) (d_sent s) (d_invalid_lines s) (d_invalid_ts s + 1) (d_failed s) (d_pub s)
    end.

  (** downsampler.go:171-175: one publish; [fail k] tells whether the k-th publish fails. *)
  Definition dpublish (fail : nat -> bool) (s : dstats) (chunk : bytes) : dstats :=
    mkDS (d_received s) (d_sent s) (d_invalid_lines s) (d_invalid_ts s)
         (if fail (length (d_pub s)) then d_failed s + 1 else d_failed s) (d_pub s ++ [chunk]).

  (** config/config.go:34 MaxNATSMsgSize. *)
  Definition dsMax : nat := Z.to_nat 1048576.

  (** One turn of the loop: a message with the clock readings of its lines, or the timer; then
      the clock reading of Bytes and what the emitted bucket prints ([render]: Bytes of the
      bucket with some map iteration order). *)
  Record turn := mkTurn { t_in : option (bytes * (nat -> Z)); t_now : Z; t_render : Z * B -> bytes }.

  Definition worker_turn (fail : nat -> bool) (d : dstate) (t : turn) : dstate :=
    let (a1, st1) :=
      match t_in t with
      | None => (d_asg d, d_st d)
      | Some (data, clk) =>
          let s := d_st d in
          let s := mkDS (d_received s + 1) (d_sent s) (d_invalid_lines s) (d_invalid_ts s) (d_failed s) (d_pub s) in
          let (a1, errs) := Update (d_asg d) data clk in
          (a1, fold_left count_error errs s)
      end in
    let (a2, out) := emit a1 (t_now t) in
    let buf := match out with None => [] | Some eb => t_render t eb end in
    match buf with
    | [] => mkD a2 st1
    | _ =>
        let s := fold_left (dpublish fail) (split_all dsMax buf) st1 in
        mkD a2 (mkDS (d_received s) (d_sent s + 1) (d_invalid_lines s) (d_invalid_ts s) (d_failed s) (d_pub s))
    end.
  Definition worker_run (fail : nat -> bool) (d : dstate) (ts : list turn) : dstate := fold_left (worker_turn fail) ts d.
  Definition newWorker (period now : Z) : dstate := mkD (newAssigner period now) (mkDS 0 0 0 0 0 []).
End Assigner.
