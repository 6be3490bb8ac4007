(** bufio.Scanner with scanLines, Read call by Read call: the loop of readHTTPBodyWithPrecision
    (listener/listener.go:286-311).  bufio is the Go standard library, modelled from its source. *)
From Verif Require Import Base LinesSpec Batch Prom PromParse Timestamps Splitter Listener.
Local Open Scope Z_scope.

(** listener/listener.go:313-329 scanLines: how far to advance, and the token if there is one. *)
Definition scanLines (data : bytes) (atEOF : bool) : nat * option bytes :=
  if (atEOF && Nat.eqb (length data) 0)%bool then (0%nat, None)
  else match index_of (Ascii.eqb nl) data with
       | Some i => (S i, Some (firstn (S i) data))
       | None => if atEOF then (length data, Some data) else (0%nat, None)
       end.

(** The error a scanner holds: the end of the stream, an error of the reader, ErrTooLong,
    io.ErrNoProgress. *)
Inductive serr := SEOF | SRead | STooLong | SNoProgress.

(** bufio.Scanner: len(buf), start, the bytes buf[start:end], err; the reader behind it (bytes it still
    holds, and how the next Read calls behave, as in [ReadFrom_loop]); the number of empty reads in a row;
    and the tokens returned so far.  [sc_done]: Scan has returned false. *)
Record scanner := mkSc {
  sc_cap : Z; sc_start : Z; sc_data : bytes; sc_err : option serr;
  sc_body : bytes; sc_sched : list (nat * rerr); sc_empty : nat;
  sc_toks : list bytes; sc_done : bool }.

(** bufio.NewScanner(r.Body); scanner.Split(scanLines) (listener/listener.go:287-293). *)
Definition newScanner (body : bytes) (sched : list (nat * rerr)) : scanner :=
  mkSc 0 0 [] None body sched 0 [] false.

Definition sc_end (s : scanner) : Z := sc_start s + Z.of_nat (length (sc_data s)).

(** bufio (Scan): constants MaxScanTokenSize, startBufSize and maxConsecutiveEmptyReads. *)
Definition maxTokenSize : Z := 65536.
Definition startBufSize : Z := 4096.
Definition maxEmptyReads : nat := 100%nat.

(** bufio (Scan): before reading, the data is moved to the front of the buffer if there is much empty space
    before it or space is needed, and a full buffer is doubled; [None]: ErrTooLong. *)
Definition sc_prepare (s : scanner) : option scanner :=
  let start := if ((0 <? sc_start s) && ((sc_end s =? sc_cap s) || (sc_cap s / 2 <? sc_start s)))%bool then 0 else sc_start s in
  let s := mkSc (sc_cap s) start (sc_data s) (sc_err s) (sc_body s) (sc_sched s) (sc_empty s) (sc_toks s) (sc_done s) in
  if sc_end s =? sc_cap s then
    if maxTokenSize <=? sc_cap s then None
    else
      let size := if sc_cap s * 2 =? 0 then startBufSize else sc_cap s * 2 in
      let size := if maxTokenSize <? size then maxTokenSize else size in
      Some (mkSc size 0 (sc_data s) (sc_err s) (sc_body s) (sc_sched s) (sc_empty s) (sc_toks s) (sc_done s))
  else Some s.

(** bufio (Scan): one call of Read.  [None]: the reader blocks. *)
Definition sc_read (s : scanner) : option scanner :=
  match sc_sched s with
  | [] => None
  | (k, err) :: sched =>
      let n := Nat.min k (Z.to_nat (sc_cap s - sc_end s)) in
      let got := firstn n (sc_body s) in
      let body := skipn n (sc_body s) in
      let err := match err, body with EEOF, _ :: _ => ENone | _, _ => err end in
      let '(e, empty) :=
        match err with
        | EEOF => (Some SEOF, 0%nat)
        | ENone =>
            match got with
            | [] => if Nat.ltb maxEmptyReads (S (sc_empty s)) then (Some SNoProgress, 0%nat) else (None, S (sc_empty s))
            | _ => (None, 0%nat)
            end
        | _ => (Some SRead, 0%nat)
        end in
      Some (mkSc (sc_cap s) (sc_start s) (sc_data s ++ got) e body sched empty (sc_toks s) (sc_done s))
  end.

(** bufio (Scan) together with the loop calling it (listener/listener.go:296-309): one pass of the loop in
    Scan.  [None]: Scan has returned false, or the scanner waits for the reader.  After an empty read
    ([sc_empty] > 0) the inner loop reads again at once.  The guards of the real code that never apply to
    scanLines are left out: a token that does not advance, and an advance beyond the data. *)
Definition sc_step (s : scanner) : option scanner :=
  if sc_done s then None
  else if Nat.ltb 0 (sc_empty s) then sc_read s
  else
    let atEOF := match sc_err s with Some _ => true | None => false end in
    let try := match sc_data s, sc_err s with [], None => (0%nat, None) | d, _ => scanLines d atEOF end in
    match try with
    | (adv, Some tok) =>
        Some (mkSc (sc_cap s) (sc_start s + Z.of_nat adv) (skipn adv (sc_data s)) (sc_err s) (sc_body s) (sc_sched s)
                   (sc_empty s) (sc_toks s ++ [tok]) (sc_done s))
    | (_, None) =>
        if atEOF then Some (mkSc (sc_cap s) 0 [] (sc_err s) (sc_body s) (sc_sched s) (sc_empty s) (sc_toks s) true)
        else match sc_prepare s with
             | None => Some (mkSc (sc_cap s) (sc_start s) (sc_data s) (Some STooLong) (sc_body s) (sc_sched s) (sc_empty s) (sc_toks s) true)
             | Some s => sc_read s
             end
    end.

(** Any number of passes, until none is possible. *)
Inductive sc_run : scanner -> scanner -> Prop :=
| sr_refl s : sc_run s s
| sr_step s s1 s2 : sc_step s = Some s1 -> sc_run s1 s2 -> sc_run s s2.

(** scanner.Err() != nil (listener/listener.go:310). *)
Definition sc_failed (s : scanner) : bool := match sc_err s with None | Some SEOF => false | _ => true end.

(** What the reader has handed out. *)
Definition delivered (body : bytes) (s : scanner) : bytes := firstn (length body - length (sc_body s)) body.
