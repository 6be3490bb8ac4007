(** Model of batch/batch.go. *)
From Verif Require Import Base Timestamps.
Local Open Scope Z_scope.

(** batch/batch.go:23 maxReadSize (64 KB). *)
Definition maxReadSize : Z := 65536.

(** batch/batch.go:46-50.  [b_cap] is cap(b.buf); times are nanoseconds. *)
Record batch := mkBatch { b_buf : bytes; b_cap : Z; b_writes : Z; b_created : Z }.

(** batch/batch.go:27-32 New, at clock reading [now]. *)
Definition New (capacity now : Z) : batch := mkBatch [] capacity 0 now.

(** batch/batch.go:53-55 Size. *)
Definition Size (b : batch) : Z := Z.of_nat (length (b_buf b)).
(** batch/batch.go:58-60 Remaining. *)
Definition Remaining (b : batch) : Z := b_cap b - Size b.
(** batch/batch.go:64-66 Bytes and 72-76 CopyBytes (the copy is a value copy). *)
Definition Bytes (b : batch) : bytes := b_buf b.
(** batch/batch.go:80-82 Writes. *)
Definition Writes (b : batch) : Z := b_writes b.
(** batch/batch.go:85-90 Age at clock reading [now]. *)
Definition Age (b : batch) (now : Z) : Z := if b_writes b <=? 0 then 0 else now - b_created b.

(** batch/batch.go:93-97 Reset. *)
Definition Reset (b : batch) (now : Z) : batch := mkBatch [] (b_cap b) 0 now.

(** batch/batch.go:184-190 countWrite. *)
Definition countWrite (b : batch) (now : Z) : batch :=
  mkBatch (b_buf b) (b_cap b) (b_writes b + 1)
          (if b_writes b =? 0 then now else b_created b).

(** batch/batch.go:153-162 grow: a new zeroed buffer of newSize bytes, old contents copied
    and re-sliced to the old length. *)
Definition grow (b : batch) : batch :=
  let newSize := b_cap b * 2 in
  let newSize := if newSize <? maxReadSize then b_cap b + maxReadSize else newSize in
  mkBatch (firstn (Z.to_nat newSize) (b_buf b)) newSize (b_writes b) (b_created b).

(** batch/batch.go:143-147 growIfLow. *)
Definition growIfLow (b : batch) : batch := if Remaining b <? maxReadSize then grow b else b.

(** batch/batch.go:175-177: for b.Remaining() < lenMore { b.grow() }.  The fuel bounds the
    number of grows; [grow_while_room] shows it suffices. *)
Fixpoint grow_while (fuel : nat) (b : batch) (lenMore : Z) : batch :=
  match fuel with
  | O => b
  | S f => if Remaining b <? lenMore then grow_while f (grow b) lenMore else b
  end.

(** batch/batch.go:173-182 appendImpl; the copy is bounded by the room, as Go's
    re-slicing is by the capacity. *)
Definition appendImpl (b : batch) (more : bytes) : batch :=
  let b := grow_while (S (length more)) b (Z.of_nat (length more)) in
  mkBatch (b_buf b ++ firstn (Z.to_nat (Remaining b)) more) (b_cap b) (b_writes b) (b_created b).

(** batch/batch.go:100-103 Append. *)
Definition Append (b : batch) (more : bytes) (now : Z) : batch := appendImpl (countWrite b now) more.

(** batch/batch.go:166-171 EnsureNewline. *)
Definition EnsureNewline (b : batch) : batch :=
  let n := length (b_buf b) in
  if (Nat.ltb 0 n && negb (byte_at (b_buf b) (n - 1) nl))%bool then appendImpl b [nl] else b.

(** Errors an io.Reader can return. *)
Inductive rerr := ENone | EEOF | ETimeout | EOther.

(** b.buf = b.buf[:len(b.buf)+n] after the reader stored [d] (batch/batch.go:113, 134). *)
Definition extend (b : batch) (d : bytes) : batch :=
  mkBatch (b_buf b ++ d) (b_cap b) (b_writes b) (b_created b).

(** batch/batch.go:130-141 ReadOnceFrom on a datagram socket holding datagram [d]: the
    kernel stores at most the offered room and drops the rest of the datagram.
    Returns the new batch, the bytes stored and the error. *)
Definition ReadOnceFrom (b : batch) (d : bytes) (err : rerr) (now : Z) : batch * bytes * rerr :=
  let b := growIfLow b in
  let got := firstn (Z.to_nat (Remaining b)) d in
  let b := match got with [] => b | _ => countWrite (extend b got) now end in
  (b, got, match err with EEOF => ENone | e => e end).

(** batch/batch.go:107-127 ReadFrom on a stream.  [body] is what the stream still holds;
    [sched] gives for each Read call how many bytes it is willing to return and its error
    (an io.Reader may return fewer bytes than fit, and data together with an error; it
    reports io.EOF only when the stream is exhausted, an earlier EOF entry is read as "no
    error").
    [None]: the schedule ended without an error, i.e. Go would still be blocked in Read.
    Otherwise the batch, the bytes added, the rest of the stream, and the error. *)
Fixpoint ReadFrom_loop (b : batch) (body : bytes) (sched : list (nat * rerr)) (total : bytes) (now : Z)
  : option (batch * bytes * bytes * rerr) :=
  match sched with
  | [] => None
  | (k, err) :: sched' =>
      let b := growIfLow b in
      let n := Nat.min k (Z.to_nat (Remaining b)) in
      let got := firstn n body in
      let b := extend b got in
      let body := skipn n body in
      let total := total ++ got in
      match (match err, body with EEOF, _ :: _ => ENone | _, _ => err end) with
      | ENone => ReadFrom_loop b body sched' total now
      | _ =>
          let b := match total with [] => b | _ => countWrite b now end in
          Some (b, total, body, match err with EEOF => ENone | e => e end)
      end
  end.
Definition ReadFrom (b : batch) (body : bytes) (sched : list (nat * rerr)) (now : Z) :=
  ReadFrom_loop b body sched [] now.
