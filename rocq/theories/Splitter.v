(** Model of batchsplitter/batch_splitter.go. *)
From Verif Require Import Base Timestamps.

(** batchsplitter/batch_splitter.go:58-59: for i := chunkSize; i >= 0; i-- looking for a
    newline.  (The Go code indexes s.buf[i] with i <= chunkSize < len(s.buf), so no panic
    for chunkSize >= 0.) *)
Fixpoint back_nl (buf : bytes) (i : nat) : option nat :=
  if byte_at buf i nl then Some i
  else match i with O => None | S j => back_nl buf j end.

(** batchsplitter/batch_splitter.go:46-73 Next together with 77-79 Chunk: [None] when there
    are no more chunks, otherwise the chunk and the remaining buffer.  chunkSize is a
    non-negative int. *)
Definition Next (chunkSize : nat) (buf : bytes) : option (bytes * bytes) :=
  match buf with
  | [] => None
  | _ =>
      if length buf <=? chunkSize then Some (buf, [])
      else match back_nl buf chunkSize with
           | Some i => Some (firstn (i + 1) buf, skipn (i + 1) buf)
           | None => Some (firstn chunkSize buf, skipn chunkSize buf)
           end
  end.

(** The loop every user of the splitter runs: for splitter.Next() { use(splitter.Chunk()) }
    (listener/listener.go:404-409, writer/writer.go:186-197).  Returns the chunks and the
    unprocessed buffer, which is non-empty only if [fuel] iterations were not enough. *)
Fixpoint split_loop (fuel chunkSize : nat) (buf : bytes) : list bytes * bytes :=
  match fuel with
  | O => ([], buf)
  | S f =>
      match Next chunkSize buf with
      | None => ([], buf)
      | Some (c, rest) => let (cs, r) := split_loop f chunkSize rest in (c :: cs, r)
      end
  end.

(** All chunks; one iteration per byte is always enough for chunkSize >= 1
    ([split_all_complete]). *)
Definition split_all (chunkSize : nat) (buf : bytes) : list bytes :=
  fst (split_loop (length buf) chunkSize buf).
