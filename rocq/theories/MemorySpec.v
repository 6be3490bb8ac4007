(** What is counted in the statements about memory. *)
From Verif Require Import Base Batch Listener Retry Writer WriterSpec.
Local Open Scope Z_scope.

(** The bytes a request adds to the batch, all in all: its body, or its converted lines. *)
Definition adds (q : Listener.hreq) : Z :=
  match start_req q with
  | RNanos body _ => Z.of_nat (length body)
  | RLines segs _ _ => Z.of_nat (length (concat segs))
  | _ => 0
  end.
(** The bytes a request still has to add. *)
Definition todo (r : req) : Z :=
  match r with
  | RNanos body _ => Z.of_nat (length body)
  | RLines segs _ _ => Z.of_nat (length (concat segs))
  | _ => 0
  end.
(** Request [q] in state [r] may have added data without having reached its own check of the batch. *)
Definition open_req (q : Listener.hreq) (r : req) : bool :=
  match r with
  | RNanos _ _ => false
  | RLines segs _ _ => negb (todo r =? adds q)
  | RMaybe _ => true
  | RDone _ => false
  end.
(** How many of the requests are in that state. *)
Fixpoint opens (qs : list Listener.hreq) (rs : list req) : Z :=
  match qs, rs with
  | q :: qs', r :: rs' => (if open_req q r then 1 else 0) + opens qs' rs'
  | _, _ => 0
  end.
(** The batches waiting to be written again: in the queue, in the channel, about to be put there. *)
Definition waiting (s : wst) : list bytes := map (fun x => snd (rb_buf x)) (r_q (w_retry s)) ++ map snd (passing s).

