(** Specification of the counters: what a sequence of calls, made one after the other, does. *)
From Verif Require Import Base Stats.
Local Open Scope Z_scope.

(** The value of one counter and the value returned, after a call on a counter that read [v]. *)
Definition call_result (o : sop) (v : Z) : Z :=
  match o with
  | SGet _ => v
  | SInc _ => (v + 1) mod 2 ^ 64
  | SMax _ x => Z.max v x
  end.

(** [sequential st log st']: starting with counters st, making the calls of log one after the
    other gives the recorded results and leaves the counters st'. *)
Inductive sequential : (bytes -> Z) -> slog -> (bytes -> Z) -> Prop :=
| seq_nil st : sequential st [] st
| seq_cons st t o r log st' st'' :
    r = call_result o (st (sop_name o)) ->
    (forall n, st' n = if beqs n (sop_name o) then r else st n) ->
    sequential st' log st'' ->
    sequential st ((t, o, r) :: log) st''.

(** Number of completed Inc calls on a counter. *)
Definition incs (n : bytes) (log : slog) : nat :=
  length (filter (fun e : nat * sop * Z => match snd (fst e) with SInc m => beqs m n | _ => false end) log).

(** Arguments of the completed Max calls on a counter. *)
Definition maxes (n : bytes) (log : slog) : list Z :=
  flat_map (fun e : nat * sop * Z => match snd (fst e) with SMax m v => if beqs m n then [v] else [] | _ => [] end) log.

(** The largest of some numbers, at least 0. *)
Fixpoint largest (l : list Z) : Z := match l with [] => 0 | x :: r => Z.max x (largest r) end.

(** The calls goroutine t completed, in order. *)
Definition calls_of (t : nat) (log : slog) : list sop :=
  map (fun e : nat * sop * Z => snd (fst e)) (filter (fun e : nat * sop * Z => Nat.eqb (fst (fst e)) t) log).

(** Arguments of Max are uint64 values. *)
Definition uint64_args (progs : list (list sop)) : Prop :=
  Forall (Forall (fun o => match o with SMax _ v => 0 <= v < 2 ^ 64 | _ => True end)) progs.
