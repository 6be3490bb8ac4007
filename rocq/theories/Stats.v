(** Model of stats/anonstats.go and stats/stats.go: counters shared by any number of
    goroutines, updated by atomic operations.  The unit of interleaving is one atomic
    operation of sync/atomic (AddUint64, LoadUint64, CompareAndSwapUint64); everything a
    goroutine does between two of them is local. *)
From Verif Require Import Base.
Local Open Scope Z_scope.

(** stats/stats.go:22-26: the map built by New; a later duplicate of a name replaces the
    index of an earlier one. *)
Fixpoint index_from (i : nat) (names : list bytes) (n : bytes) : option nat :=
  match names with
  | [] => None
  | x :: r =>
      match index_from (S i) r n with
      | Some j => Some j
      | None => if beqs x n then Some i else None
      end
  end.

(** stats/stats.go:58-64 lookup; [None] is the panic "unknown stat". *)
Definition lookup (names : list bytes) (n : bytes) : option nat := index_from 0 names n.

(** The calls of stats/stats.go: Get 42-44, Inc 48-50, Max 54-56. *)
Inductive sop :=
| SGet (n : bytes)
| SInc (n : bytes)
| SMax (n : bytes) (v : Z).

Definition sop_name (o : sop) : bytes := match o with SGet n | SInc n | SMax n _ => n end.

(** A goroutine: the calls it still has to make and, when it is inside the loop of Max between
    the load and the compare-and-swap (stats/anonstats.go:51-55), the value it loaded. *)
Record gor := Gor { g_todo : list sop; g_loaded : option Z }.

(** The counters (stats/anonstats.go:30-32, all zero initially: 22-26) and the goroutines. *)
Record sys := Sys { s_counts : list Z; s_gors : list gor }.

Fixpoint set_nth {A} (l : list A) (i : nat) (x : A) : list A :=
  match l, i with
  | [], _ => []
  | _ :: r, O => x :: r
  | y :: r, S j => y :: set_nth r j x
  end.

(** What one atomic step of a goroutine can do. *)
Inductive sres :=
| SPanic                                            (** stats/stats.go:61 panic *)
| SStep (counts : list Z) (g : gor) (ret : option (sop * Z)).

(** One atomic operation of a goroutine; [ret] is the call that returned in this step, with the
    value it returned.
    Get: stats/anonstats.go:36-38.  Inc: 42-44 (AddUint64 wraps modulo 2^64).
    Max: 48-59; the comparison of line 52 is local to the goroutine and done with the load. *)
Definition gor_step (names : list bytes) (counts : list Z) (g : gor) : sres :=
  match g_todo g with
  | [] => SStep counts g None
  | o :: rest =>
      match lookup names (sop_name o) with
      | None => SPanic
      | Some i =>
          let cur := nth i counts 0 in
          match o with
          | SGet _ => SStep counts (Gor rest None) (Some (o, cur))
          | SInc _ =>
              let v := wrapu64 (cur + 1) in
              SStep (set_nth counts i v) (Gor rest None) (Some (o, v))
          | SMax _ newVal =>
              match g_loaded g with
              | None =>
                  if newVal <=? cur then SStep counts (Gor rest None) (Some (o, cur))
                  else SStep counts (Gor (g_todo g) (Some cur)) None
              | Some curVal =>
                  if cur =? curVal then SStep (set_nth counts i newVal) (Gor rest None) (Some (o, newVal))
                  else SStep counts (Gor (g_todo g) None) None
              end
          end
      end
  end.

(** The calls that returned, in order: (goroutine, call, returned value). *)
Definition slog := list (nat * sop * Z).

(** An execution: the scheduler picks the goroutine of every step.  [None]: a goroutine panicked. *)
Fixpoint run_from (names : list bytes) (s : sys) (log : slog) (sched : list nat) : option (sys * slog) :=
  match sched with
  | [] => Some (s, log)
  | t :: rest =>
      match nth_error (s_gors s) t with
      | None => run_from names s log rest
      | Some g =>
          match gor_step names (s_counts s) g with
          | SPanic => None
          | SStep counts g' ret =>
              run_from names (Sys counts (set_nth (s_gors s) t g'))
                (match ret with None => log | Some (o, v) => log ++ [(t, o, v)] end) rest
          end
      end
  end.

(** Stats.New (stats/stats.go:22-31) followed by the goroutines' programs. *)
Definition run (names : list bytes) (progs : list (list sop)) (sched : list nat) : option (sys * slog) :=
  run_from names (Sys (map (fun _ => 0) names) (map (fun p => Gor p None) progs)) [] sched.

(** stats/stats.go:42-44: the value of a counter in a state. *)
Definition count (names : list bytes) (s : sys) (n : bytes) : Z :=
  match lookup names n with None => 0 | Some i => nth i (s_counts s) 0 end.
