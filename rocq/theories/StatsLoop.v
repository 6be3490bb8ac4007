(** The statistics goroutine of a listener, filter, downsampler or writer in time, and one of the component's counters.

    Modelled: when the loop takes the time, reads the counter, publishes, waits and ends.  The contents of a report are in
    Reports.v and Prom.v (C48, C61, C75, C102); reading the counter is atomic (C47). *)
From Verif Require Import Base.
Local Open Scope Z_scope.

(** Where the goroutine is.  [b]: when it got to the top of the loop; [now]: what time.Now gave; [v]: what the snapshot says. *)
Inductive spc :=
| Top (b : Z)
| HaveNow (b now : Z)
| HaveSnap (b v : Z)
| Composed (b now v : Z)
| Tail (b : Z)            (* the report is out; the reports of rules or subjects, and the writer's Flush, are left *)
| Waiting (since : Z)     (* in the select, time.After was called at [since] *)
| Done.

(** The time of the last event, the counter, the goroutine, and whether the stop channel is closed. *)
Record sst := mkS { s_time : Z; s_value : Z; s_pc : spc; s_stop : bool }.
(** The component starts the goroutine: listener/listener.go:73 and 92, filter/filter.go:106, downsampler/downsampler.go:103,
    writer/writer.go:119. *)
Definition sstart (t v : Z) : sst := mkS t v (Top t) false.

(** What happens at [t]: the component counts [n] more (another goroutine); the goroutine calls time.Now, reads the
    counter, publishes the report (nc.Publish, which may fail), enters the select, goes on after the interval, or
    because of the stop channel; Stop closes that channel. *)
Inductive slabel := Count (t n : Z) | Now (t : Z) | Snap (t : Z) | Publish (t : Z) (ok : bool) | Enter (t : Z) | Timer (t : Z) | Exit (t : Z) | Stop (t : Z).
Definition at_time (l : slabel) : Z :=
  match l with Count t _ | Now t | Snap t | Publish t _ | Enter t | Timer t | Exit t | Stop t => t end.

(** A report handed to NATS at [t], with the timestamp (in milliseconds) and the value for the counter; [ok]: NATS took it. *)
Inductive sobs := Report (t stamp v : Z) (ok : bool).

(** stats/prometheus.go:62-64 (Go's division truncates). *)
Definition timeToMillis (t : Z) : Z := t ÷ 1000000.

(** listener/listener.go:417-429 ([snapFirst]: the arguments of SnapshotToPrometheus are evaluated from left to right),
    filter/filter.go:160-189, downsampler/downsampler.go:185-214, writer/writer.go:247-286. *)
Definition sstep (snapFirst : bool) (interval : Z) (s : sst) (l : slabel) : option (sst * list sobs) :=
  let t := at_time l in
  let go pc o := Some (mkS t (s_value s) pc (s_stop s), o) in
  if t <? s_time s then None else
  match l, s_pc s with
  | Count _ n, pc => if n <? 0 then None else Some (mkS t (s_value s + n) pc (s_stop s), [])
  | Stop _, pc => Some (mkS t (s_value s) pc true, [])
  | Now _, Top b => if snapFirst then None else go (HaveNow b t) []
  | Now _, HaveSnap b v => go (Composed b t v) []
  | Snap _, Top b => if snapFirst then go (HaveSnap b (s_value s)) [] else None
  | Snap _, HaveNow b now => go (Composed b now (s_value s)) []
  | Publish _ ok, Composed b now v => go (Tail b) [Report t (timeToMillis now) v ok]
  | Enter _, Tail b => go (Waiting t) []
  | Timer _, Waiting since => if since + interval <=? t then go (Top t) [] else None
  | Exit _, Waiting _ => if s_stop s then go Done [] else None
  | _, _ => None
  end.
Fixpoint srun (snapFirst : bool) (interval : Z) (s : sst) (ls : list slabel) : option (sst * list sobs) :=
  match ls with
  | [] => Some (s, [])
  | l :: r =>
      match sstep snapFirst interval s l with
      | None => None
      | Some (s1, o1) => match srun snapFirst interval s1 r with None => None | Some (s2, o2) => Some (s2, o1 ++ o2) end
      end
  end.

(** ** Specification *)
(** Composing and publishing a report takes at most [R], and the goroutine notices the end of the interval at most [W] late:
    until when the goroutine stays where it is. *)
Definition deadline (interval R W : Z) (s : sst) : option Z :=
  match s_pc s with
  | Top b | HaveNow b _ | HaveSnap b _ | Composed b _ _ | Tail b => Some (b + R)
  | Waiting since => Some (since + Z.max 0 interval + W)
  | Done => None
  end.
(** Nothing happens after such a deadline before the goroutine has moved. *)
Fixpoint timely (snapFirst : bool) (interval R W : Z) (s : sst) (ls : list slabel) : Prop :=
  match ls with
  | [] => True
  | l :: r =>
      (match deadline interval R W s with Some d => at_time l <= d | None => True end) /\
      match sstep snapFirst interval s l with None => True | Some (s1, _) => timely snapFirst interval R W s1 r end
  end.

(** What was counted after the goroutine last read the counter. *)
Fixpoint unread (acc : Z) (ls : list slabel) : Z :=
  match ls with
  | [] => acc
  | Count _ n :: r => unread (acc + n) r
  | Snap _ :: r => unread 0 r
  | _ :: r => unread acc r
  end.
Definition value_of (o : sobs) : Z := match o with Report _ _ v _ => v end.
