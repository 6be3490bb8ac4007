(** Model of the probes package and of how the components use it: readiness and liveness over a component's life. *)
From Verif Require Import Base Config.
Local Open Scope Z_scope.

(** The steps of a component that matter to its probes. *)
Inductive instr :=
| IListen               (** probes.Listen: the server starts, alive and not ready (probes/probes.go:49-75) *)
| IReady (b : bool)     (** SetReady *)
| IAlive (b : bool)     (** SetAlive *)
| ISpawn                (** the goroutine is started *)
| IReturned             (** Start returns the component *)
| IFailed               (** Start returns an error *)
| IStop                 (** Stop is called *)
| IWait                 (** wg.Wait *)
| IClose.               (** probes Close *)

(** The Stop methods agree as far as the probes are concerned: listener/listener.go:118-126, filter/filter.go:142-159,
    downsampler/downsampler.go:118-137, writer/writer.go:134-145, monitor/monitor.go:83-100. *)
Definition stop_steps : list instr := [IStop; IReady false; IAlive false; IWait; IClose].

(** How starting ends. *)
Inductive start := StartsOk | FailsEarly | FailsLate.

(** The main goroutine's steps.
    Filter, downsampler, writer (filter/filter.go:44-113, downsampler/downsampler.go:55-113, writer/writer.go:60-129) set
    themselves ready at the end of Start; the deferred function calls Stop on any error.
    Listener (listener/listener.go:56-80): an error of newListener (130-149) is returned before the deferred function is
    set up, an error of setupUDP is not.  HTTP listener (84-100): only newListener can fail.
    Monitor (monitor/monitor.go:33-64): the deferred function covers everything. *)
Definition main_steps (c : component) (s : start) : list instr :=
  match c, s with
  | Config.Filter, StartsOk | Config.Downsampler, StartsOk | Config.Writer, StartsOk => [IListen; IReady true; IReturned] ++ stop_steps
  | Config.Listener, StartsOk | Config.HTTPListener, StartsOk | Config.Monitor, StartsOk => [IListen; ISpawn; IReturned] ++ stop_steps
  | Config.Listener, FailsEarly | Config.HTTPListener, _ => [IListen; IFailed]
  | _, _ => [IListen] ++ stop_steps ++ [IFailed]
  end.

(** The goroutine that reports readiness: listenUDP (listener/listener.go:187), the server goroutines
    (listener/listener.go:351-352, monitor/monitor.go:128-129). *)
Definition spawned_steps : list instr := [IReady true].

(** Stop waits for listenUDP (listener/listener.go:73, 123), not for the server goroutines. *)
Definition waited (c : component) : bool := match c with Config.Listener => true | _ => false end.

Inductive who := Main | Spawned.
Inductive path := Healthz | Readyz.

(** What can be observed: a step was made, a request was answered with a status. *)
Inductive seen :=
| Did (w : who) (i : instr)
| Reply (p : path) (status : Z).

Record pstate := PState {
  ps_main : list instr;
  ps_spawned : option (list instr);   (** None: not started yet *)
  ps_alive : bool;
  ps_ready : bool;
  ps_open : bool;                     (** the probe server is running *)
  ps_log : list seen
}.

Definition initial (c : component) (s : start) : pstate := PState (main_steps c s) None false false false [].

Inductive pick := Step (w : who) | Request (p : path).

(** The effect of a step. *)
Definition exec (w : who) (i : instr) (st : pstate) : pstate :=
  PState (ps_main st)
    (match i with ISpawn => Some spawned_steps | _ => ps_spawned st end)
    (match i with IListen => true | IAlive b => b | _ => ps_alive st end)
    (match i with IListen => false | IReady b => b | _ => ps_ready st end)
    (match i with IListen => true | IClose => false | _ => ps_open st end)
    (ps_log st ++ [Did w i]).

Definition set_main (st : pstate) (m : list instr) : pstate :=
  PState m (ps_spawned st) (ps_alive st) (ps_ready st) (ps_open st) (ps_log st).
Definition set_spawned (st : pstate) (m : list instr) : pstate :=
  PState (ps_main st) (Some m) (ps_alive st) (ps_ready st) (ps_open st) (ps_log st).

(** probes/probes.go:97-105 newHandler: 200 or 503. *)
Definition status (b : bool) : Z := if b then 200 else 503.

(** One scheduling decision.  A blocked or finished goroutine does nothing; a request to a closed server is not answered. *)
Definition pstep (c : component) (st : pstate) (k : pick) : pstate :=
  match k with
  | Step Main =>
      match ps_main st with
      | [] => st
      | IWait :: r =>
          if waited c && match ps_spawned st with Some (_ :: _) => true | _ => false end then st
          else exec Main IWait (set_main st r)
      | i :: r => exec Main i (set_main st r)
      end
  | Step Spawned =>
      match ps_spawned st with
      | Some (i :: r) => exec Spawned i (set_spawned st r)
      | _ => st
      end
  | Request p =>
      if ps_open st then
        PState (ps_main st) (ps_spawned st) (ps_alive st) (ps_ready st) true
          (ps_log st ++ [Reply p (status (match p with Healthz => ps_alive st | Readyz => ps_ready st end))])
      else st
  end.

Definition life (c : component) (s : start) (ks : list pick) : list seen := ps_log (fold_left (pstep c) ks (initial c s)).

(** The components that set themselves ready before Start returns. *)
Definition direct (c : component) : Prop := c = Config.Filter \/ c = Config.Downsampler \/ c = Config.Writer.
