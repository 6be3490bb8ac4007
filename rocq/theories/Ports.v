(** The ports a component opens: its own (data or /metrics), the probes' and pprof's.

    Modelled: which ports are opened, by which goroutine and in which order with respect to the readiness report, and
    what happens if a port cannot be opened.  Connecting to NATS and everything else is assumed to work (see C80, C90). *)
From Verif Require Import Base Config.
Local Open Scope Z_scope.

Inductive proto := TCP | UDP.
Inductive service := Data | Probes | Pprof.
Definition sock := (proto * Z)%type.
Definition proto_eqb (a b : proto) : bool := match a, b with TCP, TCP | UDP, UDP => true | _, _ => false end.
Definition sock_eqb (a b : sock) : bool := proto_eqb (fst a) (fst b) && (snd a =? snd b).

(** The socket of a service: listener/listener.go:152 and 204 (":%d" of c.Port), monitor/monitor.go:125, probes/probes.go:49-51 and 58
    (none for a port of at most 0), cmd/influx-spout/main.go:88-91 (likewise). *)
Definition socket (comp : component) (c : cfg) (s : service) : option sock :=
  match s with
  | Data => match comp with Config.Listener => Some (UDP, c_port c) | Config.HTTPListener | Config.Monitor => Some (TCP, c_port c) | _ => None end
  | Probes => if c_probe_port c <=? 0 then None else Some (TCP, c_probe_port c)
  | Pprof => if 0 <? c_pprof_port c then Some (TCP, c_pprof_port c) else None
  end.

(** What a goroutine does: start another one; open the socket of a service; report readiness; and Start's return. *)
Inductive instr := ISpawn (s : service) | IOpen (s : service) | IReady | IReturn.

(** The main goroutine.  cmd/influx-spout/main.go:87-97: the pprof goroutine; probes/probes.go:70-73: the probes' goroutine;
    listener/listener.go:66-75 (UDP: the socket is opened by StartListener; listenUDP, which reports readiness, is a
    goroutine of its own), 85-97 (HTTP) and monitor/monitor.go:64-65 (serveHTTP); filter/filter.go:111,
    downsampler/downsampler.go:110 and writer/writer.go:126: readiness is reported by Start. *)
Definition main_prog (comp : component) (c : cfg) : list instr :=
  (match socket comp c Pprof with Some _ => [ISpawn Pprof] | None => [] end) ++
  (match socket comp c Probes with Some _ => [ISpawn Probes] | None => [] end) ++
  match comp with
  | Config.Listener => [IOpen Data; ISpawn Data; IReturn]
  | Config.HTTPListener | Config.Monitor => [ISpawn Data; IReturn]
  | _ => [IReady; IReturn]
  end.
(** The other goroutines.  listener/listener.go:181-187 listenUDP; 351-357 and monitor/monitor.go:128-134: readiness is reported before
    ListenAndServe. *)
Definition prog (comp : component) (s : service) : list instr :=
  match s with
  | Data => match comp with
            | Config.Listener => [IReady]
            | Config.HTTPListener | Config.Monitor => [IReady; IOpen Data]
            | _ => []
            end
  | s => [IOpen s]
  end.

(** What can be observed: a service is reachable; an error is logged; a readiness report; Start returned; the process
    exits with an error. *)
Inductive event := Opened (s : service) | Logged (s : service) | Ready | Returned | Exited.

(** probes/probes.go:72: the error is ignored; cmd/influx-spout/main.go:91-94: it is logged; listener/listener.go:156-159, 353-357,
    monitor/monitor.go:130-134 and cmd/influx-spout/main.go:44-46: the process exits. *)
Definition on_failure (s : service) : list event := match s with Probes => [] | Pprof => [Logged Pprof] | Data => [Exited] end.

(** The goroutines that have been started, with what they still have to do, and the sockets this process has open. *)
Record pst := mkP { p_main : list instr; p_gor : service -> list instr; p_open : list sock; p_dead : bool }.
Definition start_state (comp : component) (c : cfg) : pst := mkP (main_prog comp c) (fun _ => []) [] false.

(** net.Listen: an invalid port number is refused; a socket another process ([taken]) or this one has open, too.
    Simplified: port 0 (any free port) is treated like the others; no loaded configuration has it (C53). *)
Definition can_open (taken : sock -> bool) (opened : list sock) (k : sock) : bool :=
  (0 <=? snd k) && (snd k <=? 65535) && negb (taken k) && negb (existsb (sock_eqb k) opened).

Definition seqb (a b : service) : bool := match a, b with Data, Data | Probes, Probes | Pprof, Pprof => true | _, _ => false end.
Definition update (f : service -> list instr) (s : service) (l : list instr) : service -> list instr := fun x => if seqb s x then l else f x.

(** One instruction [i]; [st] is the state in which it has been taken off its goroutine's list. *)
Definition exec (comp : component) (c : cfg) (taken : sock -> bool) (st : pst) (i : instr) : pst * list event :=
  match i with
  | ISpawn s => (mkP (p_main st) (update (p_gor st) s (prog comp s)) (p_open st) (p_dead st), [])
  | IReady => (st, [Ready])
  | IReturn => (st, [Returned])
  | IOpen s =>
      match socket comp c s with
      | None => (st, [])
      | Some k =>
          if can_open taken (p_open st) k then (mkP (p_main st) (p_gor st) (k :: p_open st) (p_dead st), [Opened s])
          else (mkP (p_main st) (p_gor st) (p_open st) (match s with Data => true | _ => p_dead st end), on_failure s)
      end
  end.

(** A schedule: None is the main goroutine's turn.  A goroutine that is not there or has finished does nothing; nor
    does a process that has exited. *)
Definition pstep (comp : component) (c : cfg) (taken : sock -> bool) (st : pst) (t : option service) : pst * list event :=
  if p_dead st then (st, []) else
  match t with
  | None => match p_main st with [] => (st, []) | i :: r => exec comp c taken (mkP r (p_gor st) (p_open st) (p_dead st)) i end
  | Some s => match p_gor st s with [] => (st, []) | i :: r => exec comp c taken (mkP (p_main st) (update (p_gor st) s r) (p_open st) (p_dead st)) i end
  end.
Fixpoint prun (comp : component) (c : cfg) (taken : sock -> bool) (st : pst) (sched : list (option service)) : pst * list event :=
  match sched with
  | [] => (st, [])
  | t :: r => let (st1, o1) := pstep comp c taken st t in let (st2, o2) := prun comp c taken st1 r in (st2, o1 ++ o2)
  end.

(** ** Specification *)
(** Everything a goroutine was to do has been done. *)
Definition finished (st : pst) : Prop := p_dead st = false /\ p_main st = [] /\ forall s, p_gor st s = [].
(** The ports a configuration names (README.md:139, 177-183, 203, 233-239, 539, 541-547). *)
Inductive named : component -> cfg -> service -> sock -> Prop :=
| named_udp c : named Config.Listener c Data (UDP, c_port c)
| named_http c : named Config.HTTPListener c Data (TCP, c_port c)
| named_metrics c : named Config.Monitor c Data (TCP, c_port c)
| named_probes comp c : 1 <= c_probe_port c -> named comp c Probes (TCP, c_probe_port c)
| named_pprof comp c : 1 <= c_pprof_port c -> named comp c Pprof (TCP, c_pprof_port c).
(** The ports are usable: valid, not taken by another process, and different from each other (per protocol). *)
Definition usable (comp : component) (c : cfg) (taken : sock -> bool) : Prop :=
  (forall s k, named comp c s k -> 1 <= snd k <= 65535 /\ taken k = false) /\
  (forall s s' k, named comp c s k -> named comp c s' k -> s = s').
