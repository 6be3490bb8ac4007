(** A NATS server which goes away and comes back, between one component which publishes and one which subscribes.

    The components connect with nats.Connect(..., nats.MaxReconnects(-1), ...) (listener/listener.go:142, filter/filter.go:116,
    downsampler/downsampler.go:74, writer/writer.go:78, monitor/monitor.go:103) and publish as in listener/listener.go:404-409,
    filter/worker.go:153-161 and downsampler/downsampler.go:170-177; influx-spout-tap connects with the client's defaults
    (cmd/influx-spout-tap/influx-spout-tap.go:41).  The client (nats.go v1.10.0: Publish, processOpErr, doReconnect,
    flushReconnectPendingItems, selectNextServer) is modelled from knowledge, its source is not in the repository. *)
From Verif Require Import Base Text Convert.
Local Open Scope Z_scope.

(** A message: subject and data. *)
Notation msg := (bytes * bytes)%type.
Definition crlf : bytes := ["013"; "010"]%char.
(** nats.go publish: the bytes of a message on the connection. *)
Definition frame (m : msg) : bytes := lit "PUB " ++ fst m ++ lit " " ++ FormatInt (Z.of_nat (length (snd m))) ++ crlf ++ snd m ++ crlf.
Fixpoint plen (l : list msg) : Z := match l with [] => 0 | m :: r => Z.of_nat (length (frame m)) + plen r end.
(** nats.go DefaultReconnectBufSize. *)
Definition reconnectBuf : Z := 8388608.

(** The publisher's client: [up]: it believes to be connected (CONNECTED, else RECONNECTING); [pend]: nc.pending.
    Between: [wire]: written to the connection and not yet read by the server; [linked]: the connection is alive.
    The server: [srv]: it runs; [subs]: the subscriber's connection is alive and subscribed; [down]: on the way to the subscriber. *)
Record ost := mkO { up : bool; pend : list msg; wire : list msg; linked : bool; srv : bool; subs : bool; down : list msg }.
(** Connected, subscribed, nothing under way. *)
Definition ostart : ost := mkO true [] [] true true true [].

Inductive olabel :=
| Pub (m : msg) (broken : bool)   (** the component publishes; [broken]: writing to the connection fails *)
| Take                            (** the server reads the next message *)
| Deliver                         (** the subscriber gets the next message *)
| ServerDown | ServerUp           (** the server stops, and starts again *)
| CutPub | CutSub                 (** a connection breaks *)
| Notice                          (** the publisher's client notices that its connection is broken *)
| PubBack                         (** it reconnects and sends what it has kept *)
| PubBackFails (n : nat)          (** it reconnects, the server reads [n] of the kept messages, and the connection breaks before all is sent *)
| SubBack                         (** the subscriber's client reconnects and subscribes again *)
| Restart.                        (** the publishing component is stopped and started again; nats.go Close flushes to the connection, if there is one
                                      (simplified: the server reads the rest of the old connection before the new one) *)
Inductive oobs :=
| OPub (m : msg) (ok : bool)      (** Publish returns: nil ([ok]) or an error *)
| OGot (m : msg)                  (** the subscriber's callback has the message *)
| OLost (m : msg)                 (** a message lost with a connection *)
| OUnheard (m : msg).             (** a message for the subscriber which the server drops because it has not subscribed again *)

Section Outage.
  (** The subject subscribed to. *)
  Variable subject : bytes.
  Definition mine (m : msg) : bool := beqs (fst m) subject.

  (** The server reads messages. *)
  Definition route (sub : bool) (l : list msg) : list msg * list oobs :=
    if sub then (filter mine l, []) else ([], map OUnheard (filter mine l)).

  Definition ostep (s : ost) (l : olabel) : option (ost * list oobs) :=
    match l with
    | Pub m broken =>
        if up s then
          if broken then if linked s then None else Some (s, [OPub m false])
          else Some (mkO true (pend s) (wire s ++ [m]) (linked s) (srv s) (subs s) (down s), [OPub m true])
        else if reconnectBuf <=? plen (pend s) then Some (s, [OPub m false])
        else Some (mkO false (pend s ++ [m]) (wire s) (linked s) (srv s) (subs s) (down s), [OPub m true])
    | Take =>
        match wire s with
        | m :: w => if linked s && srv s then
            let (d, o) := route (subs s) [m] in Some (mkO (up s) (pend s) w (linked s) (srv s) (subs s) (down s ++ d), o) else None
        | [] => None
        end
    | Deliver =>
        match down s with
        | m :: d => Some (mkO (up s) (pend s) (wire s) (linked s) (srv s) (subs s) d, [OGot m])
        | [] => None
        end
    | ServerDown => if srv s then Some (mkO (up s) (pend s) (wire s) false false false [], map OLost (down s)) else None
    | ServerUp => if srv s then None else Some (mkO (up s) (pend s) (wire s) (linked s) true (subs s) (down s), [])
    | CutPub => Some (mkO (up s) (pend s) (wire s) false (srv s) (subs s) (down s), [])
    | CutSub => Some (mkO (up s) (pend s) (wire s) (linked s) (srv s) false [], map OLost (down s))
    | Notice => if up s && negb (linked s) then Some (mkO false [] [] false (srv s) (subs s) (down s), map OLost (filter mine (wire s))) else None
    | PubBack => if negb (up s) && srv s then Some (mkO true [] (pend s) true (srv s) (subs s) (down s), []) else None
    | PubBackFails n => if negb (up s) && srv s then
        let (d, o) := route (subs s) (firstn n (pend s)) in Some (mkO false (pend s) [] false (srv s) (subs s) (down s ++ d), o) else None
    | SubBack => if srv s then Some (mkO (up s) (pend s) (wire s) (linked s) (srv s) true (down s), []) else None
    | Restart => Some (mkO (up s) [] (wire s) (linked s) (srv s) (subs s) (down s), map OLost (filter mine (pend s)))
    end.
  Fixpoint orun (s : ost) (ls : list olabel) : option (ost * list oobs) :=
    match ls with
    | [] => Some (s, [])
    | l :: r => match ostep s l with
                | None => None
                | Some (s1, o1) => match orun s1 r with None => None | Some (s2, o2) => Some (s2, o1 ++ o2) end
                end
    end.

  (** ** Specification *)
  (** Messages for the subscriber: those published; of them refused; those which it gets, and which are lost. *)
  Definition published (o : list oobs) : list msg := filter mine (concat (map (fun x => match x with OPub m _ => [m] | _ => [] end) o)).
  Definition accepted_pubs (o : list oobs) : list msg := filter mine (concat (map (fun x => match x with OPub m true => [m] | _ => [] end) o)).
  Definition refused (o : list oobs) : list msg := filter mine (concat (map (fun x => match x with OPub m false => [m] | _ => [] end) o)).
  Definition received (o : list oobs) : list msg := concat (map (fun x => match x with OGot m => [m] | _ => [] end) o).
  Definition lost (o : list oobs) : list msg := concat (map (fun x => match x with OLost m => [m] | _ => [] end) o).
  Definition unheard (o : list oobs) : list msg := concat (map (fun x => match x with OUnheard m => [m] | _ => [] end) o).
  (** Messages for the subscriber which are under way. *)
  Definition under_way (s : ost) : list msg := down s ++ filter mine (wire s ++ pend s).
  (** A step of a well-behaved outage: connections break with nothing on them, nothing is published before the publisher has noticed,
      its buffer has room, it is not restarted with messages in it, and the subscriber is back
      before the server reads what it sends. *)
  Definition gentle (s : ost) (l : olabel) : Prop :=
    match l with
    | Pub _ broken => if up s then broken = false /\ linked s = true else plen (pend s) < reconnectBuf
    | Take => subs s = true
    | ServerDown => down s = [] /\ wire s = []
    | CutPub => wire s = []
    | CutSub => down s = []
    | Notice => wire s = []
    | Restart => pend s = []
    | PubBackFails _ => False
    | Deliver | ServerUp | SubBack | PubBack => True
    end.
  Fixpoint gentle_run (s : ost) (ls : list olabel) : Prop :=
    match ls with [] => True | l :: r => gentle s l /\ match ostep s l with Some (s1, _) => gentle_run s1 r | None => True end end.
End Outage.

(** [a] is [b] with some elements left out. *)
Inductive part_of {A} : list A -> list A -> Prop :=
| po_nil : part_of [] []
| po_keep x a b : part_of a b -> part_of (x :: a) (x :: b)
| po_skip x a b : part_of a b -> part_of a (x :: b).

(** ** How long a client tries *)
Inductive conn := Connected (tries : nat) | Trying | Closed.
(** nats.go doReconnect and selectNextServer: [pool]: the attempts since the last success for each server, the current one first;
    [attempts]: whether the next attempts succeed. *)
Fixpoint doReconnect (max : Z) (pool : list Z) (attempts : list bool) (n : nat) : conn :=
  match attempts with
  | [] => Trying
  | ok :: r =>
      match pool with
      | [] => Closed
      | s :: rest =>
          match (if (max <? 0) || (s <? max) then rest ++ [s] else rest) with
          | [] => Closed
          | c :: rest' => if ok then Connected n else doReconnect max (c + 1 :: rest') r (S n)
          end
      end
  end.
(** nats.MaxReconnects(-1), and nats.go DefaultMaxReconnect. *)
Definition componentMax : Z := -1.
Definition tapMax : Z := 60.
