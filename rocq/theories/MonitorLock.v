(** The monitor with its mutex: HTTP handlers, each with a client that takes its page at its own pace, and the NATS
    callback.  [mon_run] (Prom.v) has GETs and messages one after the other; here they are concurrent. *)
From Verif Require Import Base Prom.

(** A GET of /metrics: nothing yet; asked for, and waiting for the mutex; being written, under the mutex; answered; the
    connection was closed. *)
Inductive gphase := GNone | GAsked | GWriting (page : bytes) | GAnswered | GClosed.
(** The NATS callback: waiting for a message; a message has been parsed, and it waits for the mutex. *)
Inductive rphase := RIdle | RParsed (data : bytes) (new : mset).

(** The metrics, who holds the mutex, the GETs, what each client has read, the messages waiting in the subscription, the
    callback, and whether the process has crashed. *)
Record cst := mkC { c_set : mset; c_lock : option nat; c_get : nat -> gphase; c_read : nat -> nat; c_queue : list bytes; c_recv : rphase; c_dead : bool }.
(** monitor/monitor.go:34-39. *)
Definition cstart : cst := mkC [] None (fun _ => GNone) (fun _ => 0) [] RIdle false.

(** What can happen: client [i] sends its request; its handler gets the mutex and renders; the client reads [n] more bytes;
    w.Write has put out everything, the handler ends; the connection of [i] is closed by either side; NATS delivers a message;
    the callback takes the next message and parses it; it gets the mutex and updates the set ([order]: map iteration). *)
Inductive clabel :=
| CAsk (i : nat) | CLock (i : nat) | CRead (i n : nat) | CDone (i : nat) | CClose (i : nat)
| CDeliver (data : bytes) | CTake | CApply (order : list metric -> list metric).
(** A complete answer to [i]; a message dropped by the subscription (C82-C85); the process crashed. *)
Inductive cobs := OAnswer (i : nat) (page : bytes) | ODrop (data : bytes) | OCrash.

Definition upd_at {A} (f : nat -> A) (i : nat) (x : A) : nat -> A := fun j => if Nat.eqb i j then x else f j.

Section Lock.
  Variable gosort : forall A : Type, (A -> A -> bool) -> list A -> list A.
  (** [room]: what a connection takes although its client does not read (buffers of net/http and of the kernel);
      [limit]: how many messages the subscription keeps (nats.go's default, the monitor sets none; its other limit, of bytes, is not
      modelled: see C82). *)
  Variables (room limit : nat).

  (** monitor/monitor.go:114-121: w.Write is called while the mutex is held, and there is no WriteTimeout (124-127), so the
      handler goes on only when the client has read enough; 142-152 receiveMetrics: ParseMetrics without the mutex, then
      UpdateFromSet with it (a computation, here one step).
      Simplified: w.Write blocks until all of the page is in the buffers (in fact the last bytes are written after the handler
      returned; that is part of [room]). *)
  Definition cstep (s : cst) (l : clabel) : option (cst * list cobs) :=
    if c_dead s then None else
    match l with
    | CAsk i => match c_get s i with
                | GNone => Some (mkC (c_set s) (c_lock s) (upd_at (c_get s) i GAsked) (c_read s) (c_queue s) (c_recv s) false, [])
                | _ => None
                end
    | CLock i => match c_get s i, c_lock s with
                 | GAsked, None => let (page, set') := SetToBytes gosort (c_set s) in
                     Some (mkC set' (Some i) (upd_at (c_get s) i (GWriting page)) (c_read s) (c_queue s) (c_recv s) false, [])
                 | _, _ => None
                 end
    | CRead i n => Some (mkC (c_set s) (c_lock s) (c_get s) (upd_at (c_read s) i (c_read s i + n)) (c_queue s) (c_recv s) false, [])
    | CDone i => match c_get s i with
                 | GWriting page =>
                     if Nat.leb (length page) (room + c_read s i)
                     then Some (mkC (c_set s) None (upd_at (c_get s) i GAnswered) (c_read s) (c_queue s) (c_recv s) false, [OAnswer i page])
                     else None
                 | _ => None
                 end
    | CClose i => match c_get s i with
                  | GWriting _ => Some (mkC (c_set s) None (upd_at (c_get s) i GClosed) (c_read s) (c_queue s) (c_recv s) false, [])
                  | _ => None
                  end
    | CDeliver d => if Nat.ltb (length (c_queue s)) limit
                    then Some (mkC (c_set s) (c_lock s) (c_get s) (c_read s) (c_queue s ++ [d]) (c_recv s) false, [])
                    else Some (s, [ODrop d])
    | CTake => match c_recv s, c_queue s with
               | RIdle, d :: q =>
                   match ParseMetrics gosort d with
                   | PsErr => Some (mkC (c_set s) (c_lock s) (c_get s) (c_read s) q RIdle false, [])
                   | PsPanic => Some (mkC (c_set s) (c_lock s) (c_get s) (c_read s) q RIdle true, [OCrash])
                   | PsOk new => Some (mkC (c_set s) (c_lock s) (c_get s) (c_read s) q (RParsed d new) false, [])
                   end
               | _, _ => None
               end
    | CApply order => match c_recv s, c_lock s with
                      | RParsed d new, None =>
                          Some (mkC (fold_left (Update gosort) (order (map snd new)) (c_set s)) None (c_get s) (c_read s) (c_queue s) RIdle false, [])
                      | _, _ => None
                      end
    end.
  Fixpoint crun (s : cst) (ls : list clabel) : option (cst * list cobs) :=
    match ls with
    | [] => Some (s, [])
    | l :: r => match cstep s l with
                | None => None
                | Some (s1, o1) => match crun s1 r with None => None | Some (s2, o2) => Some (s2, o1 ++ o2) end
                end
    end.

  (** ** Specification *)
  (** The messages NATS delivered and did not drop; those a history of the monitor has dealt with. *)
  Fixpoint delivered_msgs (ls : list clabel) : list bytes := match ls with [] => [] | CDeliver d :: r => d :: delivered_msgs r | _ :: r => delivered_msgs r end.
  Definition drops (o : list cobs) : list bytes := flat_map (fun x => match x with ODrop d => [d] | _ => [] end) o.
  Definition messages_of (evs : list mevent) : list bytes := flat_map (fun e => match e with EMsg d _ => [d] | EGet => [] end) evs.
  Definition answers (o : list cobs) : list bytes := flat_map (fun x => match x with OAnswer _ p => [p] | _ => [] end) o.
  (** [c] has the elements of [a] and of [b], each in their order. *)
  Inductive shuffle {A} : list A -> list A -> list A -> Prop :=
  | sh_nil : shuffle [] [] []
  | sh_a x a b c : shuffle a b c -> shuffle (x :: a) b (x :: c)
  | sh_b x a b c : shuffle a b c -> shuffle a (x :: b) (x :: c).
  (** What the callback has in hand, and what waits. *)
  Definition in_hand (s : cst) : list bytes := (match c_recv s with RParsed d _ => [d] | RIdle => [] end) ++ c_queue s.
  (** Client [i] reads nothing and stays connected. *)
  Definition stalls (i : nat) (l : clabel) : Prop := match l with CRead j n => j <> i | CClose j => j <> i | _ => True end.
  (** A step of some client, not of the program. *)
  Definition by_client (l : clabel) : bool := match l with CRead _ _ | CAsk _ | CClose _ => true | _ => false end.
End Lock.
