(** Model of the whole writer: subscriptions, the jobs channel, the pool of workers, Stop
    (writer/writer.go:60-146; a worker with its retry goroutine is the transition function of Writer.v). *)
From Verif Require Import Base Retry Writer NatsSub.
Local Open Scope Z_scope.

(** writer/writer.go:83 make(chan *nats.Msg, 1024). *)
Definition wjobs_cap : nat := 1024.

(** The subscriptions (writer/writer.go:90-111), the jobs channel, the workers. *)
Record wpool := mkWP { p_subs : list sub; p_jobs : list bytes; p_ws : list wst }.

(** writer/writer.go:60-131: [caps] are the numbers of the workers' initial buffer sizes (all 32 pages), one per worker. *)
Definition startWriter (limits : list Z) (workers : nat) (cap now : Z) : wpool :=
  mkWP (map newSub limits) [] (repeat (newWorker cap now) workers).

(** What happens: a message arrives for subscription [i]; its callback gets the next message; the callback's
    [jobs <- msg] succeeds; worker [w] or its retry goroutine makes a move (a message is taken from jobs by the label PMsg);
    Stop closes w.stop. *)
Inductive plabel := QArrive (i : nat) (m : bytes) | QPick (i : nat) | QPut (i : nat) | QWork (w : nat) (l : wlabel) | QStop.

(** What can be observed; the messages are tagged with their subscription or worker. *)
Inductive pobs := BArrive (i : nat) (m : bytes) (keep : bool) | BPut (i : nat) (m : bytes) | BTake (w : nat) (m : bytes) | BW (w : nat) (o : list wobs).

Fixpoint upd {A} (l : list A) (i : nat) (x : A) : list A :=
  match l, i with
  | [], _ => []
  | _ :: l', O => x :: l'
  | y :: l', S j => y :: upd l' j x
  end.

(** One move of worker [w] (writer/writer.go:147-212). *)
Definition pool_work (c : wcfg) (s : wpool) (w : nat) (l : wlabel) (jobs : list bytes) (pre : list pobs) : option (wpool * list pobs) :=
  match nth_error (p_ws s) w with
  | None => None
  | Some st =>
      match wstep c st l with
      | None => None
      | Some (st', o) => Some (mkWP (p_subs s) jobs (upd (p_ws s) w st'), pre ++ [BW w o])
      end
  end.

(** writer/writer.go:134-138: close(w.stop), seen by every worker. *)
Definition close_all (c : wcfg) (ws : list wst) : list wst :=
  map (fun st => match wstep c st PClose with Some (st', _) => st' | None => st end) ws.

Definition pstep (c : wcfg) (s : wpool) (l : plabel) : option (wpool * list pobs) :=
  match l with
  | QArrive i m =>
      match nth_error (p_subs s) i with
      | None => None
      | Some su => let (su', k) := sub_arrive su m in Some (mkWP (upd (p_subs s) i su') (p_jobs s) (p_ws s), [BArrive i m k])
      end
  | QPick i =>
      match nth_error (p_subs s) i with
      | None => None
      | Some su => match sub_pick su with None => None | Some su' => Some (mkWP (upd (p_subs s) i su') (p_jobs s) (p_ws s), []) end
      end
  | QPut i =>
      match nth_error (p_subs s) i with
      | None => None
      | Some su =>
          match sub_return su with
          | None => None
          | Some (m, su') =>
              if Nat.ltb (length (p_jobs s)) wjobs_cap then
                Some (mkWP (upd (p_subs s) i su') (p_jobs s ++ [m]) (p_ws s), [BPut i m])
              else None
          end
      end
  | QWork w (PMsg t t' data) =>
      match p_jobs s with
      | m :: r => if beqs m data then pool_work c s w (PMsg t t' data) r [BTake w m] else None
      | [] => None
      end
  | QWork w PClose => None
  | QWork w l => pool_work c s w l (p_jobs s) []
  | QStop => Some (mkWP (p_subs s) (p_jobs s) (close_all c (p_ws s)), [])
  end.

Fixpoint prun (c : wcfg) (s : wpool) (ls : list plabel) : option (wpool * list pobs) :=
  match ls with
  | [] => Some (s, [])
  | l :: ls' =>
      match pstep c s l with
      | None => None
      | Some (s1, o1) => match prun c s1 ls' with None => None | Some (s2, o2) => Some (s2, o1 ++ o2) end
      end
  end.
