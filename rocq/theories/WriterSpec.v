(** What one can say about a trace of a writer's worker. *)
From Verif Require Import Base LinesSpec Rules Retry RetrySpec Writer.
Local Open Scope Z_scope.

(** The writes a message makes to the batch: without rules the whole message; with rules every line that
    some rule matches (see C24 for when that is). *)
Definition kept (rs : list rule) (line : bytes) : bool := match Lookup rs line with None => false | Some _ => true end.
Definition writes_of (rs : list rule) (data : bytes) : list bytes :=
  match rs with [] => [data] | _ => filter (kept rs) (lines_of data) end.
(** The data a worker accepts from a message. *)
Definition accepted (rs : list rule) (data : bytes) : bytes := concat (writes_of rs data).

Definition messages (tr : list wobs) : list (Z * bytes) := flat_map (fun o => match o with VMsg t d => [(t, d)] | _ => [] end) tr.
Definition input (rs : list rule) (tr : list wobs) : bytes := concat (map (fun m => accepted rs (snd m)) (messages tr)).
(** All writes with the time of their message. *)
Definition timed_writes (rs : list rule) (tr : list wobs) : list (Z * bytes) :=
  flat_map (fun m => map (fun d => (fst m, d)) (writes_of rs (snd m))) (messages tr).

(** The first attempts, and those that failed. *)
Definition posts (tr : list wobs) : list (chunk * response) := flat_map (fun o => match o with VPost k b r => [((k, b), r)] | _ => [] end) tr.
Definition bodies (tr : list wobs) : list bytes := map (fun p => snd (fst p)) (posts tr).
Definition ok (r : response) : bool := match r with Status c => (200 <=? c) && (c <=? 299) | _ => false end.
Definition failures (tr : list wobs) : list chunk := map fst (filter (fun p => negb (ok (snd p))) (posts tr)).

(** The events of the retry goroutine. *)
Definition retries (tr : list wobs) : list (robs chunk) := flat_map (fun o => match o with VRetry x => [x] | _ => [] end) tr.

Definition count (p : wobs -> bool) (tr : list wobs) : Z := Z.of_nat (length (filter p tr)).
Definition is_msg (o : wobs) : bool := match o with VMsg _ _ => true | _ => false end.
Definition is_send (o : wobs) : bool := match o with VSend => true | _ => false end.
Definition is_post (o : wobs) : bool := match o with VPost _ _ _ => true | _ => false end.
Definition is_attempt (o : wobs) : bool := match o with VRetry (OStart _ _) => true | _ => false end.
Definition is_failed_post (o : wobs) : bool := match o with VPost _ _ r => negb (ok r) | _ => false end.
Definition is_failed_attempt (o : wobs) : bool := match o with VRetry (OEnd _ _ WPerm) | VRetry (OEnd _ _ WTemp) => true | _ => false end.
Definition is_took_write (o : wobs) : bool := match o with VTookWrite => true | _ => false end.
Definition is_took_err (o : wobs) : bool := match o with VTookErr => true | _ => false end.
(** The time of the last wake-up of the worker. *)
Definition last_wake (tr : list wobs) (t : Z) : Prop := exists l1 l2, tr = l1 ++ VWake t :: l2 /\ forall t', ~ In (VWake t') l2.

(** The data received but not yet posted, as the worker holds it. *)
Definition held (s : wst) : bytes :=
  match w_pc s with WSend rest | WHand _ rest => concat rest | _ => Batch.b_buf (w_batch s) end.
(** Failed chunks on their way to the retry goroutine. *)
Definition passing (s : wst) : list chunk :=
  match w_chan s with Some a => [a] | None => [] end ++ match w_pc s with WHand a _ => [a] | _ => [] end.

(** The events after the last flush of the batch. *)
Fixpoint after_send (tr : list wobs) : list wobs :=
  match tr with
  | [] => []
  | o :: tr' => if existsb is_send tr' then after_send tr' else if is_send o then tr' else tr
  end.

(** The two goroutines can be scheduled so that within [n] moves [goal] holds, whatever the database
    answers and whenever it does.  No message is needed. *)
Fixpoint forced (c : wcfg) (goal : wst -> Prop) (n : nat) (s : wst) : Prop :=
  match n with
  | O => goal s
  | S n' =>
      goal s \/
      (* the worker's POST returns *)
      (forall r t, exists s' o, wstep c s (PPost r t) = Some (s', o) /\ forced c goal n' s') \/
      (* the retry goroutine's POST returns *)
      (forall r t, r_now (w_retry s) <= t -> exists s' o, wstep c s (PRetry (LEnd t (Write r))) = Some (s', o) /\ forced c goal n' s') \/
      (* the retry goroutine receives *)
      (forall t t', r_now (w_retry s) <= t -> t <= t' -> exists s' o, wstep c s (PIn t t') = Some (s', o) /\ forced c goal n' s') \/
      (* the worker's hand-over succeeds *)
      (forall t, exists s' o, wstep c s (PHand t) = Some (s', o) /\ forced c goal n' s') \/
      (* shutdown *)
      (exists l s' o, In l [PClose; PStop; PDone; PRetry LStop] /\ wstep c s l = Some (s', o) /\ forced c goal n' s')
  end.
