(** Model of writer/retryworker.go and of the response handling in writer/influxclient.go. *)
From Verif Require Import Base.
Local Open Scope Z_scope.

(** What happened to one POST: no request could be made, no response, or a response status. *)
Inductive response := BadRequest | NoResponse | Status (code : Z).
(** The error of a write: none, permanent, temporary. *)
Inductive outcome := WOk | WPerm | WTemp.

(** writer/influxclient.go:85-87 and 89-91. *)
Definition isHTTPPOSTSuccess (code : Z) : bool := (200 <=? code) && (code <? 300).
Definition isHTTPClientError (code : Z) : bool := (400 <=? code) && (code <? 500).

(** writer/influxclient.go:56-83 Write: the error value as isPermanentError (120-128) sees it.
    The request itself (URL, headers, body = the chunk) and the error texts are not modelled. *)
Definition Write (r : response) : outcome :=
  match r with
  | BadRequest => WPerm
  | NoResponse => WTemp
  | Status code =>
      if negb (isHTTPPOSTSuccess code) then (if isHTTPClientError code then WPerm else WTemp) else WOk
  end.

Section Retry.
  (** A batch to retry.  The code never looks inside; the writer model uses numbered chunks. *)
  Variable A : Type.

  (** writer/retryworker.go:226-229; the fields maxBatches and maxTTL of retryQueue (152-156). *)
  Record retryBatch := mkRB { rb_buf : A; rb_ttl : Z }.
  Variables maxBatches maxTTL : Z.
  (** writer/retryworker.go:33 and 67 retryInterval. *)
  Variable interval : Z.

  (** writer/retryworker.go:211-220: the loop of removeOldest, keeping the position and ttl of the best. *)
  Fixpoint oldest (l : list retryBatch) (i : nat) (best : option (nat * Z)) : option (nat * Z) :=
    match l with
    | [] => best
    | b :: l' =>
        oldest l' (S i) (match best with
                         | None => Some (i, rb_ttl b)
                         | Some (_, m) => if rb_ttl b <? m then Some (i, rb_ttl b) else best
                         end)
    end.

  (** writer/retryworker.go:211-224 removeOldest: the remaining queue and the removed batch. *)
  Definition removeOldest (q : list retryBatch) : list retryBatch * list A :=
    match oldest q 0 None with
    | None => (q, [])
    | Some (i, _) => (firstn i q ++ skipn (S i) q, match nth_error q i with Some b => [rb_buf b] | None => [] end)
    end.

  (** writer/retryworker.go:164-172 Add at clock reading [now]; also the evicted batch. *)
  Definition qAdd (q : list retryBatch) (now : Z) (a : A) : list retryBatch * list A :=
    let (q1, ev) := if maxBatches <=? Z.of_nat (length q) then removeOldest q else (q, []) in
    (q1 ++ [mkRB a (now + maxTTL)], ev).

  (** writer/retryworker.go:176-191 Front at clock reading [now]: the remaining queue, the expired
      batches, and the front. *)
  Fixpoint qFront (q : list retryBatch) (now : Z) : list retryBatch * list A * option A :=
    match q with
    | [] => ([], [], None)
    | b :: q' =>
        if rb_ttl b <? now then let '(q1, ex, f) := qFront q' now in (q1, rb_buf b :: ex, f)
        else (q, [], Some (rb_buf b))
    end.

  (** writer/retryworker.go:194-200 and 203-209. *)
  Definition qDropFront (q : list retryBatch) : list retryBatch := match q with [] => [] | _ :: q' => q' end.
  Definition qCycleFront (q : list retryBatch) : list retryBatch := match q with [] => [] | b :: q' => q' ++ [b] end.

  (** Where the goroutine is: in the select, inside dbWriter.Write, or returned. *)
  Inductive rphase := RIdle | RWriting (a : A) | RStopped.

  (** The state of the loop (88-121): queue, the time nextSend fires if it is not nil, the fill of
      the report channels (38-39, capacity 4*maxBatches), and the time of the last clock reading. *)
  Record rstate := mkR { r_q : list retryBatch; r_next : option Z; r_ph : rphase; r_writes : Z; r_errs : Z; r_now : Z }.

  (** What can be observed. *)
  Inductive robs :=
  | OAdd (t : Z) (a : A) | OEvict (a : A) | OExpire (t : Z) (a : A)
  | OStart (t : Z) (a : A) | OEnd (t : Z) (a : A) (o : outcome) | OStop.

  (** writer/retryworker.go:29-45 newRetryWorker at time [now]. *)
  Definition newRetry (now : Z) : rstate := mkR [] None RIdle 0 0 now.

  (** writer/retryworker.go:93-95: the top of the loop, at time [now]. *)
  Definition arm (next : option Z) (q : list retryBatch) (now : Z) : option Z :=
    match next, q with None, _ :: _ => Some (now + interval) | _, _ => next end.

  (** writer/retryworker.go:123-135: a send that is dropped when the channel is full. *)
  Definition report (fill : Z) : Z := if fill <? maxBatches * 4 then fill + 1 else fill.

  (** The moves of the goroutine.  LIn: a batch arrives at [t], the loop is at its top again at
      [t'].  LFire: the timer case is chosen and Front is called at [t]; back at the top at [t'] if
      there is nothing to write.  LEnd: the write returns; back at the top at [t'].  LStop. *)
  Inductive rlabel := LIn (t t' : Z) (a : A) | LFire (t t' : Z) | LEnd (t' : Z) (o : outcome) | LStop.

  (** writer/retryworker.go:88-121 loop. *)
  Definition rstep (s : rstate) (l : rlabel) : option (rstate * list robs) :=
    match l, r_ph s with
    | LIn t t' a, RIdle =>
        if (r_now s <=? t) && (t <=? t') then
          let (q, ev) := qAdd (r_q s) t a in
          Some (mkR q (arm (r_next s) q t') RIdle (r_writes s) (r_errs s) t', map OEvict ev ++ [OAdd t a])
        else None
    | LFire t t', RIdle =>
        match r_next s with
        | None => None
        | Some d =>
            if (r_now s <=? t) && (d <=? t) && (t <=? t') then
              let '(q, ex, f) := qFront (r_q s) t in
              match f with
              | None => Some (mkR q (arm None q t') RIdle (r_writes s) (r_errs s) t', map (OExpire t) ex)
              | Some a => Some (mkR q None (RWriting a) (report (r_writes s)) (r_errs s) t, map (OExpire t) ex ++ [OStart t a])
              end
            else None
        end
    | LEnd t' o, RWriting a =>
        if r_now s <=? t' then
          let q := match o with WOk | WPerm => qDropFront (r_q s) | WTemp => qCycleFront (r_q s) end in
          let e := match o with WOk => r_errs s | _ => report (r_errs s) end in
          Some (mkR q (arm (r_next s) q t') RIdle (r_writes s) e t', [OEnd t' a o])
        else None
    | LStop, RIdle => Some (mkR (r_q s) (r_next s) RStopped (r_writes s) (r_errs s) (r_now s), [OStop])
    | _, _ => None
    end.

  (** A run of the goroutine: the final state and everything observed. *)
  Fixpoint rrun (s : rstate) (ls : list rlabel) : option (rstate * list robs) :=
    match ls with
    | [] => Some (s, [])
    | l :: ls' =>
        match rstep s l with
        | None => None
        | Some (s1, o1) => match rrun s1 ls' with None => None | Some (s2, o2) => Some (s2, o1 ++ o2) end
        end
    end.
End Retry.
Arguments mkRB {A}. Arguments rb_buf {A}. Arguments rb_ttl {A}. Arguments RIdle {A}. Arguments RWriting {A}. Arguments RStopped {A}.
Arguments mkR {A}. Arguments r_q {A}. Arguments r_next {A}. Arguments r_ph {A}. Arguments r_writes {A}. Arguments r_errs {A}. Arguments r_now {A}.
Arguments OAdd {A}. Arguments OEvict {A}. Arguments OExpire {A}. Arguments OStart {A}. Arguments OEnd {A}. Arguments OStop {A}.
Arguments LIn {A}. Arguments LFire {A}. Arguments LEnd {A}. Arguments LStop {A}.
Arguments oldest {A}. Arguments removeOldest {A}. Arguments qAdd {A}. Arguments qFront {A}. Arguments qDropFront {A}. Arguments qCycleFront {A}.
Arguments newRetry {A}. Arguments arm {A}. Arguments rstep {A}. Arguments rrun {A}.
