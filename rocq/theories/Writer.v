(** Model of writer/writer.go: one worker with its retry goroutine. *)
From Verif Require Import Base Batch Splitter Rules Retry.
Local Open Scope Z_scope.

(** The configuration values used (config/config.go). *)
Record wcfg := mkWC { wc_count : Z; wc_size : nat; wc_age : Z; wc_rules : list rule;
                      wc_retry : Z; wc_ttl : Z; wc_interval : Z }.

(** A chunk with the number of its first attempt; the number only serves to tell equal chunks apart. *)
Definition chunk := (nat * bytes)%type.

(** bytes.SplitAfter(data, "\n"). *)
Fixpoint SplitAfter (b : bytes) : list bytes :=
  match b with
  | [] => [[]]
  | c :: r =>
      if Ascii.eqb c nl then [c] :: SplitAfter r
      else match SplitAfter r with [] => [[c]] | l :: ls => (c :: l) :: ls end
  end.

(** writer/writer.go:232-237 filterLine. *)
Definition filterLine (rs : list rule) (line : bytes) : bool :=
  match line with [] => false | _ => match Lookup rs line with None => false | Some _ => true end end.

(** writer/writer.go:214-230 getBatchWriteFunc.  At most the first Append of a batch reads the clock. *)
Definition batchAppend (rs : list rule) (b : batch) (data : bytes) (now : Z) : batch :=
  match rs with
  | [] => Append b data now
  | _ => fold_left (fun b line => if filterLine rs line then Append b line now else b) (SplitAfter data) b
  end.

(** writer/writer.go:239-243 shouldSend. *)
Definition shouldSend (c : wcfg) (b : batch) (now : Z) : bool :=
  (wc_count c <=? Writes b) || (Z.of_nat (wc_size c) <=? Size b) || (wc_age c <=? Age b now).

(** Where the worker is: in the select; posting the first of the remaining chunks; handing a chunk
    over to the retry goroutine; in the deferred rw.Stop; returned. *)
Inductive wpc := WIdle | WSend (rest : list bytes) | WHand (a : chunk) (rest : list bytes) | WStopping | WStopped.

(** The worker, the channel retryCh (capacity 1), the retry goroutine, whether w.stop is closed,
    this worker's share of the counters, and the number of first attempts made. *)
Record wst := mkW { w_batch : batch; w_pc : wpc; w_chan : option chunk; w_retry : rstate chunk; w_closed : bool;
                    w_received : Z; w_requests : Z; w_failed : Z; w_n : nat }.

(** What can be observed. *)
Inductive wobs :=
| VMsg (t : Z) (data : bytes) | VWake (t : Z) | VSend
| VPost (k : nat) (body : bytes) (r : response) | VHand (a : chunk)
| VTookWrite | VTookErr | VRetry (o : robs chunk).

(** writer/writer.go:148-166 at time [now]; 32*os.Getpagesize() is the initial capacity. *)
Definition newWorker (capacity now : Z) : wst :=
  mkW (New capacity now) WIdle None (newRetry now) false 0 0 0 0.

(** writer/writer.go:186-206: the splitter loop, when [rest] remains; Reset at its end. *)
Definition continue (s : wst) (rest : list bytes) (t : Z) : wst :=
  match rest with
  | [] => mkW (Reset (w_batch s) t) WIdle (w_chan s) (w_retry s) (w_closed s) (w_received s) (w_requests s) (w_failed s) (w_n s)
  | _ => mkW (w_batch s) (WSend rest) (w_chan s) (w_retry s) (w_closed s) (w_received s) (w_requests s) (w_failed s) (w_n s)
  end.

(** writer/writer.go:184-191: the part after the select, at time [t]. *)
Definition check (c : wcfg) (s : wst) (t : Z) : wst * list wobs :=
  if shouldSend c (w_batch s) t then
    (continue (mkW (w_batch s) (w_pc s) (w_chan s) (w_retry s) (w_closed s) (w_received s) (w_requests s + 1) (w_failed s) (w_n s))
              (split_all (wc_size c) (Bytes (w_batch s))) t, [VWake t; VSend])
  else (s, [VWake t]).

(** The moves.  PMsg: a message arrives at [t]; then the check at [t'].  PTookWrite, PTookErr: a report of
    the retry goroutine.  PTick: the one second timer.  PPost: the POST of the current chunk returns, and
    PHand: retryCh accepts the chunk (Reset, if it was the last one, at [t]).  PClose: w.stop is closed by Stop
    (134-145).  PStop: the worker returns and closes the retry goroutine's stop channel; PDone: that
    goroutine has returned.  PIn: the retry goroutine receives from retryCh.  PRetry: its other moves. *)
Inductive wlabel :=
| PMsg (t t' : Z) (data : bytes) | PTookWrite (t' : Z) | PTookErr (t' : Z) | PTick (t' : Z)
| PPost (r : response) (t : Z) | PHand (t : Z) | PClose | PStop | PDone | PIn (t t' : Z) | PRetry (l : rlabel chunk).

Definition set_retry (s : wst) (ch : option chunk) (r : rstate chunk) : wst :=
  mkW (w_batch s) (w_pc s) ch r (w_closed s) (w_received s) (w_requests s) (w_failed s) (w_n s).

Definition is_in {A} (l : rlabel A) : bool := match l with LIn _ _ _ => true | _ => false end.
Definition is_stop {A} (l : rlabel A) : bool := match l with LStop => true | _ => false end.

Definition retry_step (c : wcfg) := @rstep chunk (wc_retry c) (wc_ttl c) (wc_interval c).

(** writer/writer.go:147-212 worker (with 167-182 the select) and writer/retryworker.go. *)
Definition wstep (c : wcfg) (s : wst) (l : wlabel) : option (wst * list wobs) :=
  match l, w_pc s with
  | PMsg t t' data, WIdle =>
      let (s', o) := check c (mkW (batchAppend (wc_rules c) (w_batch s) data t) WIdle (w_chan s) (w_retry s) (w_closed s)
                                  (w_received s + 1) (w_requests s) (w_failed s) (w_n s)) t' in
      Some (s', VMsg t data :: o)
  | PTookWrite t', WIdle =>
      let r := w_retry s in
      if 0 <? r_writes r then
        let (s', o) := check c (mkW (w_batch s) WIdle (w_chan s) (mkR (r_q r) (r_next r) (r_ph r) (r_writes r - 1) (r_errs r) (r_now r))
                                    (w_closed s) (w_received s) (w_requests s + 1) (w_failed s) (w_n s)) t' in
        Some (s', VTookWrite :: o)
      else None
  | PTookErr t', WIdle =>
      let r := w_retry s in
      if 0 <? r_errs r then
        let (s', o) := check c (mkW (w_batch s) WIdle (w_chan s) (mkR (r_q r) (r_next r) (r_ph r) (r_writes r) (r_errs r - 1) (r_now r))
                                    (w_closed s) (w_received s) (w_requests s) (w_failed s + 1) (w_n s)) t' in
        Some (s', VTookErr :: o)
      else None
  | PTick t', WIdle => Some (check c s t')
  | PPost r t, WSend (ch :: rest) =>
      let ok := match Write r with WOk => true | _ => false end in
      let s1 := mkW (w_batch s) (w_pc s) (w_chan s) (w_retry s) (w_closed s) (w_received s) (w_requests s)
                    (if ok then w_failed s else w_failed s + 1) (S (w_n s)) in
      let o := [VPost (w_n s) ch r] in
      if ok || negb (0 <? wc_retry c) then Some (continue s1 rest t, o)
      else Some (mkW (w_batch s1) (WHand (w_n s, ch) rest) (w_chan s1) (w_retry s1) (w_closed s1) (w_received s1)
                     (w_requests s1) (w_failed s1) (w_n s1), o)
  | PHand t, WHand a rest =>
      match w_chan s with
      | None => Some (continue (set_retry s (Some a) (w_retry s)) rest t, [VHand a])
      | Some _ => None
      end
  | PClose, _ => Some (mkW (w_batch s) (w_pc s) (w_chan s) (w_retry s) true (w_received s) (w_requests s) (w_failed s) (w_n s), [])
  | PStop, WIdle =>
      if w_closed s then
        Some (mkW (w_batch s) (if 0 <? wc_retry c then WStopping else WStopped) (w_chan s) (w_retry s) true
                  (w_received s) (w_requests s) (w_failed s) (w_n s), [])
      else None
  | PDone, WStopping =>
      match r_ph (w_retry s) with
      | RStopped => Some (mkW (w_batch s) WStopped (w_chan s) (w_retry s) true (w_received s) (w_requests s) (w_failed s) (w_n s), [])
      | _ => None
      end
  | PIn t t', _ =>
      if 0 <? wc_retry c then
        match w_chan s with
        | None => None
        | Some a => match retry_step c (w_retry s) (LIn t t' a) with
                    | None => None
                    | Some (r, o) => Some (set_retry s None r, map VRetry o)
                    end
        end
      else None
  | PRetry l', pc =>
      if (0 <? wc_retry c) && negb (is_in l') && (negb (is_stop l') || match pc with WStopping => true | _ => false end) then
        match retry_step c (w_retry s) l' with
        | None => None
        | Some (r, o) => Some (set_retry s (w_chan s) r, map VRetry o)
        end
      else None
  | _, _ => None
  end.

Fixpoint wrun (c : wcfg) (s : wst) (ls : list wlabel) : option (wst * list wobs) :=
  match ls with
  | [] => Some (s, [])
  | l :: ls' =>
      match wstep c s l with
      | None => None
      | Some (s1, o1) => match wrun c s1 ls' with None => None | Some (s2, o2) => Some (s2, o1 ++ o2) end
      end
  end.
