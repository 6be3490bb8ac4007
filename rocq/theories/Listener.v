(** Model of listener/listener.go: the UDP loop, the HTTP handlers and the age sender. *)
From Verif Require Import Base Timestamps Splitter Batch LinesSpec.
Local Open Scope Z_scope.

(** config/config.go:34. *)
Definition MaxNATSMsgSize : Z := 1048576.
Definition natsMax : nat := Z.to_nat MaxNATSMsgSize.
(** listener/listener.go:48. *)
Definition maxUDPDatagramSize : Z := 65536.

(** The configuration fields the listener uses: config/config.go:52-56. *)
Record lconf := mkLConf { lc_max_count : Z; lc_max_age : Z; lc_max_size : Z }.

(** Listener state.  [ls_pub] is the list of messages handed to nats.Conn.Publish, oldest
    first (the slices are copied by Publish before the batch is reused); the four counters
    are listener/listener.go:42-45. *)
Record lstate := mkL {
  ls_batch : batch; ls_received : Z; ls_sent : Z; ls_read_errors : Z; ls_failed : Z;
  ls_pub : list bytes }.

Definition set_batch (s : lstate) (b : batch) : lstate :=
  mkL b (ls_received s) (ls_sent s) (ls_read_errors s) (ls_failed s) (ls_pub s).

(** listener/listener.go:128-151 newListener at clock reading [now]. *)
Definition newListener (c : lconf) (now : Z) : lstate := mkL (New (lc_max_size c) now) 0 0 0 0 [].

(** listener/listener.go:173-179; Getpagesize is the parameter [pageSize], Go's integer
    division truncates. *)
Definition roundUpToPageSize (pageSize n : Z) : Z :=
  if n <=? 0 then pageSize else Z.quot (n + pageSize - 1) pageSize * pageSize.

(** listener/listener.go:371-388 shouldSend. *)
Definition shouldSend (c : lconf) (b : batch) (now : Z) : bool :=
  if lc_max_count c <=? Writes b then true
  else if lc_max_age c <=? Age b now then true
  else if lc_max_size c - Size b <=? maxUDPDatagramSize then true
  else false.

Section Pub.
  (** Whether the n-th call of Publish returns an error. *)
  Variable pubfail : nat -> bool.

  (** listener/listener.go:404-409: one iteration of the publish loop. *)
  Definition publish (s : lstate) (chunk : bytes) : lstate :=
    mkL (ls_batch s) (ls_received s) (ls_sent s) (ls_read_errors s)
        (if pubfail (length (ls_pub s)) then ls_failed s + 1 else ls_failed s)
        (ls_pub s ++ [chunk]).

  (** listener/listener.go:390-411 sendBatch; [now] is the clock reading of Reset. *)
  Definition sendBatch (s : lstate) (now : Z) : lstate :=
    if Size (ls_batch s) <? 1 then s
    else
      let s := mkL (ls_batch s) (ls_received s) (ls_sent s + 1) (ls_read_errors s) (ls_failed s) (ls_pub s) in
      let s := fold_left publish (split_all natsMax (Bytes (ls_batch s))) s in
      set_batch s (Reset (ls_batch s) now).

  (** listener/listener.go:365-369 maybeSendBatch: the age is read at [t1], the reset at [t2]. *)
  Definition maybeSendBatch (c : lconf) (s : lstate) (t1 t2 : Z) : lstate :=
    if shouldSend c (ls_batch s) t1 then sendBatch s t2 else s.

  (** What one iteration of the UDP loop sees: the datagram delivered (empty if none), the
      error of the read, and the clock readings in countWrite, Age and Reset. *)
  Record udp_in := mkU { u_data : bytes; u_err : rerr; u_t1 : Z; u_t2 : Z; u_t3 : Z }.

  (** listener/listener.go:188-205: one iteration of listenUDP. *)
  Definition udp_step (c : lconf) (s : lstate) (u : udp_in) : lstate :=
    let '(b, got, err) := ReadOnceFrom (ls_batch s) (u_data u) (u_err u) (u_t1 u) in
    let rderr := match err with ENone | ETimeout => ls_read_errors s | _ => ls_read_errors s + 1 end in
    let s :=
      match got with
      | [] => mkL b (ls_received s) (ls_sent s) rderr (ls_failed s) (ls_pub s)
      | _ => mkL (EnsureNewline b) (ls_received s + 1) (ls_sent s) rderr (ls_failed s) (ls_pub s)
      end in
    maybeSendBatch c s (u_t2 u) (u_t3 u).

  (** listener/listener.go:187-211: any number of iterations.  When the stop channel is
      closed the loop returns without sending the batch (listener/listener.go:207-209), so
      the state after Stop is the state after the last iteration. *)
  Definition udp_run (c : lconf) (s : lstate) (us : list udp_in) : lstate := fold_left (udp_step c) us s.

  (* ---------------------------------------------------------------- *)
  (** ** HTTP *)

  (** bufio.Scanner with scanLines (listener/listener.go:289-296, 313-329) over the bytes
      the request body delivers: the tokens are the lines including their newline; a line
      longer than the scanner's 64 KB buffer ends the scan with an error and the rest of
      the body is not read.  An unterminated last line must leave room for one more byte,
      unless ([eager]) the end of the body is reported by the Read that delivers its last
      byte.  That this is what the scanner does, Read call by Read call, is proved in
      Scanner.v. *)
  Definition scan_fits (eager : bool) (l : bytes) : bool :=
    if byte_at l (length l - 1) nl || eager then Z.of_nat (length l) <=? 65536 else Z.of_nat (length l) <? 65536.
  Fixpoint scan_tokens (eager : bool) (ls : list bytes) : list bytes * bool :=
    match ls with
    | [] => ([], false)
    | l :: ls' => if scan_fits eager l then let (ts, e) := scan_tokens eager ls' in (l :: ts, e) else ([], true)
    end.

  (** listener/listener.go:299-309: tokens of at most one byte are skipped, the others
      converted. *)
  Definition precision_segments (precision : bytes) (toks : list bytes) : list bytes :=
    map (fun l => applyTimestampPrecision l precision)
        (filter (fun l => negb (Nat.leb (length l) 1)) toks).

  (** A request being handled (listener/listener.go:249-265). Each constructor is a point
      between two lock-protected sections:
      [RNanos]: before readHTTPBodyNanos took the lock; [RLines]: remaining lines to append,
      whether any byte was read, and whether the scanner failed; [RMaybe]: before
      maybeSendBatch; [RDone]: answered 204, and whether any byte had been read. *)
  Inductive req :=
  | RNanos (body : bytes) (sched : list (nat * rerr))
  | RLines (segs : list bytes) (some : bool) (err : bool)
  | RMaybe (err : bool)
  | RDone (got : bool).

  (** A request: its precision parameter, its body, how the network delivers it to Read
      calls (nanosecond path), whether reading fails after the body was delivered
      (precision path; bufio.Scanner then still returns the unterminated last line), and
      whether the end of the body comes with its last byte (precision path). *)
  Record hreq := mkReq { q_precision : bytes; q_body : bytes; q_sched : list (nat * rerr); q_rderr : bool; q_eager : bool }.

  (** listener/listener.go:267-280: the state in which a request starts. *)
  Definition start_req (q : hreq) : req :=
    if beqs (q_precision q) [] || beqs (q_precision q) (lit "ns") then RNanos (q_body q) (q_sched q)
    else
      let (toks, e) := scan_tokens (q_eager q) (lines_of (q_body q)) in
      RLines (precision_segments (q_precision q) toks) (match toks with [] => false | _ => true end)
             (e || q_rderr q).

  (** The listener with its requests.  [h_log] is a ghost history of what was appended to
      the batch, by request number. *)
  Record hstate := mkH { h_l : lstate; h_reqs : list req; h_log : list (nat * bytes); h_wake : Z }.

  (** A scheduled step, with its clock reading: the next lock section of request [i], or
      the age sender waking up. *)
  Inductive hlabel := LReq (i : nat) | LAge.

  Fixpoint set_nth {A} (i : nat) (x : A) (l : list A) : list A :=
    match l, i with
    | [], _ => []
    | _ :: l', O => x :: l'
    | y :: l', S j => y :: set_nth j x l'
    end.

  Definition inc_received (s : lstate) : lstate :=
    mkL (ls_batch s) (ls_received s + 1) (ls_sent s) (ls_read_errors s) (ls_failed s) (ls_pub s).
  Definition inc_read_errors (s : lstate) (e : bool) : lstate :=
    mkL (ls_batch s) (ls_received s) (ls_sent s) (if e then ls_read_errors s + 1 else ls_read_errors s)
        (ls_failed s) (ls_pub s).

  (** One step of request [i]: listener/listener.go:249-311. A request blocked in Read
      (ReadFrom gives None) makes no step. *)
  Definition req_step (c : lconf) (h : hstate) (i : nat) (t : Z) : hstate :=
    match nth_error (h_reqs h) i with
    | Some (RNanos body sched) =>
        match ReadFrom (ls_batch (h_l h)) body sched t with
        | None => h
        | Some (b, tot, _, e) =>
            let e := match e with ENone => false | _ => true end in
            match tot with
            | [] => mkH (inc_read_errors (set_batch (h_l h) b) e) (set_nth i (RDone false) (h_reqs h)) (h_log h) (h_wake h)
            | _ => mkH (inc_received (set_batch (h_l h) b)) (set_nth i (RMaybe e) (h_reqs h))
                       (h_log h ++ [(i, tot)]) (h_wake h)
            end
        end
    | Some (RLines (l :: ls) some e) =>
        mkH (set_batch (h_l h) (Append (ls_batch (h_l h)) l t)) (set_nth i (RLines ls some e) (h_reqs h))
            (h_log h ++ [(i, l)]) (h_wake h)
    | Some (RLines [] some e) =>
        if some then mkH (inc_received (h_l h)) (set_nth i (RMaybe e) (h_reqs h)) (h_log h) (h_wake h)
        else mkH (inc_read_errors (h_l h) e) (set_nth i (RDone false) (h_reqs h)) (h_log h) (h_wake h)
    | Some (RMaybe e) =>
        mkH (inc_read_errors (maybeSendBatch c (h_l h) t t) e) (set_nth i (RDone true) (h_reqs h)) (h_log h) (h_wake h)
    | Some (RDone _) | None => h
    end.

  (** listener/listener.go:229-247 oldBatchSender: one wake-up at time [t]: send if old
      enough, then compute the next waiting time. *)
  Definition age_step (c : lconf) (h : hstate) (t : Z) : hstate :=
    let l := if lc_max_age c <=? Age (ls_batch (h_l h)) t then sendBatch (h_l h) t else h_l h in
    mkH l (h_reqs h) (h_log h) (t + (lc_max_age c - Age (ls_batch l) t)).

  Definition hstep (c : lconf) (h : hstate) (lab : hlabel * Z) : hstate :=
    match fst lab with
    | LReq i => req_step c h i (snd lab)
    | LAge => age_step c h (snd lab)
    end.

  Definition hrun (c : lconf) (h : hstate) (labs : list (hlabel * Z)) : hstate := fold_left (hstep c) labs h.

  (** listener/listener.go:213-224, 229-234: start at time [t0]; the age sender computes its
      first waiting time. *)
  Definition hinit (c : lconf) (t0 : Z) (qs : list hreq) : hstate :=
    mkH (newListener c t0) (map start_req qs) [] (t0 + lc_max_age c).
End Pub.
