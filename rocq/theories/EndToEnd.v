(** The pipeline: a UDP listener, a filter and a writer connected by NATS.

    NATS is not part of the repository.  It is taken to deliver every message that was published without error once to
    one consumer of its subject; the statements say so explicitly.  This file defines what is measured at the ends. *)
From Verif Require Import Base LinesSpec Text Rules RulesSpec FilterWorker FilterSpec FilterProofs Listener ListenerSpec Retry RetrySpec Writer WriterSpec.
Local Open Scope Z_scope.

(** The lines that arrived at the listener (listener/listener.go:151-185). *)
Definition sent_lines (us : list udp_in) : list bytes := flat_map lines_of (arrived us).

(** A UDP listener at rest: every datagram handled so far has been published. *)
Definition udp_source (lc : lconf) (us : list udp_in) (sent msgs : list bytes) : Prop :=
  0 <= lc_max_size lc <= 1048576 /\ Forall (fun u => Z.of_nat (length (u_data u)) <= 65536) us /\
  exists pf t0, let l := udp_run pf lc (newListener lc t0) us in
    Batch.Bytes (ls_batch l) = [] /\ msgs = ls_pub l /\ sent = sent_lines us.

(** An HTTP listener at rest: every request has been answered, none failed, and everything has been published; the
    bodies end in a newline (C20) and the lines fit a NATS message.  The lines sent are those of the bodies, with
    timestamps in nanoseconds. *)
Definition http_source (lc : lconf) (qs : list hreq) (sent msgs : list bytes) : Prop :=
  0 <= lc_max_size lc /\ Forall (fun q => nl_ended (q_body q)) qs /\
  (forall q u l, In q qs -> In u (expected q) -> In l (lines_of u) -> Z.of_nat (length l) <= 1048576) /\
  exists pf t0 labs, let h := hrun pf lc (hinit lc t0 qs) labs in
    ls_read_errors (h_l h) = 0 /\ (forall r, In r (h_reqs h) -> exists got, r = RDone got) /\
    Batch.Bytes (ls_batch (h_l h)) = [] /\ msgs = ls_pub (h_l h) /\ sent = flat_map lines_of (flat_map expected qs).

(** The messages of the filter that NATS accepted, on one of the given subjects (filter/worker.go:137-161). *)
Definition on_subjects (subs : list bytes) (acts : list act) : list bytes :=
  flat_map (fun a => match a with
                     | APublish s d true => if existsb (beqs s) subs then [d] else []
                     | _ => []
                     end) acts.

(** Where a line belongs: the subject of the first rule that is meant to match it, else the junk subject. *)
Definition belongs (rs : list rule) (junk line subject : bytes) : Prop :=
  exists m tags rest o, ParseTags line = POk m tags rest /\ first_such (fun r => means (r_match r) m tags line) rs o /\
    match o with
    | Some i => exists r, nth_error rs i = Some r /\ r_subject r = subject
    | None => subject = junk
    end.

(** What should arrive on the subjects for a line that the filter handles at time [now]: nothing if its time is outside
    the window, if it is malformed or if it belongs elsewhere; otherwise the line, with its tags in key order. *)
Inductive forwarded (c : fcfg) (subs : list bytes) (now : Z) (line : bytes) : list bytes -> Prop :=
| fw_time ts : line_time now line ts -> ~ (now - fc_delta c < ts < now + fc_delta c) -> forwarded c subs now line []
| fw_bad : ParseTags line = PErr -> forwarded c subs now line []
| fw_to ts m tags rest text o subject :
    line_time now line ts -> now - fc_delta c < ts < now + fc_delta c ->
    ParseTags line = POk m tags rest -> sorted_text line m tags rest text ->
    first_such (fun r => means (r_match r) m tags text) (fc_rules c) o ->
    match o with
    | Some i => exists r, nth_error (fc_rules c) i = Some r /\ r_subject r = subject
    | None => subject = fc_junk c
    end ->
    forwarded c subs now line (if existsb (beqs subject) subs then [text] else []).

(** A line for which the filter does what is meant: not affected by C25 and C27, and not one without fields whose tags
    are out of order. *)
Definition sound_line (c : fcfg) (line : bytes) : Prop :=
  clean (fc_rules c) line /\ forall m tags rest, ParseTags line = POk m tags rest -> keys_sorted tags \/ rest <> [].

(** A line the filter forwards unchanged when it handles it at time [now]: in the time window, well-formed, tags in
    order, and not affected by C25 and C27. *)
Definition passes (c : fcfg) (now : Z) (line : bytes) : Prop :=
  (exists ts, line_time now line ts /\ now - fc_delta c < ts < now + fc_delta c) /\
  (exists m tags rest, ParseTags line = POk m tags rest /\ keys_sorted tags) /\ clean (fc_rules c) line.

(** [sel] tells which lines belong on one of the subjects. *)
Definition selects (c : fcfg) (subs : list bytes) (sel : bytes -> bool) (line : bytes) : Prop :=
  sel line = true <-> exists s, In s subs /\ belongs (fc_rules c) (fc_junk c) line s.

(** The clock readings of the filter are away from the ends of the int64 range. *)
Definition time_ok (c : fcfg) (j : job) : Prop :=
  let '(_, now, _) := j in int64 (now - fc_delta c) /\ int64 (now + fc_delta c).

(** A worker of the writer: its configuration, its history, where that led and what could be observed. *)
Record wworker := WW { ww_cfg : wcfg; ww_cap : Z; ww_now : Z; ww_labels : list wlabel; ww_state : wst; ww_trace : list wobs }.
Definition ww_ok (w : wworker) : Prop :=
  (1 <= wc_size (ww_cfg w))%nat /\ 0 <= ww_cap w /\ wrun (ww_cfg w) (newWorker (ww_cap w) (ww_now w)) (ww_labels w) = Some (ww_state w, ww_trace w).

(** What InfluxDB acknowledged: bodies answered 2xx, at the first attempt or in a retry. *)
Definition acknowledged (tr : list wobs) : list bytes :=
  map (fun p => snd (fst p)) (filter (fun p => ok (snd p)) (posts tr)) ++ map snd (delivered (retries tr)).

(** Everything a worker was given has been sent and is not waiting for a retry or given up. *)
Definition settled_ok (w : wworker) : Prop :=
  held (ww_state w) = [] /\
  (wc_retry (ww_cfg w) <= 0 -> failures (ww_trace w) = []) /\
  (1 <= wc_retry (ww_cfg w) -> map rb_buf (r_q (w_retry (ww_state w))) = [] /\ passing (ww_state w) = [] /\
     rejected (retries (ww_trace w)) = [] /\ expired (retries (ww_trace w)) = [] /\ evicted (retries (ww_trace w)) = []).

(** The lines the filter handled, each with the clock reading of its batch. *)
Definition handled (fl : list flabel) : list (Z * bytes) :=
  flat_map (fun j : job => let '(_, now, m) := j in map (fun l => (now, l)) (lines_of m)) (taken fl).

(** The lines handed to InfluxDB by the workers of the writer, and those still in their buffers. *)
Definition in_writer (ws : list wworker) : list bytes :=
  flat_map (fun w => flat_map lines_of (bodies (ww_trace w)) ++ lines_of (held (ww_state w))) ws.
(** The lines InfluxDB acknowledged. *)
Definition in_influxdb (ws : list wworker) : list bytes := flat_map (fun w => flat_map lines_of (acknowledged (ww_trace w))) ws.

(** A writer that takes part: without rules, its buffer holds every line. *)
Definition plain_writer (w : wworker) : Prop :=
  ww_ok w /\ wc_rules (ww_cfg w) = [] /\ Forall (fun l => (length l <= wc_size (ww_cfg w))%nat) (flat_map lines_of (map snd (messages (ww_trace w)))).

(** Each published message reached one worker of the writer. *)
Definition delivered_to (subs : list bytes) (fl : list flabel) (ws : list wworker) : Prop :=
  Permutation (flat_map (fun w => map snd (messages (ww_trace w))) ws) (on_subjects subs (performed fl)).

(** A listener and a filter with [n] workers at rest: everything sent went into messages, every message reached the
    filter, the workers of the filter finished, and NATS took what they published. *)
Definition pipe (gs : forall A : Type, (A -> A -> bool) -> list A -> list A) (sent msgs : list bytes) (c : fcfg) (n : nat) (fl : list flabel) (s : fsys) : Prop :=
  sorts gs /\ ((exists lc us, udp_source lc us sent msgs) \/ (exists lc qs, http_source lc qs sent msgs)) /\
  Permutation (received fl) msgs /\ fexec gs c (startFilter c n) fl s /\ quiet s /\ Forall (time_ok c) (taken fl) /\
  Forall (sound_line c) sent /\ count_publish_failures (performed fl) = 0%nat.
