(** C112: write_timeout.  README.md:464-466: the maximum amount of time a writer will wait for an InfluxDB write to
    complete; writes which time out will be dropped.

    [trun c T (newWorker cap start, start) ls = Some ((w, now), tr)]: from [start] on a worker and its retry goroutine,
    with write_timeout [T], went through [ls], and did [tr]. *)
From Verif Require Import Base Text LinesSpec Batch BatchProofs Splitter SplitterProofs Rules RulesSpec RulesProofs Retry RetrySpec RetryProofs RetryMain
  Writer WriterSpec WriterProofs WriterMain WriterTop Config ConfigSpec ConfigProofs Timeout TimeoutProofs.
Local Open Scope Z_scope.

(** One write: it ends within the timeout, with the answer if that comes in time and without one otherwise. *)
Theorem C112_one_write T a : 0 < T -> exists d r, Do T a = Some (d, r) /\ d <= T /\
  (match a with
   | Silent => r = NoResponse /\ d = T
   | After d0 r0 => (d0 <= T -> d = d0 /\ r = r0) /\ (T < d0 -> d = T /\ r = NoResponse)
   end).
Proof. exact (do_returns T a). Qed.
Print Assumptions C112_one_write.

(** A batch of [n] chunks, without retries: whatever InfluxDB does with each of the requests, the worker has sent all of
    it and receives messages again after at most [n] timeouts. *)
Theorem C112_batch c T rest w now answers : wc_retry c <= 0 -> 0 < T ->
  w_pc w = (match rest with [] => WIdle | _ => WSend rest end) -> length answers = length rest ->
  exists w' now' tr, trun c T (w, now) (map TPost answers) = Some ((w', now'), tr) /\ w_pc w' = WIdle /\
    now' <= now + Z.of_nat (length rest) * T /\ bodies tr = rest /\ retries tr = [].
Proof. exact (fun Hr HT => send_off c T Hr HT rest w now answers). Qed.
Print Assumptions C112_batch.

(** With retries, a worker whose write failed waits for the retry goroutine to take the chunk: at most until the end of
    the write that goroutine is in, so at most a timeout after that write began; whatever the answer to it is. *)
Theorem C112_handover c T cap start ls w now tr a rest : (1 <= wc_size c)%nat -> 0 < T -> 0 <= cap ->
  trun c T (newWorker cap start, start) ls = Some ((w, now), tr) -> w_pc w = WHand a rest ->
  forall ans, (match ans with After d _ => 0 <= d | Silent => True end) -> exists ls' w' now' tr',
    (length ls' <= 3)%nat /\ (forall l, In l ls' -> l = TRetry ans \/ exists m, l = TMove m) /\
    trun c T (w, now) ls' = Some ((w', now'), tr') /\ In (VHand a) tr' /\
    w_pc w' = (match rest with [] => WIdle | _ => WSend rest end) /\ now' <= Z.max now (r_now (w_retry w) + T).
Proof. exact (fun Hs HT Hc => hand_timed c T Hs HT cap start ls w now tr a rest Hc). Qed.
Print Assumptions C112_handover.

(** Every attempt of the retry goroutine ends at most a timeout after it began; so the last attempt for a batch has ended
    writer_retry_timeout and write_timeout after the batch was handed over. *)
Theorem C112_attempts c T cap start ls w now tr : (1 <= wc_size c)%nat -> 0 <= cap -> 0 < T -> Forall sane ls ->
  trun c T (newWorker cap start, start) ls = Some ((w, now), tr) ->
  forall l1 te a o l2, retries tr = l1 ++ OEnd te a o :: l2 ->
    exists l0 t t0, l1 = l0 ++ [OStart t a] /\ t <= te <= t + T /\ In (OAdd t0 a) l0 /\ t0 <= t /\ te <= t0 + wc_ttl c + T.
Proof. exact (attempts_end c T cap start ls w now tr). Qed.
Print Assumptions C112_attempts.

(** Writes which time out are dropped if retrying is off (writer_retry_batches = 0): no chunk is ever posted twice. *)
Theorem C112_dropped_partial c T cap start ls w now tr : (1 <= wc_size c)%nat -> 0 <= cap -> wc_retry c <= 0 ->
  trun c T (newWorker cap start, start) ls = Some ((w, now), tr) ->
  forall l1 k b r l2, posts tr = l1 ++ ((k, b), r) :: l2 -> ~ In k (map (fun p => fst (fst p)) (l1 ++ l2)) /\ retries tr = [].
Proof. exact (not_again c T cap start ls w now tr). Qed.
Print Assumptions C112_dropped_partial.

(** Otherwise they are not: a chunk whose write timed out is on its way to the retry goroutine, or queued there, or it has
    been delivered, rejected, expired or evicted there. *)
Theorem C112_kept c T cap start ls w now tr : (1 <= wc_size c)%nat -> 0 <= cap -> 1 <= wc_retry c ->
  trun c T (newWorker cap start, start) ls = Some ((w, now), tr) ->
  forall a, In (a, NoResponse) (posts tr) ->
    In a (passing w ++ map rb_buf (r_q (w_retry w)) ++ delivered (retries tr) ++ rejected (retries tr) ++ expired (retries tr) ++ evicted (retries tr)).
Proof. exact (kept_on c T cap start ls w now tr). Qed.
Print Assumptions C112_kept.

(** With the default settings (one batch to retry, every 10 s, for a minute; a timeout of 30 s; here a batch is sent when
    the first message is in): InfluxDB does not answer the first write; 10 s after the timeout the same data is posted
    again, and stored. *)
Definition defaults : wcfg := mkWC 1 100 (10 * 1000000000) [] 1 (60 * 1000000000) (10 * 1000000000).
Definition retried_write : list tlabel :=
  [TMove (PMsg 0 0 (lit "a")); TPost Silent; TMove (PHand (30 * 1000000000)); TMove (PIn (30 * 1000000000) (30 * 1000000000));
   TMove (PRetry (LFire (40 * 1000000000) (40 * 1000000000))); TRetry (After 0 (Status 204))].
Theorem C112_dropped_refuted : exists w now tr, trun defaults (30 * 1000000000) (newWorker 0 0, 0) retried_write = Some ((w, now), tr) /\
  posts tr = [((0%nat, lit "a"), NoResponse)] /\ delivered (retries tr) = [(0%nat, lit "a")].
Proof. do 3 eexists. split; [vm_compute; reflexivity|]. split; vm_compute; reflexivity. Qed.
Print Assumptions C112_dropped_refuted.

(** A write_timeout of zero or less is accepted, and then there is no maximum: if InfluxDB never answers, the worker
    stays in that write; it receives no message any more, posts nothing, and Stop waits for it for ever. *)
Theorem C112_no_timeout_refuted c T rest ls w now s' tr : T <= 0 -> Forall silent ls -> w_pc w = WSend rest ->
  trun c T (w, now) ls = Some (s', tr) ->
  w_pc (fst s') = WSend rest /\ w_received (fst s') = w_received w /\ messages tr = [] /\ posts tr = [].
Proof. exact (fun HT Si P => stuck c T rest HT ls (w, now) s' tr Si P). Qed.
Print Assumptions C112_no_timeout_refuted.

(** An answer which does come, however late, is used then. *)
Theorem C112_waits T d r : T <= 0 -> Do T (After d r) = Some (d, r) /\ Do T Silent = None.
Proof.
  intros H. cbn [Do]. replace (0 <? T) with false by (symmetry; apply Z.ltb_ge; exact H). split; reflexivity.
Qed.
Print Assumptions C112_waits.

Theorem C112_unchecked v c : Validate (set_timeout v c) = Validate c /\ c_write_timeout (set_timeout v c) = v.
Proof. exact (conj (timeout_unchecked v c) eq_refl). Qed.
Print Assumptions C112_unchecked.

(** Cases. *)
Example C112_cases : Do 30 (After 30 (Status 204)) = Some (30, Status 204) /\ Do 30 (After 31 (Status 204)) = Some (30, NoResponse) /\
  Do 30 Silent = Some (30, NoResponse) /\ Do 0 (After 100 (Status 204)) = Some (100, Status 204) /\ Do 0 Silent = None.
Proof. repeat split. Qed.
Example C112_sane : Forall sane retried_write.
Proof. repeat constructor; cbn; lia. Qed.
(** Two chunks, both unanswered, no retries: after twice the timeout the worker is back. *)
Example C112_batch_case : exists w tr,
  trun (mkWC 1 2 10 [] 0 60 10) 30 (newWorker 0 0, 0) [TMove (PMsg 5 5 (lit "abc")); TPost Silent; TPost Silent] = Some ((w, 65), tr) /\
  w_pc w = WIdle /\ bodies tr = [lit "ab"; lit "c"].
Proof. do 2 eexists. split; [vm_compute; reflexivity|]. split; reflexivity. Qed.
(** A worker waiting to hand over its second chunk while the retry goroutine is in the write of an earlier one. *)
Example C112_handover_case : exists w now tr a,
  trun (mkWC 1 2 10 [] 2 600 1) 30 (newWorker 0 0, 0)
    [TMove (PMsg 5 5 (lit "abcdef")); TPost Silent; TMove (PHand 35); TMove (PIn 35 35); TPost (After 5 (Status 500)); TMove (PHand 40);
     TMove (PRetry (LFire 50 50)); TPost (After 10 NoResponse)] = Some ((w, now), tr) /\
  w_pc w = WHand a [] /\ r_ph (w_retry w) = RWriting (0%nat, lit "ab") /\ w_chan w = Some (1%nat, lit "cd") /\ now = 50.
Proof. do 4 eexists. split; [vm_compute; reflexivity|]. split; [reflexivity|]. split; [reflexivity|]. split; reflexivity. Qed.
Example C112_stuck_case : exists w now tr, trun defaults 0 (newWorker 0 0, 0) [TMove (PMsg 0 0 (lit "a")); TMove PClose] = Some ((w, now), tr) /\
  w_pc w = WSend [lit "a"] /\ w_closed w = true.
Proof. do 3 eexists. split; [vm_compute; reflexivity|]. split; reflexivity. Qed.
