(** Property theorems C39-C46, C58-C60: the writer and its retry goroutine.

    A run of the retry goroutine alone is [rrun max ttl interval (newRetry now) ls = Some (s, tr)]: any list
    [ls] of batches arriving, timer expiries, write results and clock readings that it can go through.
    A run of a worker together with its retry goroutine is [wrun c (newWorker cap now) ls = Some (s, tr)]: any
    interleaving of the two with any messages, clock readings and database answers. *)
From Verif Require Import Base Text LinesSpec Batch BatchProofs Splitter SplitterProofs Rules RulesSpec RulesProofs
  Retry RetrySpec RetryProofs RetryMain Writer WriterSpec WriterProofs WriterMain WriterTop.
Local Open Scope Z_scope.

(** A run used as the concrete case: two batches allowed, time to live 60, interval 10.  [1] fails once and
    is cycled behind [2]; [2] is delivered; [3] arrives; [4] evicts [1], the oldest; [3] is rejected; [4] expires. *)
Definition retry_case : list (rlabel nat) :=
  [LIn 0 0 1%nat; LIn 1 1 2%nat; LFire 10 10; LEnd 12 WTemp; LFire 22 22; LEnd 23 WOk;
   LIn 24 24 3%nat; LIn 25 25 4%nat; LFire 40 40; LEnd 41 WPerm; LFire 100 100].
Definition retry_case_trace : list (robs nat) :=
  [OAdd 0 1%nat; OAdd 1 2%nat; OStart 10 1%nat; OEnd 12 1%nat WTemp; OStart 22 2%nat; OEnd 23 2%nat WOk;
   OAdd 24 3%nat; OEvict 1%nat; OAdd 25 4%nat; OStart 40 3%nat; OEnd 41 3%nat WPerm; OExpire 100 4%nat].
Example retry_case_runs : exists s, rrun 2 60 10 (newRetry 0) retry_case = Some (s, retry_case_trace) /\ r_q s = [].
Proof. eexists. split; [vm_compute; reflexivity|reflexivity]. Qed.
Example retry_case_distinct : NoDup (added retry_case_trace).
Proof. cbn. repeat (constructor; [cbn; intuition discriminate|]). constructor. Qed.

(** C39: the queue never holds more than the configured number of batches. *)
Theorem C39_bounded : forall A max ttl interval now ls (s : rstate A) tr, 1 <= max ->
  rrun max ttl interval (newRetry now) ls = Some (s, tr) -> Z.of_nat (length (r_q s)) <= max.
Proof.
  exact (fun A max ttl i now ls s tr Hm H => iv_len _ _ _ _ _ _ (reach_inv A max ttl i Hm now s tr (run_reach A max ttl i Hm now ls s tr H))).
Qed.
Print Assumptions C39_bounded.

(** The same inside the writer, also when retrying is off. *)
Theorem C39_bounded_in_writer : forall c cap now ls s tr, (1 <= wc_size c)%nat -> 0 <= cap -> 0 <= wc_retry c ->
  wrun c (newWorker cap now) ls = Some (s, tr) -> Z.of_nat (length (r_q (w_retry s))) <= wc_retry c.
Proof. exact (fun c cap now ls s tr Hs => pair_bounded c Hs cap now ls s tr). Qed.
Print Assumptions C39_bounded_in_writer.

(** C40: every batch handed in is, unchanged and exactly once, still queued, delivered, rejected, expired or evicted. *)
Theorem C40_conservation : forall A max ttl interval now ls (s : rstate A) tr, 1 <= max ->
  rrun max ttl interval (newRetry now) ls = Some (s, tr) ->
  Permutation (added tr) (map rb_buf (r_q s) ++ delivered tr ++ rejected tr ++ expired tr ++ evicted tr).
Proof.
  exact (fun A max ttl i now ls s tr Hm H => iv_perm _ _ _ _ _ _ (reach_inv A max ttl i Hm now s tr (run_reach A max ttl i Hm now ls s tr H))).
Qed.
Print Assumptions C40_conservation.

(** The same for the writer: the chunks whose first POST failed.  They reach the retry goroutine in order;
    [passing] are those on the way. *)
Theorem C40_writer : forall c cap now ls s tr, (1 <= wc_size c)%nat -> 0 <= cap -> 1 <= wc_retry c ->
  wrun c (newWorker cap now) ls = Some (s, tr) ->
  Permutation (failures tr)
    (map rb_buf (r_q (w_retry s)) ++ passing s ++ delivered (retries tr) ++ rejected (retries tr) ++ expired (retries tr) ++ evicted (retries tr)) /\
  failures tr = added (retries tr) ++ passing s /\ NoDup (failures tr).
Proof. exact (fun c cap now ls s tr Hs => pair_conservation c Hs cap now ls s tr). Qed.
Print Assumptions C40_writer.

(** With writer_retry_batches = 0 there are no retries at all. *)
Theorem C40_no_retries : forall c cap now ls s tr, (1 <= wc_size c)%nat -> 0 <= cap -> wc_retry c <= 0 ->
  wrun c (newWorker cap now) ls = Some (s, tr) -> retries tr = [] /\ passing s = [].
Proof. exact (fun c cap now ls s tr Hs => pair_off c Hs cap now ls s tr). Qed.
Print Assumptions C40_no_retries.

Example C40_case : delivered retry_case_trace = [2%nat] /\ rejected retry_case_trace = [3%nat] /\ expired retry_case_trace = [4%nat] /\ evicted retry_case_trace = [1%nat].
Proof. repeat split. Qed.

(** C41 (see [well_timed]): interval and time to live. *)
Theorem C41_interval_and_ttl : forall A max ttl interval now ls (s : rstate A) tr, 1 <= max ->
  rrun max ttl interval (newRetry now) ls = Some (s, tr) -> well_timed ttl interval tr.
Proof. exact (fun A max ttl i now ls s tr Hm H => timed A max ttl i Hm now s tr (run_reach A max ttl i Hm now ls s tr H)). Qed.
Print Assumptions C41_interval_and_ttl.

Theorem C41_in_writer : forall c cap now ls s tr, (1 <= wc_size c)%nat -> 0 <= cap ->
  wrun c (newWorker cap now) ls = Some (s, tr) -> well_timed (wc_ttl c) (wc_interval c) (retries tr).
Proof. exact (fun c cap now ls s tr Hs => pair_timed c Hs cap now ls s tr). Qed.
Print Assumptions C41_in_writer.

(** The timer is armed whenever the goroutine waits with a non-empty queue, for at most [interval] after its
    last move, and when it expires the goroutine can go on: batches are not forgotten. *)
Theorem C41_armed : forall A max ttl interval now ls (s : rstate A) tr, 1 <= max ->
  rrun max ttl interval (newRetry now) ls = Some (s, tr) -> r_ph s = RIdle -> r_q s <> [] ->
  exists d, r_next s = Some d /\ d <= r_now s + interval /\
    forall t t', r_now s <= t -> d <= t -> t <= t' -> exists s' o, rstep max ttl interval s (LFire t t') = Some (s', o) /\ o <> [].
Proof. exact (fun A max ttl i now ls s tr Hm H => armed A max ttl i Hm now s tr (run_reach A max ttl i Hm now ls s tr H)). Qed.
Print Assumptions C41_armed.

(** C42: eviction removes a batch with the smallest expiry time (the first of them); the others keep their order. *)
Theorem C42_removeOldest : forall A (q : list (retryBatch A)), q <> [] ->
  exists l1 b l2, q = l1 ++ b :: l2 /\ removeOldest q = (l1 ++ l2, [rb_buf b]) /\
    Forall (fun x => rb_ttl b < rb_ttl x) l1 /\ Forall (fun x => rb_ttl b <= rb_ttl x) l2.
Proof. exact removeOldest_spec. Qed.
Print Assumptions C42_removeOldest.

Theorem C42_evicts_oldest : forall A max ttl interval now ls (s : rstate A) tr, 1 <= max ->
  rrun max ttl interval (newRetry now) ls = Some (s, tr) -> NoDup (added tr) -> evicts_oldest max tr.
Proof. exact (fun A max ttl i now ls s tr Hm H => evict_history A max ttl i Hm now s tr (run_reach A max ttl i Hm now ls s tr H)). Qed.
Print Assumptions C42_evicts_oldest.

(** In the writer the batches are the numbered chunks, so no condition is needed. *)
Theorem C42_in_writer : forall c cap now ls s tr, (1 <= wc_size c)%nat -> 0 <= cap ->
  wrun c (newWorker cap now) ls = Some (s, tr) -> evicts_oldest (wc_retry c) (retries tr).
Proof. exact (fun c cap now ls s tr Hs => pair_evicts c Hs cap now ls s tr). Qed.
Print Assumptions C42_in_writer.

(** C43: how the result of a POST is classified. *)
Theorem C43_classes : forall r,
  (Write r = WOk <-> exists code, r = Status code /\ 200 <= code <= 299) /\
  (Write r = WPerm <-> r = BadRequest \/ exists code, r = Status code /\ 400 <= code <= 499) /\
  (Write r = WTemp <-> r = NoResponse \/ exists code, r = Status code /\ ~ 200 <= code <= 299 /\ ~ 400 <= code <= 499).
Proof. exact Write_classes. Qed.
Print Assumptions C43_classes.

(** After success, permanent error, expiry or eviction a batch is never sent again by the retry goroutine. *)
Theorem C43_never_again_partial : forall A max ttl interval now ls (s : rstate A) tr, 1 <= max ->
  rrun max ttl interval (newRetry now) ls = Some (s, tr) -> NoDup (added tr) -> final tr.
Proof. exact (fun A max ttl i now ls s tr Hm H => never_attempted A max ttl i Hm now s tr (run_reach A max ttl i Hm now ls s tr H)). Qed.
Print Assumptions C43_never_again_partial.

Theorem C43_in_writer_partial : forall c cap now ls s tr, (1 <= wc_size c)%nat -> 0 <= cap ->
  wrun c (newWorker cap now) ls = Some (s, tr) ->
  final (retries tr) /\ forall a, In a (added (retries tr)) -> In a (failures tr).
Proof. exact (fun c cap now ls s tr Hs => pair_final c Hs cap now ls s tr). Qed.
Print Assumptions C43_in_writer_partial.

(** What is missing: a 4xx answer to the first POST does not prevent retries.  False for every such code. *)
Theorem C43_first_attempt_refuted : forall code, 400 <= code <= 499 ->
  exists c ls s tr a t, (1 <= wc_size c)%nat /\ wrun c (newWorker 0 0) ls = Some (s, tr) /\
    In (a, Status code) (posts tr) /\ In (t, a) (attempts (retries tr)).
Proof. exact first_4xx_retried. Qed.
Print Assumptions C43_first_attempt_refuted.

(** C44: the bodies POSTed, followed by what the worker holds, are the accepted data of the messages, in
    order; first attempts are numbered in order; bodies are not empty and fit the limit of C11. *)
Theorem C44_lossless : forall c cap now ls s tr, (1 <= wc_size c)%nat -> 0 <= cap ->
  wrun c (newWorker cap now) ls = Some (s, tr) ->
  concat (bodies tr) ++ held s = input (wc_rules c) tr /\
  map (fun p => fst (fst p)) (posts tr) = seq 0 (length (posts tr)) /\
  Forall (fun b => b <> [] /\ (length b <= wc_size c \/ length b = wc_size c + 1 /\ exists p, b = p ++ [nl])%nat) (bodies tr).
Proof. exact (fun c cap now ls s tr Hs => pair_data c Hs cap now ls s tr). Qed.
Print Assumptions C44_lossless.

(** If the accepted data are whole lines no longer than the limit, so is every body: no line is torn. *)
Theorem C44_whole_lines : forall c cap now ls s tr, (1 <= wc_size c)%nat -> 0 <= cap ->
  wrun c (newWorker cap now) ls = Some (s, tr) ->
  Forall (fun m => nl_ended (accepted (wc_rules c) (snd m)) /\
    Forall (fun l => (length l <= wc_size c)%nat) (lines_of (accepted (wc_rules c) (snd m)))) (messages tr) ->
  Forall nl_ended (bodies tr).
Proof. exact (fun c cap now ls s tr Hs => pair_lines c Hs cap now ls s tr). Qed.
Print Assumptions C44_whole_lines.

(** Which lines are accepted: all of the message without rules; with rules the lines of the message for which some
    rule's condition (see C24 for [means]) holds. *)
Theorem C44_accepted : forall rs data,
  (rs = [] -> accepted rs data = data) /\
  (rs <> [] -> exists keep, accepted rs data = concat (filter keep (lines_of data)) /\
     forall line, match ParseTags line with
                  | POk m tags rest => no_collision rs m -> keep line = true <-> exists r, In r rs /\ means (r_match r) m tags line
                  | _ => keep line = false
                  end).
Proof. exact accepted_meaning. Qed.
Print Assumptions C44_accepted.

(** C45: the pair cannot deadlock: as long as the worker has not returned some move other than closing is possible; ... *)
Theorem C45_can_move : forall c cap now ls s tr, (1 <= wc_size c)%nat -> 0 <= cap ->
  wrun c (newWorker cap now) ls = Some (s, tr) -> w_pc s <> WStopped ->
  exists l s' o, l <> PClose /\ wstep c s l = Some (s', o).
Proof. exact (fun c cap now ls s tr Hs => can_move c Hs cap now ls s tr). Qed.
Print Assumptions C45_can_move.

(** ... a pending hand-over completes after at most two moves of the retry goroutine, whatever the database answers; ... *)
Theorem C45_handover : forall c cap now ls s tr a rest, (1 <= wc_size c)%nat -> 0 <= cap ->
  wrun c (newWorker cap now) ls = Some (s, tr) -> w_pc s = WHand a rest ->
  forced c (fun s' => w_pc s' = match rest with [] => WIdle | _ => WSend rest end) 3 s.
Proof. exact (fun c cap now ls s tr a rest Hs => can_hand c Hs cap now ls s tr a rest). Qed.
Print Assumptions C45_handover.

(** ... and from everywhere the worker can be brought to return: four moves for each chunk left, and eight. *)
Theorem C45_can_stop : forall c cap now ls s tr, (1 <= wc_size c)%nat -> 0 <= cap ->
  wrun c (newWorker cap now) ls = Some (s, tr) ->
  forced c (fun s' => w_pc s' = WStopped) (8 + 4 * length (match w_pc s with WSend rest | WHand _ rest => rest | _ => [] end)) s.
Proof. exact (fun c cap now ls s tr Hs => can_stop c Hs cap now ls s tr). Qed.
Print Assumptions C45_can_stop.

(** A run of the pair: two messages make a batch that is split in two; both POSTs fail; the first chunk is retried with
    success; the second is queued when the worker is stopped with one write pending. *)
Definition case_cfg : wcfg := mkWC 2 8 100 [] 2 60 10.
Definition case_run : list wlabel :=
  [PMsg 0 0 (lit "a f=1
"); PMsg 1 1 (lit "b f=2
"); PPost (Status 400) 2; PHand 3; PIn 3 3; PPost (Status 503) 4; PHand 5; PIn 5 5; PRetry (LFire 13 13); PRetry (LEnd 14 WOk);
   PTookWrite 15; PMsg 20 20 (lit "c f=3
"); PClose; PStop; PRetry LStop; PDone].
Example writer_case : match wrun case_cfg (newWorker 0 0) case_run with
  | Some (s, tr) => bodies tr = [lit "a f=1
"; lit "b f=2
"] /\ held s = lit "c f=3
" /\ delivered (retries tr) = [(0%nat, lit "a f=1
")] /\ map rb_buf (r_q (w_retry s)) = [(1%nat, lit "b f=2
")] /\ w_pc s = WStopped /\ w_requests s = 2 /\ w_failed s = 2
  | None => False
  end.
Proof. vm_compute. repeat split. Qed.

(** C46: what the counters count.  received: messages.  write_requests: flushes of a batch plus the reports of retry
    attempts taken so far; failed_writes: failed first POSTs plus the reports of failed retries taken so far.  Reports are
    lost only if more than 4 * writer_retry_batches attempts were made in all. *)
Theorem C46_counts_partial : forall c cap now ls s tr, (1 <= wc_size c)%nat -> 0 <= cap ->
  wrun c (newWorker cap now) ls = Some (s, tr) ->
  w_received s = count is_msg tr /\
  w_requests s = count is_send tr + count is_took_write tr /\
  w_failed s = count is_failed_post tr + count is_took_err tr /\
  0 <= r_writes (w_retry s) /\ 0 <= r_errs (w_retry s) /\
  (exists lost, 0 <= lost /\ count is_took_write tr + r_writes (w_retry s) + lost = count is_attempt tr /\
     (0 < lost -> wc_retry c * 4 < count is_attempt tr)) /\
  (exists lost, 0 <= lost /\ count is_took_err tr + r_errs (w_retry s) + lost = count is_failed_attempt tr /\
     (0 < lost -> wc_retry c * 4 < count is_failed_attempt tr)).
Proof. exact (fun c cap now ls s tr Hs => pair_counts c Hs cap now ls s tr). Qed.
Print Assumptions C46_counts_partial.

(** What is missing is false of the code: for every n there is a run, without retries, with one request counted but n
    POSTs made and n failures counted. *)
Theorem C46_refuted : forall n, (1 <= n)%nat -> exists c ls s tr, (1 <= wc_size c)%nat /\ wrun c (newWorker 0 0) ls = Some (s, tr) /\
  w_requests s = 1 /\ count is_post tr = Z.of_nat n /\ w_failed s = Z.of_nat n.
Proof. exact split_counts_once. Qed.
Print Assumptions C46_refuted.

(** C58: between two attempts of a batch every other waiting batch is attempted, or expires, or is evicted. *)
Theorem C58_fair : forall A max ttl interval now ls (s : rstate A) tr, 1 <= max ->
  rrun max ttl interval (newRetry now) ls = Some (s, tr) -> NoDup (added tr) -> fair_turns tr.
Proof. exact (fun A max ttl i now ls s tr Hm H => fair A max ttl i Hm now s tr (run_reach A max ttl i Hm now ls s tr H)). Qed.
Print Assumptions C58_fair.

Theorem C58_in_writer : forall c cap now ls s tr, (1 <= wc_size c)%nat -> 0 <= cap ->
  wrun c (newWorker cap now) ls = Some (s, tr) -> fair_turns (retries tr).
Proof. exact (fun c cap now ls s tr Hs => pair_fair c Hs cap now ls s tr). Qed.
Print Assumptions C58_in_writer.

Example C58_case : exists s tr, rrun 2 60 10 (newRetry 0) [LIn 0 0 1%nat; LIn 1 1 2%nat; LFire 10 10; LEnd 11 WTemp; LFire 21 21; LEnd 22 WTemp; LFire 32 32] = Some (s, tr) /\
  tr = [OAdd 0 1%nat; OAdd 1 2%nat] ++ OStart 10 1%nat :: [OEnd 11 1%nat WTemp; OStart 21 2%nat; OEnd 22 2%nat WTemp] ++ OStart 32 1%nat :: [] /\
  waiting [OAdd 0 1%nat; OAdd 1 2%nat] 2%nat.
Proof. do 2 eexists. split; [vm_compute; reflexivity|]. split; [reflexivity|]. split; cbn; tauto. Qed.

(** C59: what an idle worker holds are the writes since the last flush: fewer than batch_max_count, smaller than
    batch_max_size, and at its last wake-up the oldest was younger than batch_max_age. *)
Theorem C59_flush_bound : forall c cap now ls s tr, (1 <= wc_size c)%nat -> 0 <= cap -> 1 <= wc_count c ->
  wrun c (newWorker cap now) ls = Some (s, tr) -> w_pc s = WIdle ->
  let pw := timed_writes (wc_rules c) (after_send tr) in
  held s = concat (map snd pw) /\
  (pw = [] \/ Z.of_nat (length pw) < wc_count c /\ (length (held s) < wc_size c)%nat /\
     exists tw, last_wake tr tw /\ forall t0 d pw', pw = (t0, d) :: pw' -> tw - t0 < wc_age c).
Proof. exact (fun c cap now ls s tr Hs Hc => pending_bound c Hs cap now ls s tr Hc). Qed.
Print Assumptions C59_flush_bound.

(** C60: what becomes of the data when the worker has returned (or at any other time): a body POSTed is answered 2xx, or later delivered by the
    retry goroutine, or else one of those still queued, on the way, rejected, expired or evicted; the rest of the input is [held]. *)
Theorem C60_accounting : forall c cap now ls s tr a r, (1 <= wc_size c)%nat -> 0 <= cap -> 1 <= wc_retry c ->
  wrun c (newWorker cap now) ls = Some (s, tr) -> In (a, r) (posts tr) ->
  (exists code, r = Status code /\ 200 <= code <= 299 /\ ~ In a (added (retries tr))) \/ In a (delivered (retries tr)) \/
  In a (map rb_buf (r_q (w_retry s)) ++ passing s ++ rejected (retries tr) ++ expired (retries tr) ++ evicted (retries tr)).
Proof. exact (fun c cap now ls s tr a r Hs => pair_account c Hs cap now ls s tr a r). Qed.
Print Assumptions C60_accounting.

(** A worker that returns does not send what it holds: for any data there is a run that loses them. *)
Theorem C60_stop_loses_refuted : forall data, exists c ls s tr, (1 <= wc_size c)%nat /\
  wrun c (newWorker 0 0) ls = Some (s, tr) /\ w_pc s = WStopped /\ input (wc_rules c) tr = data /\ posts tr = [] /\ retries tr = [].
Proof. exact stop_loses. Qed.
Print Assumptions C60_stop_loses_refuted.
