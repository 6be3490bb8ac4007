(** C115: scraping the monitor.  README.md:518-527: several scrapers at once, each reading at its
    own pace.

    [crun gs room limit cstart ls = Some (s, o)]: the monitor went through [ls] and reached [s]; [o]: complete answers and lost messages.
    [room]: what a connection takes without its client reading; [limit]: how many messages NATS keeps for the monitor. *)
From Verif Require Import Base Text RulesSpec RulesProofs Prom PromSpec PromProofs PromTop PromStats MonitorLock MonitorLockProofs.

(** Every answer is right for one moment between its request and itself: with the reports dealt with by then, in the
    order of their arrival.  Missing are those lost (C82) and those waiting, of which there are never more than the limit and one. *)
Theorem C115_answers_right : forall gs, sorts gs -> forall room limit ls s o rs i page,
  crun gs room limit cstart ls = Some (s, o) -> In (OAnswer i page) o ->
  (forall order, In (CApply order) ls -> forall l, Permutation l (order l)) ->
  delivered_msgs ls = map (report_text gs) rs -> Forall report_ok rs ->
  exists l1 l2 r1 handled waiting lost ess, ls = l1 ++ CLock i :: l2 /\ In (CAsk i) l1 /\
    delivered_msgs l1 = map (report_text gs) r1 /\ (exists r2, rs = r1 ++ r2) /\ shuffle (handled ++ waiting) lost r1 /\ length waiting <= limit + 1 /\
    Forall2 reported handled ess /\ right_answer (concat ess) page.
Proof. exact (fun gs Hs room limit => answer_says gs room limit Hs). Qed.
Print Assumptions C115_answers_right.

(** Whatever the messages: the answers are those of a monitor which deals with messages and requests one by one. *)
Theorem C115_one_by_one : forall gs room limit ls s o, crun gs room limit cstart ls = Some (s, o) -> c_dead s = false -> exists evs outs,
  mon_run gs [] evs = Some (c_set s, outs) /\ (forall i p, In (OAnswer i p) o -> In p outs) /\
  shuffle (messages_of evs ++ in_hand s) (drops o) (delivered_msgs ls) /\ (orders_of ls -> orders_ok evs).
Proof. exact one_by_one. Qed.
Print Assumptions C115_one_by_one.

(** While clients read, every request can be answered, and the monitor can catch up with the messages: from wherever it
    is, in a few steps of its own and reads of the clients. *)
Theorem C115_progress_partial : forall gs room limit ls0 s o0 i, crun gs room limit cstart ls0 = Some (s, o0) -> c_dead s = false -> c_get s i = GAsked ->
  exists ls s' o, length ls <= 5 /\ Forall reads_only ls /\ crun gs room limit s ls = Some (s', o) /\ In (OAnswer i (fst (SetToBytes gs (c_set s)))) o.
Proof. exact (fun gs room limit ls0 s o0 i H => answered gs room limit s i (cinv_run gs room limit _ _ _ _ (cinv_start gs limit) H)). Qed.
Print Assumptions C115_progress_partial.
Theorem C115_catch_up_partial : forall gs room limit ls0 s o0, crun gs room limit cstart ls0 = Some (s, o0) -> c_dead s = false ->
  Forall (fun d => ParseMetrics gs d <> PsPanic) (c_queue s) ->
  exists ls s' o, length ls <= 2 * length (in_hand s) + 2 /\ Forall reads_only ls /\ crun gs room limit s ls = Some (s', o) /\ c_dead s' = false /\ in_hand s' = [].
Proof. exact (fun gs room limit ls0 s o0 H => caught_up gs room limit s (cinv_run gs room limit _ _ _ _ (cinv_start gs limit) H)). Qed.
Print Assumptions C115_catch_up_partial.
(** Pages which fit in the buffers of their connections need no client at all. *)
Theorem C115_small_partial : forall gs room limit ls0 s o0 i, crun gs room limit cstart ls0 = Some (s, o0) -> c_dead s = false -> c_get s i = GAsked ->
  (forall j p, c_get s j = GWriting p -> length p <= room + c_read s j) -> length (fst (SetToBytes gs (c_set s))) <= room + c_read s i ->
  exists ls s' o, length ls <= 3 /\ Forall (fun l => by_client l = false) ls /\ crun gs room limit s ls = Some (s', o) /\ In (OAnswer i (fst (SetToBytes gs (c_set s)))) o.
Proof. exact (fun gs room limit ls0 s o0 i H => answered_small gs room limit s i (cinv_run gs room limit _ _ _ _ (cinv_start gs limit) H)). Qed.
Print Assumptions C115_small_partial.

(** But a client which stops reading in the middle of a longer page stops the monitor: as long as its connection stays, no
    request is answered, no metric changes, and of the reports all but as many as NATS keeps, and one, are lost. *)
Theorem C115_stall_refuted : forall gs room limit ls0 s o0 j page ls s' o, crun gs room limit cstart ls0 = Some (s, o0) ->
  c_get s j = GWriting page -> room + c_read s j < length page -> Forall (stalls j) ls -> crun gs room limit s ls = Some (s', o) ->
  answers o = [] /\ c_set s' = c_set s /\ (exists page', c_get s' j = GWriting page') /\
  (Forall (fun d => exists new, ParseMetrics gs d = PsOk new) (c_queue s ++ delivered_msgs ls) -> length (delivered_msgs ls) <= limit + 1 + length (drops o)).
Proof. exact stall. Qed.
Print Assumptions C115_stall_refuted.
(** This needs one report (here of one counter with a long name), one request, and a client which does not read. *)
Theorem C115_stall_reachable : forall gs, sorts gs -> forall room limit, 1 <= limit -> report_ok (long_counter room) /\ exists (s : cst) (page : bytes),
  crun gs room limit cstart [CDeliver (report_text gs (long_counter room)); CTake; CApply (fun l => l); CAsk 0; CLock 0] = Some (s, []) /\
  c_get s 0 = GWriting page /\ room + c_read s 0 < length page.
Proof. exact (fun gs Hs room limit Hl => conj (long_counter_ok room) (stall_state gs room limit Hs Hl)). Qed.
Print Assumptions C115_stall_reachable.

(** ** Cases *)
(** Two scrapers and two reports; a connection takes two bytes, and NATS keeps one message. *)
Definition two_scrapers : list clabel :=
  [CDeliver (lit "a 1"); CTake; CAsk 0; CApply (fun l => l); CLock 0; CAsk 1; CDeliver (lit "b 2"); CTake; CDeliver (lit "c 3"); CDeliver (lit "d 4");
   CRead 0 2; CDone 0; CApply (fun l => l); CTake; CLock 1; CRead 1 6; CDone 1].
Example two_scrapers_run : exists s, crun (@isort) 2 1 cstart two_scrapers =
  Some (s, [ODrop (lit "d 4"); OAnswer 0 (lit "a 1" ++ [nl]); OAnswer 1 (lit "a 1" ++ [nl] ++ lit "b 2" ++ [nl])]) /\
  in_hand s = [lit "c 3"] /\ c_dead s = false.
Proof. eexists. split; [vm_compute; reflexivity|]. split; reflexivity. Qed.
Example two_scrapers_reports : delivered_msgs two_scrapers =
  map (report_text (@isort)) [RCounter (lit "a") 1 0 []; RCounter (lit "b") 2 0 []; RCounter (lit "c") 3 0 []; RCounter (lit "d") 4 0 []].
Proof. vm_compute. reflexivity. Qed.
(** Before the first client read: the second cannot be answered. *)
Example stalled_here : exists s, crun (@isort) 2 1 cstart (firstn 10 two_scrapers) = Some (s, [ODrop (lit "d 4")]) /\
  c_get s 0 = GWriting (lit "a 1" ++ [nl]) /\ 2 + c_read s 0 < 4 /\ c_get s 1 = GAsked /\ cstep (@isort) 2 1 s (CLock 1) = None /\ cstep (@isort) 2 1 s (CDone 0) = None.
Proof. eexists. split; [vm_compute; reflexivity|]. split; [reflexivity|]. split; [cbn; lia|]. split; [reflexivity|]. split; reflexivity. Qed.
