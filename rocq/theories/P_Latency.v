(** C92: how long data stay in a component; C93: how often the HTTP listener looks at the age of its batch. *)
From Verif Require Import Base Batch LinesSpec Text TextSpec Rules RulesSpec RulesProofs FilterWorker FilterSpec FilterProofs Listener ListenerSpec
  Retry RetrySpec Writer WriterSpec EndToEnd EndToEndProofs P_EndToEnd Crash Config P_Config Latency.
Local Open Scope Z_scope.

(** C92, UDP listener: after any read, at whose check the clock showed [u_t2 u], the lines of all datagrams read at least
    batch_max_age earlier have been handed to NATS. *)
Theorem C92_udp_listener : forall pubfails c now us1 us2 us u, 0 <= lc_max_size c <= 1048576 ->
  Forall (fun u => Z.of_nat (length (u_data u)) <= 65536) (us ++ [u]) ->
  us ++ [u] = us1 ++ us2 -> Forall (fun v => u_t1 v <= u_t2 u - lc_max_age c) us1 ->
  exists rest, flat_map lines_of (ls_pub (udp_run pubfails c (newListener c now) (us ++ [u]))) = sent_lines us1 ++ rest.
Proof. exact udp_latency. Qed.
Print Assumptions C92_udp_listener.

(** HTTP listener: what had been handed to NATS or was held after a history [labs1] has all been handed to NATS after a check
    of the age at least batch_max_age later; any requests, any interleaving. *)
Theorem C92_http_listener : forall pubfails c t0 qs labs1 labs2 now, 0 <= lc_max_size c -> 0 <= lc_max_age c ->
  let h1 := hrun pubfails c (hinit c t0 qs) labs1 in
  let h := hrun pubfails c (hinit c t0 qs) (labs1 ++ labs2 ++ [(LAge, now)]) in
  monotone t0 (labs1 ++ labs2 ++ [(LAge, now)]) -> t0 <= now - lc_max_age c -> Forall (fun x => snd x <= now - lc_max_age c) labs1 ->
  exists rest, concat (ls_pub (h_l h)) = concat (ls_pub (h_l h1)) ++ Bytes (ls_batch (h_l h1)) ++ rest.
Proof. exact http_latency. Qed.
Print Assumptions C92_http_listener.

(** Writer: when an idle worker last woke up at [tw], everything it accepted from the messages that were at least
    batch_max_age old has been POSTed, in order. *)
Theorem C92_writer : forall c cap now ls s tr tw ms1 ms2, (1 <= wc_size c)%nat -> 0 <= cap -> 1 <= wc_count c ->
  wrun c (newWorker cap now) ls = Some (s, tr) -> w_pc s = WIdle -> last_wake tr tw ->
  messages tr = ms1 ++ ms2 -> Forall (fun m => fst m <= tw - wc_age c) ms1 ->
  exists rest, concat (bodies tr) = concat (map (fun m => accepted (wc_rules c) (snd m)) ms1) ++ rest.
Proof. exact writer_latency. Qed.
Print Assumptions C92_writer.

(** The pipeline: the lines that reached the listener at least its batch_max_age before its last check ([us1]) have been handled by
    the filter, and what the filter forwarded has been POSTed completely, once each writer has woken up batch_max_age after
    its last message; all that remains is the delay of NATS, which is to deliver what was published. *)
Theorem C92_pipeline : forall gosort lc pubfails t0 us u us1 us2 c n fl s subs ws,
  sorts gosort -> 0 <= lc_max_size lc <= 1048576 -> Forall (fun u => Z.of_nat (length (u_data u)) <= 65536) (us ++ [u]) ->
  us ++ [u] = us1 ++ us2 -> Forall (fun v => u_t1 v <= u_t2 u - lc_max_age lc) us1 ->
  Permutation (received fl) (ls_pub (udp_run pubfails lc (newListener lc t0) (us ++ [u]))) ->
  fexec gosort c (startFilter c n) fl s -> quiet s -> Forall (time_ok c) (taken fl) -> count_publish_failures (performed fl) = 0%nat ->
  Forall (sound_line c) (sent_lines (us ++ [u])) ->
  Forall plain_writer ws -> delivered_to subs fl ws -> Forall matured ws ->
  exists outs, part (sent_lines us1) (map snd (handled fl)) /\
    Forall2 (fun h o => forwarded c subs (fst h) (snd h) o) (handled fl) outs /\ Permutation (posted_lines ws) (concat outs).
Proof. exact pipeline_latency. Qed.
Print Assumptions C92_pipeline.

(** A listener: a datagram at time 1, others at 500 and 600, checks at 1, 500, 600, 1100: with an age limit of 1000 the first three
    have been published, together. *)
Definition lat_conf : lconf := mkLConf 10 1000 100000.
Definition lat_reads : list udp_in := [mkU (lit "a x=1") ENone 1 1 1; mkU (lit "b x=1") ENone 500 500 500; mkU (lit "c x=1") ENone 600 600 600].
Example C92_case_udp : let s := udp_run (fun _ => false) lat_conf (newListener lat_conf 0) (lat_reads ++ [mkU [] ETimeout 1100 1100 1100]) in
  Forall (fun v => u_t1 v <= 1100 - lc_max_age lat_conf) (firstn 1 lat_reads) /\
  ls_pub s = [lit "a x=1
b x=1
c x=1
"].
Proof. cbv zeta. split; [constructor; [cbn; lia|constructor]|]. vm_compute. reflexivity. Qed.

(** The same for HTTP, with two requests. *)
Definition lat_reqs : list hreq := [mkReq [] (lit "a x=1
") [(100%nat, EEOF)] false false; mkReq [] (lit "b x=1
") [(100%nat, EEOF)] false false].
Example C92_case_http : let h1 := hrun (fun _ => false) lat_conf (hinit lat_conf 0 lat_reqs) [(LReq 0, 5); (LReq 0, 6)] in
  let labs := [(LReq 0, 5); (LReq 0, 6)] ++ [(LReq 1, 700)] ++ [(LAge, 1006)] in
  let h := hrun (fun _ => false) lat_conf (hinit lat_conf 0 lat_reqs) labs in
  monotone 0 labs /\ Bytes (ls_batch (h_l h1)) = lit "a x=1
" /\ ls_pub (h_l h) = [lit "a x=1
b x=1
"].
Proof. cbv zeta. split; [cbn; lia|]. split; vm_compute; reflexivity. Qed.

(** The pipeline of C56, its writer idle since a wake-up 1000 after its message. *)
Definition lat_wcfg : wcfg := mkWC 10 100 1000 [] 0 60 10.
Definition lat_wlabels : list wlabel := [PMsg 5 5 ex_out; PTick 1005; PPost (Status 204) 1006].
Definition lat_writer : wworker :=
  match wrun lat_wcfg (newWorker 0 0) lat_wlabels with
  | Some (s, tr) => WW lat_wcfg 0 0 lat_wlabels s tr
  | None => WW lat_wcfg 0 0 lat_wlabels (newWorker 0 0) []
  end.
Example C92_case_writer : plain_writer lat_writer /\ matured lat_writer /\ bodies (ww_trace lat_writer) = [ex_out].
Proof.
  split; [|split].
  - split; [|split; [reflexivity|]].
    + unfold ww_ok. vm_compute. repeat split; try lia; try discriminate.
    + vm_compute. repeat constructor.
  - split; [reflexivity|]. split; [vm_compute; discriminate|]. right. exists 1005. split.
    + vm_compute. eexists [_; _], _. split; [reflexivity|]. intros t' H. repeat (destruct H as [H|H]; [discriminate H|]). exact H.
    + vm_compute. repeat constructor; discriminate.
  - vm_compute. reflexivity.
Qed.

(** C93: the age check of the HTTP listener: as long as its timer is not early, it runs at most twice in any stretch of a history
    shorter than batch_max_age, whatever the requests do. *)
Theorem C93_age_checks : forall pubfails c t0 qs pre mid T, 0 <= lc_max_size c -> 0 <= lc_max_age c ->
  monotone t0 (pre ++ mid) -> never_early pubfails c (hinit c t0 qs) (pre ++ mid) ->
  Forall (fun x => T <= snd x < T + lc_max_age c) mid ->
  (length (filter (fun x => match fst x with LAge => true | LReq _ => false end) mid) <= 2)%nat.
Proof. exact wakes_few. Qed.
Print Assumptions C93_age_checks.

(** The first check comes no earlier than batch_max_age after the start. *)
Theorem C93_first_check : forall pubfails c t0 qs labs t, 0 <= lc_max_size c -> monotone t0 (labs ++ [(LAge, t)]) ->
  (forall u, ~ In (LAge, u) labs) -> never_early pubfails c (hinit c t0 qs) (labs ++ [(LAge, t)]) -> t0 + lc_max_age c <= t.
Proof. exact first_check. Qed.
Print Assumptions C93_first_check.

(** Two is the number: a check at 1000 sends nothing because the batch is 300 old, a request empties and refills it, the check at 1700
    finds a young batch. *)
Definition two_conf : lconf := mkLConf 2 1000 100000.
Definition two_reqs : list hreq := map (fun b => mkReq [] b [(100%nat, EEOF)] false false) [lit "a x=1
"; lit "b x=1
"; lit "c x=1
"].
Definition two_labs : list (hlabel * Z) := [(LReq 0, 700); (LReq 0, 700); (LAge, 1000); (LReq 1, 1100); (LReq 1, 1100); (LReq 2, 1200); (LReq 2, 1200); (LAge, 1700)].
Example C93_case : monotone 0 two_labs /\ never_early (fun _ => false) two_conf (hinit two_conf 0 two_reqs) two_labs /\
  ls_pub (h_l (hrun (fun _ => false) two_conf (hinit two_conf 0 two_reqs) two_labs)) = [lit "a x=1
b x=1
"] /\ h_wake (hrun (fun _ => false) two_conf (hinit two_conf 0 two_reqs) two_labs) = 2200.
Proof. split; [cbn; lia|]. split; [vm_compute; repeat split; discriminate|]. split; vm_compute; reflexivity. Qed.

(** Statistics: at least stats_interval lies between two reports of a component. *)
Theorem C93_reports : forall interval, 0 <= interval -> forall delays t, Forall (fun d => 0 <= fst d /\ 0 <= snd d) delays ->
  let ts := statistician interval t delays in
  (Z.of_nat (length ts) - 1) * interval <= last ts t - t.
Proof. exact reports_apart. Qed.
Print Assumptions C93_reports.
Example C93_case_reports : statistician 3000 10 [(5, 0); (2, 1)] = [10; 3015; 6018].
Proof. reflexivity. Qed.

(** A batch_max_age or stats_interval of zero is accepted, and then nothing limits the checks or the reports: any number is possible
    at one moment. *)
Definition with_age (m : bytes) (d : Z) : pfile :=
  PFile None (Some m) None None None None None None None None None None (Some d) None None None None None None None None None None None None None None None None None.
Definition with_interval (m : bytes) (d : Z) : pfile :=
  PFile None (Some m) None None None None None None None None None None None None None None None None None None None None None (Some d) None None None None None None.
Theorem C93_refuted :
  (exists c, load FAbsent (with_age (lit "listener_http") 0) = LoadOk c /\ c_batch_age c = 0 /\
     forall pubfails t0 qs n, never_early pubfails (mkLConf (c_batch_count c) (c_batch_age c) (c_batch_size c)) (hinit (mkLConf (c_batch_count c) (c_batch_age c) (c_batch_size c)) t0 qs) (repeat (LAge, t0) n)) /\
  (exists c, load FAbsent (with_interval (lit "filter") 0) = LoadOk c /\ c_stats_interval c = 0 /\
     forall t n, statistician (c_stats_interval c) t (repeat (0, 0) n) = repeat t (1 + n)).
Proof.
  split; eexists; (split; [vm_compute; reflexivity|]); (split; [reflexivity|]).
  - intros pf t0 qs n. apply wakes_many. reflexivity.
  - intros t n. apply reports_many. cbn. lia.
Qed.
Print Assumptions C93_refuted.
