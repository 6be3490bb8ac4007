(** Property theorems C16-C22 and C55: the listener. *)
From Verif Require Import Base Timestamps NumProofs LinesSpec Splitter SplitterProofs Batch BatchSpec BatchProofs
  Listener ListenerSpec ListenerProofs HttpProofs.
Local Open Scope Z_scope.

(** A configuration and reads used in the examples. *)
Definition exconf : lconf := mkLConf 2 1000 100000.
Definition exreads : list udp_in :=
  [mkU (lit "cpu x=1") ENone 1 1 1; mkU [] ETimeout 2 2 2; mkU (lit "mem y=2
") ENone 3 3 3; mkU (lit "a") EOther 4 4 4].

(** C16: at every moment (after any reads), what was handed to NATS followed by what is
    still batched is what arrived: each datagram once, in order, newline-terminated. *)
Theorem C16_udp_conservation : forall pf c now us, 0 <= lc_max_size c ->
  Forall (fun u => Z.of_nat (length (u_data u)) <= 65536) us ->
  let s := udp_run pf c (newListener c now) us in
  concat (ls_pub s) ++ Bytes (ls_batch s) = concat (arrived us).
Proof. exact udp_conservation. Qed.
Print Assumptions C16_udp_conservation.

(** What [arrived] is: datagrams only get a newline if they lack one. *)
Theorem C16_arrived_meaning : forall d, d <> [] ->
  (exists p, with_nl d = p ++ [nl]) /\ (with_nl d = d \/ with_nl d = d ++ [nl]) /\
  ((exists p, d = p ++ [nl]) -> with_nl d = d).
Proof.
  intros d H. split; [exact (with_nl_ended d H)|]. unfold with_nl. split.
  - destruct (rev d) eqn:E; [|destruct (Ascii.eqb a nl); auto]. left. rewrite <- (rev_involutive d), E. auto.
  - intros [p ->]. rewrite rev_app_distr. simpl. auto.
Qed.
Print Assumptions C16_arrived_meaning.

Example C16_case : let s := udp_run (fun _ => false) exconf (newListener exconf 0) exreads in
  ls_pub s = [lit "cpu x=1
mem y=2
"] /\ Bytes (ls_batch s) = lit "a
" /\ ls_read_errors s = 1.
Proof. vm_compute. auto. Qed.

(** C17 *)
Theorem C17_udp_messages : forall pf c now us, 0 <= lc_max_size c <= 1048576 ->
  Forall (fun u => Z.of_nat (length (u_data u)) <= 65536) us ->
  exists groups pend,
    concat groups ++ pend = arrived us /\ Forall (fun g => g <> []) groups /\
    ls_pub (udp_run pf c (newListener c now) us) = map (@concat _) groups /\
    Bytes (ls_batch (udp_run pf c (newListener c now) us)) = concat pend /\
    Forall (fun m => m <> [] /\ Z.of_nat (length m) <= 1048576 /\ exists p, m = p ++ [nl])
           (ls_pub (udp_run pf c (newListener c now) us)).
Proof. exact udp_messages. Qed.
Print Assumptions C17_udp_messages.

(** C18 *)
Theorem C18_udp_limits : forall pf c now us u, 0 <= lc_max_size c ->
  Forall (fun u => Z.of_nat (length (u_data u)) <= 65536) (us ++ [u]) ->
  let s := udp_run pf c (newListener c now) (us ++ [u]) in
  Bytes (ls_batch s) = [] \/
  (Writes (ls_batch s) < lc_max_count c /\ Age (ls_batch s) (u_t2 u) < lc_max_age c /\
   Size (ls_batch s) + 65536 < lc_max_size c).
Proof. exact udp_limits. Qed.
Print Assumptions C18_udp_limits.

(** The counters, and exactly when batches are sent: the listener groups datagrams as the
    reference [sp_run] does (a group is sent at the first moment it reaches a limit). *)
Theorem C18_udp_counters : forall pf c now us, 0 <= lc_max_size c ->
  Forall (fun u => Z.of_nat (length (u_data u)) <= 65536) us ->
  let s := udp_run pf c (newListener c now) us in
  ls_received s = Z.of_nat (length (arrived us)) /\
  ls_read_errors s = read_errs us /\
  ls_sent s = Z.of_nat (length (sp_groups (sp_run c us))) /\
  ls_failed s = fails pf (length (ls_pub s)).
Proof. exact udp_counters. Qed.
Print Assumptions C18_udp_counters.

Theorem C18_udp_grouping : forall pf c now us, 0 <= lc_max_size c ->
  Forall (fun u => Z.of_nat (length (u_data u)) <= 65536) us ->
  let s := udp_run pf c (newListener c now) us in
  ls_pub s = flat_map (fun g => split_all natsMax (concat g)) (sp_groups (sp_run c us)) /\
  Bytes (ls_batch s) = concat (sp_pend (sp_run c us)) /\
  Writes (ls_batch s) = Z.of_nat (length (sp_pend (sp_run c us))).
Proof. exact udp_reference. Qed.
Print Assumptions C18_udp_grouping.

(** The same limits after each HTTP request. *)
Theorem C18_http_limits : forall pf c t0 qs labs i t e, 0 <= lc_max_size c ->
  let h := hrun pf c (hinit c t0 qs) labs in
  nth_error (h_reqs h) i = Some (RMaybe e) ->
  let h' := hstep pf c h (LReq i, t) in
  nth_error (h_reqs h') i = Some (RDone true) /\
  (Bytes (ls_batch (h_l h')) = [] \/
  (Writes (ls_batch (h_l h')) < lc_max_count c /\ Age (ls_batch (h_l h')) t < lc_max_age c /\
   Size (ls_batch (h_l h')) + 65536 < lc_max_size c)).
Proof. exact http_limits. Qed.
Print Assumptions C18_http_limits.

Example C18_case : sp_groups (sp_run exconf exreads) = [[lit "cpu x=1
"; lit "mem y=2
"]] /\ sp_pend (sp_run exconf exreads) = [lit "a
"].
Proof. vm_compute. auto. Qed.

(** C19: for every number of concurrent requests, every schedule [labs] of their lock
    sections and of the age sender: there is one sequence [log] of contributions (request
    number, bytes) such that the batches are consecutive pieces of it, and the
    contributions of each request are, in order, the units it should contribute. *)
Theorem C19_http_history : forall pf c t0 qs labs, 0 <= lc_max_size c ->
  let h := hrun pf c (hinit c t0 qs) labs in
  exists (log : list (nat * bytes)) (groups : list (list bytes)) (pend : list bytes),
    map snd log = concat groups ++ pend /\
    ls_pub (h_l h) = flat_map (fun g => split_all natsMax (concat g)) groups /\
    Bytes (ls_batch (h_l h)) = concat pend /\
    Writes (ls_batch (h_l h)) = Z.of_nat (length pend) /\
    ls_sent (h_l h) = Z.of_nat (length groups) /\
    ls_failed (h_l h) = fails pf (length (ls_pub (h_l h))) /\
    (forall i e, In (i, e) log -> (i < length qs)%nat /\ e <> []) /\
    forall i q, nth_error qs i = Some q ->
      ((exists d rest, entries i log = [d] /\ d ++ rest = q_body q /\ expected q = [q_body q]) \/
       (exists rest, entries i log ++ rest = expected q)) /\
      (forall got, nth_error (h_reqs h) i = Some (RDone got) -> ls_read_errors (h_l h) = 0 ->
         entries i log = expected q).
Proof. exact http_history. Qed.
Print Assumptions C19_http_history.

Theorem C19_http_received : forall pf c t0 qs labs, 0 <= lc_max_size c ->
  let h := hrun pf c (hinit c t0 qs) labs in
  (forall r, In r (h_reqs h) -> exists got, r = RDone got) -> ls_read_errors (h_l h) = 0 ->
  ls_received (h_l h) = Z.of_nat (length (filter (fun q => negb (beqs (q_body q) [])) qs)).
Proof. exact http_received. Qed.
Print Assumptions C19_http_received.

(** Two concurrent requests, one of them with second precision. *)
Definition exreqs : list hreq :=
  [mkReq (lit "s") (lit "cpu x=1 1500000000
mem y=2
") [] false false; mkReq [] (lit "disk z=3
") [(4%nat, ENone); (100%nat, EEOF)] false false].
Definition exlabs : list (hlabel * Z) :=
  [(LReq 0, 1); (LReq 1, 2); (LReq 0, 3); (LReq 0, 4); (LReq 1, 5); (LReq 0, 6); (LAge, 1000)].

Example C19_case : let h := hrun (fun _ => false) exconf (hinit exconf 0 exreqs) exlabs in
  h_reqs h = [RDone true; RDone true] /\ ls_read_errors (h_l h) = 0 /\
  ls_pub (h_l h) = [lit "cpu x=1 1500000000000000000
disk z=3
mem y=2
"] /\ Bytes (ls_batch (h_l h)) = [].
Proof. vm_compute. auto. Qed.

(** C20: false of the code as stated: two requests, no read errors, both answered, and the
    published line is one line made of both. *)
Theorem C20_refuted : exists qs labs, let h := hrun (fun _ => false) exconf (hinit exconf 0 qs) labs in
  ls_read_errors (h_l h) = 0 /\ h_reqs h = [RDone true; RDone true] /\
  map q_body qs = [lit "cpu x=1"; lit "mem y=2
"] /\
  flat_map lines_of (ls_pub (h_l h)) = [lit "cpu x=1mem y=2
"] /\ Bytes (ls_batch (h_l h)) = [].
Proof.
  exists [mkReq [] (lit "cpu x=1") [(100%nat, EEOF)] false false; mkReq [] (lit "mem y=2
") [(100%nat, EEOF)] false false], [(LReq 0, 1); (LReq 0, 2); (LReq 1, 3); (LReq 1, 4)].
  vm_compute. auto 10.
Qed.
Print Assumptions C20_refuted.

(** It holds when every body ends in a newline and lines fit a NATS message. *)
Theorem C20_http_lines_partial : forall pf c t0 qs labs, 0 <= lc_max_size c ->
  Forall (fun q => nl_ended (q_body q)) qs ->
  let h := hrun pf c (hinit c t0 qs) labs in
  ls_read_errors (h_l h) = 0 ->
  (forall r, In r (h_reqs h) -> exists got, r = RDone got) ->
  (forall q u l, In q qs -> In u (expected q) -> In l (lines_of u) -> Z.of_nat (length l) <= 1048576) ->
  exists log : list (nat * bytes),
    (forall i q, nth_error qs i = Some q -> entries i log = expected q) /\
    (forall i e, In (i, e) log -> (i < length qs)%nat) /\
    flat_map lines_of (ls_pub (h_l h)) ++ lines_of (Bytes (ls_batch (h_l h))) = flat_map lines_of (map snd log).
Proof. exact http_lines. Qed.
Print Assumptions C20_http_lines_partial.

Example C20_case : Forall (fun q => nl_ended (q_body q)) exreqs /\
  (forall q u l, In q exreqs -> In u (expected q) -> In l (lines_of u) -> Z.of_nat (length l) <= 1048576).
Proof.
  split.
  - apply Forall_cons; [|apply Forall_cons; [|constructor]]; right; [exists (lit "cpu x=1 1500000000
mem y=2")|exists (lit "disk z=3")]; reflexivity.
  - intros q u l Hq Hu Hl.
    destruct Hq as [<-|[<-|[]]]; vm_compute in Hu; repeat destruct Hu as [<-|Hu]; try contradiction;
      vm_compute in Hl; repeat destruct Hl as [<-|Hl]; try contradiction; vm_compute; discriminate.
Qed.

(** C21: at any moment [now] at which the age sender's timer is at most [slack] overdue (and
    was so all along), no data older than batch_max_age + slack is held. *)
Theorem C21_http_age_partial : forall pf c slack t0 qs, 0 <= lc_max_size c -> 0 <= lc_max_age c -> 0 <= slack ->
  forall labs now,
  let h := hrun pf c (hinit c t0 qs) labs in
  monotone t0 (labs ++ [(LAge, now)]) -> punctual pf c slack (hinit c t0 qs) (labs ++ [(LAge, now)]) ->
  Age (ls_batch (h_l h)) now <= lc_max_age c + slack.
Proof. exact http_age. Qed.
Print Assumptions C21_http_age_partial.

Example C21_case : monotone 0 exlabs /\ punctual (fun _ => false) exconf 0 (hinit exconf 0 exreqs) exlabs.
Proof. vm_compute. repeat split; discriminate. Qed.

(** C22: false of the code: Stop makes the loop return with data still batched. *)
Theorem C22_refuted : exists us, let s := udp_run (fun _ => false) exconf (newListener exconf 0) us in
  arrived us = [lit "cpu x=1
"] /\ ls_pub s = [].
Proof. exists [mkU (lit "cpu x=1") ENone 1 1 1]. vm_compute. auto. Qed.
Print Assumptions C22_refuted.

(** What is lost when the loop is stopped is exactly the group of datagrams still pending,
    a suffix of what arrived, below the batching limits (C18)... *)
Theorem C22_stop_loses_only_pending_partial : forall pf c now us, 0 <= lc_max_size c ->
  Forall (fun u => Z.of_nat (length (u_data u)) <= 65536) us ->
  exists sent lost, sent ++ lost = arrived us /\
    concat (ls_pub (udp_run pf c (newListener c now) us)) = concat sent /\
    Z.of_nat (length lost) = Writes (ls_batch (udp_run pf c (newListener c now) us)).
Proof. exact stop_lost. Qed.
Print Assumptions C22_stop_loses_only_pending_partial.

(** ... and nothing when a read without data happened after batch_max_age. *)
Theorem C22_stop_after_idle_partial : forall pf c now us u, 0 <= lc_max_size c ->
  Forall (fun u => Z.of_nat (length (u_data u)) <= 65536) (us ++ [u]) ->
  lc_max_age c <= Age (ls_batch (udp_run pf c (newListener c now) us)) (u_t2 u) -> u_data u = [] ->
  Bytes (ls_batch (udp_run pf c (newListener c now) (us ++ [u]))) = [] /\
  concat (ls_pub (udp_run pf c (newListener c now) (us ++ [u]))) = concat (arrived us).
Proof. exact stop_after_idle. Qed.
Print Assumptions C22_stop_after_idle_partial.

Example C22_case : lc_max_age exconf <=
  Age (ls_batch (udp_run (fun _ => false) exconf (newListener exconf 0) exreads)) (u_t2 (mkU [] ETimeout 2000 2000 2000)).
Proof. vm_compute. discriminate. Qed.

(** C55 *)
Theorem C55_round_up : forall pageSize n, 0 < pageSize ->
  let r := roundUpToPageSize pageSize n in
  (exists k, 0 < k /\ r = k * pageSize) /\ n <= r /\ (forall k, 0 < k -> n <= k * pageSize -> r <= k * pageSize).
Proof. exact round_up_spec. Qed.
Print Assumptions C55_round_up.

Example C55_case : roundUpToPageSize 4096 8193 = 12288 /\ roundUpToPageSize 4096 8192 = 8192 /\ roundUpToPageSize 4096 (-5) = 4096.
Proof. auto. Qed.
