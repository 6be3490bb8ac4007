(** C113: the ports of a component.  README.md:177-183 and the other sections: the component will serve probes on probe_port and
    pprof on pprof_port; and it receives data, or serves /metrics, on port.

    [prun comp c taken (start_state comp c) sched = (st, tr)]: the component started with the configuration [c], while other
    processes hold the sockets in [taken]; its goroutines had their turns as in [sched]; it did [tr]. *)
From Verif Require Import Base Config ConfigSpec ConfigProofs Ports PortsProofs.
Local Open Scope Z_scope.

(** If the ports are usable, then under every schedule the process does not exit and logs no error, and when the
    goroutines are through everything that was configured is served. *)
Theorem C113_all_up_partial comp c taken sched st tr : usable comp c taken -> prun comp c taken (start_state comp c) sched = (st, tr) ->
  ~ In Exited tr /\ (forall s, ~ In (Logged s) tr) /\ (finished st -> forall s k, named comp c s k -> In (Opened s) tr).
Proof. exact (fun U H => all_up' comp c taken sched st tr H U). Qed.
Print Assumptions C113_all_up_partial.

(** Nothing else is ever opened; in particular no probes or pprof if probe_port or pprof_port is 0. *)
Theorem C113_nothing_else comp c taken sched st tr : prun comp c taken (start_state comp c) sched = (st, tr) ->
  forall s, In (Opened s) tr -> exists k, named comp c s k.
Proof. exact (nothing_else comp c taken sched st tr). Qed.
Print Assumptions C113_nothing_else.

(** Readiness is reported at most once, and once if the process does not exit. *)
Theorem C113_ready_once comp c taken sched st tr : prun comp c taken (start_state comp c) sched = (st, tr) ->
  (length (filter (fun e => match e with Ready => true | _ => false end) tr) <= 1)%nat /\ (finished st -> In Ready tr).
Proof. exact (ready_once comp c taken sched st tr). Qed.
Print Assumptions C113_ready_once.

(** Whatever the ports: every run can be continued until it is through, or the process has exited. *)
Theorem C113_ends comp c taken sched st tr : prun comp c taken (start_state comp c) sched = (st, tr) ->
  exists sched' st' tr', prun comp c taken (start_state comp c) (sched ++ sched') = (st', tr ++ tr') /\ (finished st' \/ In Exited (tr ++ tr')).
Proof. exact (finishes comp c taken sched st tr). Qed.
Print Assumptions C113_ends.

(** A component never runs on without its own port. *)
Theorem C113_own_port comp c taken sched st tr : prun comp c taken (start_state comp c) sched = (st, tr) -> finished st ->
  forall k, named comp c Data k -> In (Opened Data) tr.
Proof. exact (own_port' comp c taken sched st tr). Qed.
Print Assumptions C113_own_port.

(** It exits only if that port is no port number, or another process, or another service of the same process, has it. *)
Theorem C113_exit comp c taken sched st tr : prun comp c taken (start_state comp c) sched = (st, tr) -> In Exited tr ->
  exists k, named comp c Data k /\
    (~ 0 <= snd k <= 65535 \/ taken k = true \/ exists s', s' <> Data /\ named comp c s' k /\ In (Opened s') tr).
Proof. exact (exit_why' comp c taken sched st tr). Qed.
Print Assumptions C113_exit.

(** The same reasons for probes or pprof not being served; for pprof there is an error message. *)
Theorem C113_missing comp c taken sched st tr : prun comp c taken (start_state comp c) sched = (st, tr) -> finished st ->
  forall s k, named comp c s k -> ~ In (Opened s) tr ->
    s <> Data /\
    (exists k, named comp c s k /\
       (~ 0 <= snd k <= 65535 \/ taken k = true \/ exists s', s' <> s /\ named comp c s' k /\ In (Opened s') tr)) /\
    (s = Pprof -> In (Logged Pprof) tr).
Proof. exact (missing' comp c taken sched st tr). Qed.
Print Assumptions C113_missing.

(** For the probes there is none: whatever the component, if another process has the probe port, the component runs
    as usual, and says nothing. *)
Theorem C113_probes_refuted comp c taken sched st tr : 0 < c_probe_port c -> taken (TCP, c_probe_port c) = true ->
  prun comp c taken (start_state comp c) sched = (st, tr) -> ~ In (Opened Probes) tr /\ ~ In (Logged Probes) tr.
Proof. exact (probes_silent comp c taken sched st tr). Qed.
Print Assumptions C113_probes_refuted.

(** Nothing checks that the ports of a configuration differ: with probe_port = port an HTTP listener or monitor either
    runs, and reports ready, without probes, or exits; which of the two depends on the schedule. *)
Theorem C113_same_port_refuted comp c taken : comp = Config.HTTPListener \/ comp = Config.Monitor ->
  1 <= c_port c <= 65535 -> c_probe_port c = c_port c -> c_pprof_port c = 0 -> taken (TCP, c_port c) = false ->
  (exists sched st, prun comp c taken (start_state comp c) sched = (st, [Returned; Ready; Opened Data]) /\ finished st) /\
  (exists sched st, prun comp c taken (start_state comp c) sched = (st, [Returned; Opened Probes; Ready; Exited])).
Proof. exact (same_port comp c taken). Qed.
Print Assumptions C113_same_port_refuted.
Theorem C113_unchecked c : Validate c = None -> 0 <= c_port c <= 65535 ->
  Validate (set_probe (c_port c) c) = None /\ c_probe_port (set_probe (c_port c) c) = c_port c /\ c_port (set_probe (c_port c) c) = c_port c.
Proof. exact (fun V R => conj (probe_unchecked c V R) (conj eq_refl eq_refl)). Qed.
Print Assumptions C113_unchecked.

(** A UDP listener reports ready only when its port is open ... *)
Theorem C113_ready_udp c taken sched st tr : prun Config.Listener c taken (start_state Config.Listener c) sched = (st, tr) ->
  forall a b, tr = a ++ Ready :: b -> In (Opened Data) a.
Proof. exact (udp_ready c taken sched st tr). Qed.
Print Assumptions C113_ready_udp.

(** ... an HTTP listener or monitor before it tries to open it, even if the port cannot be opened at all. *)
Theorem C113_ready_refuted comp c taken : comp = Config.HTTPListener \/ comp = Config.Monitor ->
  exists sched st, (prun comp c taken (start_state comp c) sched = (st, [Returned; Ready])) /\
  (taken (TCP, c_port c) = true -> exists sched' st', prun comp c taken (start_state comp c) (sched ++ sched') = (st', [Returned; Ready; Exited])).
Proof. exact (early_ready comp c taken). Qed.
Print Assumptions C113_ready_refuted.

(** ** Cases *)
(** An HTTP listener with a port, a probe_port and a pprof_port; another process holds the TCP port 9999. *)
Definition ex_ports (port probe pprof : Z) : cfg :=
  {| c_name := lit "edge"; c_mode := lit "listener_http"; c_nats_address := c_nats_address newDefaultConfig; c_subjects := c_subjects newDefaultConfig; c_subject_monitor := c_subject_monitor newDefaultConfig; c_subject_junk := c_subject_junk newDefaultConfig; c_db_address := c_db_address newDefaultConfig; c_db_protocol := c_db_protocol newDefaultConfig; c_db_port := c_db_port newDefaultConfig; c_db_user := c_db_user newDefaultConfig; c_db_pass := c_db_pass newDefaultConfig; c_db_name := c_db_name newDefaultConfig; c_batch_count := c_batch_count newDefaultConfig; c_batch_size := c_batch_size newDefaultConfig; c_batch_age := c_batch_age newDefaultConfig; c_port := port; c_workers := c_workers newDefaultConfig; c_write_timeout := c_write_timeout newDefaultConfig; c_retry_batches := c_retry_batches newDefaultConfig; c_retry_interval := c_retry_interval newDefaultConfig; c_retry_timeout := c_retry_timeout newDefaultConfig; c_read_buffer := c_read_buffer newDefaultConfig; c_max_pending := c_max_pending newDefaultConfig; c_rules := c_rules newDefaultConfig; c_max_time_delta := c_max_time_delta newDefaultConfig; c_stats_interval := c_stats_interval newDefaultConfig; c_probe_port := probe; c_pprof_port := pprof; c_debug := c_debug newDefaultConfig; c_period := c_period newDefaultConfig; c_suffix := c_suffix newDefaultConfig; c_queue_group := c_queue_group newDefaultConfig |}.
Definition others (k : sock) : bool := sock_eqb k (TCP, 9999).

(** Usable ports (the hypothesis of C113_all_up_partial), and everything is up. *)
Example usable_ports : usable Config.HTTPListener (ex_ports 13337 8000 6060) others.
Proof.
  split.
  - intros s k H. apply sockets in H. destruct s; inversion H; subst; cbn; split; first [reflexivity|lia].
  - intros s s' k H H'. apply sockets in H. apply sockets in H'. destruct s, s'; try reflexivity; cbn in H, H'; rewrite <- H in H'; discriminate H'.
Qed.
Example all_three : exists st, prun Config.HTTPListener (ex_ports 13337 8000 6060) others (start_state Config.HTTPListener (ex_ports 13337 8000 6060))
  [None; Some Pprof; None; None; Some Data; Some Probes; None; Some Data] = (st, [Opened Pprof; Ready; Opened Probes; Returned; Opened Data]) /\ finished st.
Proof. eexists. split; [vm_compute; reflexivity|]. split; [reflexivity|]. split; [reflexivity|]. intros s. destruct s; reflexivity. Qed.

(** The pprof port is taken: a message; the probe port is taken: none; the port itself: the process exits. *)
Example taken_ports :
  (exists st, prun Config.HTTPListener (ex_ports 13337 8000 9999) others (start_state Config.HTTPListener (ex_ports 13337 8000 9999))
     [None; Some Pprof; None; Some Probes; None; Some Data; Some Data; None] = (st, [Logged Pprof; Opened Probes; Ready; Opened Data; Returned]) /\ finished st) /\
  (exists st, prun Config.HTTPListener (ex_ports 13337 9999 6060) others (start_state Config.HTTPListener (ex_ports 13337 9999 6060))
     [None; Some Pprof; None; Some Probes; None; Some Data; Some Data; None] = (st, [Opened Pprof; Ready; Opened Data; Returned]) /\ finished st) /\
  (exists st, prun Config.HTTPListener (ex_ports 9999 8000 6060) others (start_state Config.HTTPListener (ex_ports 9999 8000 6060))
     [None; Some Pprof; None; Some Probes; None; Some Data; Some Data; None] = (st, [Opened Pprof; Opened Probes; Ready; Exited])).
Proof.
  split; [|split]; eexists; [split; [vm_compute; reflexivity|]|split; [vm_compute; reflexivity|]|vm_compute; reflexivity].
  all: split; [reflexivity|split; [reflexivity|intros s; destruct s; reflexivity]].
Qed.

(** probe_port = port is accepted: the hypotheses of C113_same_port_refuted and C113_unchecked. *)
Example same_ports : Validate (ex_ports 13337 13337 0) = None /\ Validate (ex_ports 13337 8000 0) = None /\
  c_probe_port (ex_ports 13337 13337 0) = c_port (ex_ports 13337 13337 0) /\ others (TCP, 13337) = false.
Proof. vm_compute. repeat split. Qed.
(** A UDP listener may share its port number with the probes: the protocols differ. *)
Example udp_same_number : usable Config.Listener (ex_ports 13337 13337 0) others.
Proof.
  split.
  - intros s k H. apply sockets in H. destruct s; inversion H; subst; cbn; split; first [reflexivity|lia].
  - intros s s' k H H'. apply sockets in H. apply sockets in H'. destruct s, s'; try reflexivity; cbn in H, H'; rewrite <- H in H'; discriminate H'.
Qed.
(** A filter has no port of its own: it never exits because of one. *)
Example filter_no_port : (forall k, ~ named Config.Filter (ex_ports 13337 9999 9999) Data k) /\
  exists st, prun Config.Filter (ex_ports 13337 9999 9999) others (start_state Config.Filter (ex_ports 13337 9999 9999))
    [None; None; Some Pprof; None; None; Some Probes] = (st, [Logged Pprof; Ready; Returned]) /\ finished st.
Proof. split; [intros k X; inversion X|]. eexists. split; [vm_compute; reflexivity|]. split; [reflexivity|split; [reflexivity|intros s; destruct s; reflexivity]]. Qed.
