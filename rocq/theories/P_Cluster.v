(** C76 (several listeners, filters and writers) and C77 (lines handled once, whatever configuration is accepted). *)
From Verif Require Import Base Batch LinesSpec Text TextSpec Rules RulesSpec RulesProofs FilterWorker FilterSpec FilterProofs Listener ListenerSpec
  Retry RetrySpec Writer WriterSpec Config EndToEnd EndToEndProofs Nats Cluster ClusterProofs Loop P_EndToEnd.
Local Open Scope Z_scope.

(* ------------------------------------------------------------------ *)
(** * C76 *)

(** At rest the lines written by a writer without queue group, or by all writers of a queue group together, are exactly,
    with multiplicity, the forwarded forms of the lines sent to all the listeners; any number of listeners and filters,
    any distribution of the messages among the members of the queue groups, any interleaving. *)
Theorem C76_lines : forall gosort subs pubs c input srcs fis subjects ws, cluster gosort subs pubs c input srcs fis ->
  NoDup subjects -> ~ In input subjects -> good_readers subs subjects ws -> Forall (fed subs pubs) ws ->
  exists outs, Permutation (map snd (all_handled fis)) (flat_map fst srcs) /\
    Forall2 (fun h o => forwarded c subjects (fst h) (snd h) o) (all_handled fis) outs /\ Permutation (written ws) (concat outs).
Proof. exact cluster_written. Qed.
Print Assumptions C76_lines.

(** Lines in time, well-formed and with their tags in order: exactly those that belong on the subjects, unchanged. *)
Theorem C76_unchanged : forall gosort subs pubs c input srcs fis subjects sel ws, cluster gosort subs pubs c input srcs fis ->
  NoDup subjects -> ~ In input subjects -> good_readers subs subjects ws -> Forall (fed subs pubs) ws ->
  Forall (fun h => passes c (fst h) (snd h)) (all_handled fis) -> Forall (selects c subjects sel) (flat_map fst srcs) ->
  Permutation (written ws) (filter sel (flat_map fst srcs)).
Proof. exact cluster_unchanged. Qed.
Print Assumptions C76_unchanged.

(** When no writer has given up a batch, they are the lines InfluxDB acknowledged. *)
Theorem C76_stored : forall subs pubs ws, Forall (fed subs pubs) ws -> Forall (fun w => Forall settled_ok (wi_workers w)) ws ->
  Permutation (stored ws) (written ws).
Proof. exact cluster_stored. Qed.
Print Assumptions C76_stored.

(** A deployment: two listeners, two filters, two writers in a queue group. *)
Definition cx_in : bytes := lit "spout".
Definition cx_w : bytes := lit "w".
Definition cx_msg2 : bytes := lit "cpu y=2
".
Definition cx_udp2 : list udp_in := [mkU (lit "cpu y=2") ENone 1 1 1].
Definition cx_job2 : job := (fun _ : nat => true, 1500000000000000000, cx_msg2).
Definition cx_fl2 : list flabel := [] ++ [LReceive cx_msg2] ++ [LTake 0 cx_job2] ++ [LAct 0 (AInc FProcessed)] ++ [LAct 0 (AInc FPassed)] ++
  [LAct 0 (ARule 0)] ++ [LAct 0 (APublish (lit "s0") cx_msg2 true)] ++ [LDone 0].
Definition cx_subs : list subscription := [filter_sub cx_in; filter_sub cx_in] ++ writer_subs [lit "s0"] cx_w ++ writer_subs [lit "s0"] cx_w.
Definition cx_pubs : list pub :=
  [Pub cx_in ex_msg (fun g => 0%nat); Pub cx_in cx_msg2 (fun g => 1%nat); Pub (lit "s0") ex_out (fun g => 3%nat);
   Pub (lit "junk") (lit "mem y=2
") (fun g => 0%nat); Pub (lit "s0") cx_msg2 (fun g => 2%nat)].
Definition cx_srcs : list (list bytes * list bytes) := [(ex_lines, [ex_msg]); ([cx_msg2], [cx_msg2])].
Definition cx_wlabels : list wlabel := [PMsg 5 5 cx_msg2; PPost (Status 204) 6].
Definition cx_writer2 : wworker :=
  match wrun ex_wcfg (newWorker 0 0) cx_wlabels with
  | Some (s, tr) => WW ex_wcfg 0 0 cx_wlabels s tr
  | None => WW ex_wcfg 0 0 cx_wlabels (newWorker 0 0) []
  end.
Definition cx_writers : list winst := [WI [2%nat] [cx_writer2]; WI [3%nat] [ex_writer]].

Example C76_second_source : udp_source (mkLConf 1 1000 100000) cx_udp2 [cx_msg2] [cx_msg2].
Proof.
  split; [cbn; lia|]. split; [repeat constructor; vm_compute; discriminate|].
  exists (fun _ => false), 0. vm_compute. auto.
Qed.

Example C76_second_filter : exists s, fexec (@isort) ex_rule_cfg (startFilter ex_rule_cfg 1) cx_fl2 s /\ quiet s.
Proof.
  eexists. split.
  - unfold cx_fl2. rewrite !app_assoc. repeat eapply fe_step. apply fe_nil.
    1: apply fs_receive; vm_compute; lia.
    1: apply fs_take with (st := newFilterWorker ex_rule_cfg); [reflexivity|vm_compute; reflexivity].
    1-4: eapply fs_act; reflexivity.
    eapply fs_done. reflexivity.
  - split; [reflexivity|repeat constructor].
Qed.

Example C76_case : exists fis, cluster (@isort) cx_subs cx_pubs ex_rule_cfg cx_in cx_srcs fis.
Proof.
  destruct C56_pipe as (s1 & _ & _ & _ & X1 & Q1 & T1 & So1 & N1). destruct C76_second_filter as (s2 & X2 & Q2).
  exists [FI 0 1 ex_fl s1; FI 1 1 cx_fl2 s2]. constructor.
  - exact isort_sorts.
  - constructor; [|constructor; [|constructor; [|constructor; [|constructor; [|constructor]]]]]; intros g (i & M); unfold member in *; cbn [pb_subject pb_pick] in *;
      (do 5 (destruct i as [|i]; [vm_compute in M; inversion M; subst; vm_compute; reflexivity|])); destruct i; discriminate.
  - constructor; [|constructor; [|constructor]]; left; do 2 eexists; [exact C56_source|exact C76_second_source].
  - cbn [cx_srcs flat_map fst]. apply Forall_app. split; [exact So1|]. constructor; [|constructor].
    split; intros m tags rest H; [|right; vm_compute in H; inversion H; subst; discriminate].
    vm_compute in H. inversion H; subst. split.
    + intros r name [<-|[]] E X. inversion E; subst. reflexivity.
    + left. left. intros i j a b L Hi. destruct i; discriminate.
  - discriminate.
  - cbn. repeat constructor; cbn; intuition discriminate.
  - intros i. cbn [map fi_id]. do 4 (destruct i as [|i]; [split; [intros H|intros H]; cbn in *; intuition (try discriminate; try reflexivity)|]).
    split; [cbn; intuition discriminate|intros H; destruct i; discriminate].
  - constructor; [|constructor; [|constructor]]; (split; [assumption|]); (split; [assumption|]); (split; [vm_compute; reflexivity|]); (split; [|reflexivity]).
    + exact T1.
    + constructor; [|constructor]. unfold time_ok, cx_job2, int64, minInt64, maxInt64, two63, ex_rule_cfg; simpl; lia.
  - intros s. unfold on, cx_pubs, cx_srcs. cbn [filter pb_subject map flat_map snd app fi_labels].
    assert (E : forall l, on_subjects [s] l = flat_map (fun a => match a with APublish x d true => if beqs x s then [d] else [] | _ => [] end) l).
    { intros l. unfold on_subjects. apply flat_map_ext. intros [?|?|x d [|]]; auto. cbn. rewrite orb_false_r. reflexivity. }
    rewrite !E. unfold ex_fl, cx_fl2, performed. cbn [flat_map app].
    destruct (beqs cx_in s) eqn:Ei.
    + apply beqs_eq in Ei. subst s. vm_compute. apply Permutation_refl.
    + assert (Ei' : beqs s cx_in = false) by (apply beqs_neq; apply beqs_neq in Ei; congruence). rewrite Ei'. cbn [app].
      destruct (beqs (lit "s0") s) eqn:Es.
      * apply beqs_eq in Es. subst s. vm_compute. apply Permutation_refl.
      * destruct (beqs (lit "junk") s); apply Permutation_refl.
  - vm_compute. intuition discriminate.
Qed.

Example C76_writers : good_readers cx_subs [lit "s0"] cx_writers /\ Forall (fed cx_subs cx_pubs) cx_writers /\
  Forall (fun w => Forall settled_ok (wi_workers w)) cx_writers.
Proof.
  destruct C56_writer as (Pw & Sw & _). split; [|split].
  - right. exists cx_w. split; [discriminate|]. split; [discriminate|]. split; [repeat constructor|]. split; [cbn; repeat constructor; cbn; intuition discriminate|].
    intros i s [<-|[]] H. cbn [cx_writers flat_map wi_ids app]. do 4 (destruct i as [|i]; [cbn in *; try discriminate; intuition discriminate|]). destruct i; discriminate.
  - constructor; [|constructor; [|constructor]]; (split; [|vm_compute; apply Permutation_refl]); (constructor; [|constructor]); [|exact Pw].
    split; [split; [vm_compute; lia|]; split; [vm_compute; discriminate|vm_compute; reflexivity]|]. split; [reflexivity|vm_compute; repeat constructor].
  - constructor; [|constructor; [|constructor]]; (constructor; [|constructor]); [|exact Sw].
    split; [reflexivity|]. split; [reflexivity|]. vm_compute. intros H. exfalso. apply H. reflexivity.
Qed.

Example C76_result : stored cx_writers = [cx_msg2; ex_out].
Proof. vm_compute. reflexivity. Qed.

(* ------------------------------------------------------------------ *)
(** * C77: each line handled once, with every configuration that validation accepts *)

(** False: a filter may send lines to the subject it reads.  Any well-formed line that belongs there (by a rule, or as
    junk) goes round as often as one likes, whatever the clock shows, as long as it is in the time window. *)
Theorem C77_circulates_refuted : forall gosort c input m clk, sorts gosort -> (exists p, ~ In nl p /\ m = p ++ [nl]) ->
  (forall k, int64 (clk k - fc_delta c) /\ int64 (clk k + fc_delta c) /\ passes c (clk k) m) -> belongs (fc_rules c) (fc_junk c) m input ->
  forall n, circulates gosort c input m clk n.
Proof. exact loop_run. Qed.
Print Assumptions C77_circulates_refuted.

(** The configuration of a filter that reads "influx-spout" (the default) and has the rule cpu -> influx-spout. *)
Definition loop_file : pfile :=
  PFile None (Some (lit "filter")) None None None None None None None None None None None None None None None None None None None
    (Some [PRule (Some (lit "basic")) (Some (lit "cpu")) None (Some (lit "influx-spout"))]) None None None None None None None None.
Definition loaded_as (p : pfile) : loaded := NewConfigFromFile toml_rules FAbsent (FOk p) (lit "/etc/spout/edge.toml") [] [].

Theorem C77_loop_refuted : exists cf rs, loaded_as loop_file = LoadOk cf /\ Validate cf = None /\
  RuleSetFromConfig (fun _ => None) cf = RsOk rs /\ c_subjects cf = [lit "influx-spout"] /\
  forall gosort clk n, sorts gosort -> (forall k : nat, 0 <= clk k < 4000000000000000000) ->
    circulates gosort (mkFcfg (c_max_time_delta cf) rs (c_subject_junk cf)) (lit "influx-spout") (lit "cpu x=1
") clk n.
Proof.
  do 2 eexists. split; [vm_compute; reflexivity|]. split; [vm_compute; reflexivity|]. split; [vm_compute; reflexivity|]. split; [reflexivity|].
  intros gs clk n GS Hk. apply loop_run; auto.
  - exists (lit "cpu x=1"). split; [vm_compute; intuition discriminate|reflexivity].
  - intros k. pose proof (Hk k) as B. cbn [fc_delta c_max_time_delta]. unfold int64, minInt64, maxInt64, two63.
    split; [cbn; lia|]. split; [cbn; lia|]. apply short_passes.
    + vm_compute; lia.
    + reflexivity.
    + do 3 eexists. split; [vm_compute; reflexivity|]. intros i j a b L Hi. destruct i; discriminate.
    + intros m tags rest H. vm_compute in H. inversion H; subst. split.
      * intros r name [<-|[]] E X. inversion E; subst. reflexivity.
      * left. left. intros i j a b L Hi. destruct i; discriminate.
  - do 4 eexists. split; [vm_compute; reflexivity|]. split; [|].
    + instantiate (1 := Some 0%nat). cbn [first_such fc_rules]. split.
      * eexists. split; [reflexivity|]. reflexivity.
      * intros j Hj. lia.
    + eexists. split; reflexivity.
Qed.
Print Assumptions C77_loop_refuted.

(** False also of the writer: with a subject listed twice and no queue group it receives every message twice. *)
Definition twice_file : pfile :=
  PFile None (Some (lit "writer")) None (Some [lit "a"; lit "a"]) None None None None None None None None None None None None None None None None None
    None None None None None None None None None.

Theorem C77_twice_refuted : (exists cf, loaded_as twice_file = LoadOk cf /\ Validate cf = None /\ c_subjects cf = [lit "a"; lit "a"] /\ c_queue_group cf = []) /\
  forall subs pubs w subject, writer_of subs [subject; subject] [] w ->
    Permutation (flat_map (inbox subs pubs) (wi_ids w)) (on subject pubs ++ on subject pubs).
Proof.
  split.
  - eexists. split; [vm_compute; reflexivity|]. split; [vm_compute; reflexivity|]. split; reflexivity.
  - intros subs pubs w subject H. pose proof (lone_inboxes subs pubs [subject; subject] w H) as P. cbn [flat_map] in P. rewrite app_nil_r in P. exact P.
Qed.
Print Assumptions C77_twice_refuted.

(** Proved: if the filters do not write to their input, every line sent is handled by exactly one filter, once; with
    distinct subjects it is written once (C76). *)
Theorem C77_handled_once_partial : forall gosort subs pubs c input srcs fis, cluster gosort subs pubs c input srcs fis ->
  Permutation (map snd (all_handled fis)) (flat_map fst srcs).
Proof. exact handled_sent. Qed.
Print Assumptions C77_handled_once_partial.

(** The deployment above meets the hypothesis. *)
Example C77_case : exists fis, cluster (@isort) cx_subs cx_pubs ex_rule_cfg cx_in cx_srcs fis.
Proof. exact C76_case. Qed.
