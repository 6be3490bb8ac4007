(** C56: listener, filter and writer together. *)
From Verif Require Import Base Batch LinesSpec Text TextSpec Rules RulesSpec RulesProofs FilterWorker FilterSpec FilterProofs Listener ListenerSpec
  Retry RetrySpec Writer WriterSpec EndToEnd EndToEndProofs.
Local Open Scope Z_scope.

(** At rest, the lines written by the writer (or still in its buffers) are exactly, with multiplicity, the forwarded forms
    of the lines that were sent to the listener and belong on the writer's subjects; any number of filter and writer
    workers, any interleaving, any assignment of messages to workers. *)
Theorem C56_lines : forall gosort sent msgs c n fl s subs ws, pipe gosort sent msgs c n fl s ->
  Forall plain_writer ws -> delivered_to subs fl ws ->
  exists outs, Permutation (map snd (handled fl)) sent /\
    Forall2 (fun h o => forwarded c subs (fst h) (snd h) o) (handled fl) outs /\ Permutation (in_writer ws) (concat outs).
Proof. exact end_to_end. Qed.
Print Assumptions C56_lines.

(** When all lines are in time, well-formed and have their tags in order: the lines that belong on the subjects, unchanged. *)
Theorem C56_unchanged : forall gosort sent msgs c n fl s subs sel ws, pipe gosort sent msgs c n fl s ->
  Forall plain_writer ws -> delivered_to subs fl ws ->
  Forall (fun h => passes c (fst h) (snd h)) (handled fl) -> Forall (selects c subs sel) sent ->
  Permutation (in_writer ws) (filter sel sent).
Proof. exact end_to_end_selected. Qed.
Print Assumptions C56_unchanged.

(** When the writers have settled without giving up a batch, they are the lines InfluxDB acknowledged. *)
Theorem C56_acknowledged : forall ws, Forall plain_writer ws -> Forall settled_ok ws -> Permutation (in_influxdb ws) (in_writer ws).
Proof. exact acknowledged_lines. Qed.
Print Assumptions C56_acknowledged.

(** One filter worker, one writer worker, one subject: also in the order in which they were received. *)
Theorem C56_order : forall gosort sent msgs c fl s sb w, pipe gosort sent msgs c 1 fl s -> flat_map lines_of (received fl) = sent ->
  NoDup (map r_subject (fc_rules c) ++ [fc_junk c]) -> plain_writer w ->
  map snd (messages (ww_trace w)) = on_subjects [sb] (performed fl) ->
  exists outs, map snd (handled fl) = sent /\ Forall2 (fun h o => forwarded c [sb] (fst h) (snd h) o) (handled fl) outs /\
    flat_map lines_of (bodies (ww_trace w)) ++ lines_of (held (ww_state w)) = concat outs.
Proof. exact end_to_end_order. Qed.
Print Assumptions C56_order.

Theorem C56_order_unchanged : forall gosort sent msgs c fl s sb sel w, pipe gosort sent msgs c 1 fl s -> flat_map lines_of (received fl) = sent ->
  NoDup (map r_subject (fc_rules c) ++ [fc_junk c]) -> plain_writer w ->
  map snd (messages (ww_trace w)) = on_subjects [sb] (performed fl) ->
  Forall (fun h => passes c (fst h) (snd h)) (handled fl) -> Forall (selects c [sb] sel) sent ->
  concat (bodies (ww_trace w)) ++ held (ww_state w) = concat (filter sel sent).
Proof. exact end_to_end_order_selected. Qed.
Print Assumptions C56_order_unchanged.

(** A run: two datagrams, a rule for cpu, a writer for the subject of that rule. *)
Definition ex_rule_cfg : fcfg := mkFcfg 1000 [mkRule (MBasic (lit "cpu")) (lit "s0")] (lit "junk").
Definition ex_udp : list udp_in := [mkU (lit "cpu,b=2,a=1 x=1") ENone 1 1 1; mkU (lit "mem y=2
") ENone 3 3 3].
Definition ex_lines : list bytes := [lit "cpu,b=2,a=1 x=1
"; lit "mem y=2
"].
Definition ex_msg : bytes := lit "cpu,b=2,a=1 x=1
mem y=2
".
Definition ex_out : bytes := lit "cpu,a=1,b=2 x=1
".
Definition ex_job : job := (fun _ : nat => true, 1500000000000000000, ex_msg).
Definition ex_fl : list flabel := [] ++ [LReceive ex_msg] ++ [LTake 0 ex_job] ++ [LAct 0 (AInc FProcessed)] ++ [LAct 0 (AInc FPassed)] ++
  [LAct 0 (ARule 0)] ++ [LAct 0 (AInc FProcessed)] ++ [LAct 0 (AInc FRejected)] ++ [LAct 0 (APublish (lit "s0") ex_out true)] ++
  [LAct 0 (APublish (lit "junk") (lit "mem y=2
") true)] ++ [LDone 0].
Definition ex_wcfg : wcfg := mkWC 1 100 1000 [] 0 60 10.
Definition ex_wlabels : list wlabel := [PMsg 5 5 ex_out; PPost (Status 204) 6].
Definition ex_writer : wworker :=
  match wrun ex_wcfg (newWorker 0 0) ex_wlabels with
  | Some (s, tr) => WW ex_wcfg 0 0 ex_wlabels s tr
  | None => WW ex_wcfg 0 0 ex_wlabels (newWorker 0 0) []
  end.

Example C56_source : udp_source (mkLConf 2 1000 100000) ex_udp ex_lines [ex_msg].
Proof.
  split; [cbn; lia|]. split; [repeat constructor; vm_compute; discriminate|].
  exists (fun _ => false), 0. vm_compute. auto.
Qed.

Example C56_pipe : exists s, pipe (@isort) ex_lines [ex_msg] ex_rule_cfg 1 ex_fl s.
Proof.
  eexists. split; [exact isort_sorts|]. split; [left; do 2 eexists; exact C56_source|]. split; [apply Permutation_refl|].
  split; [|split; [|split; [|split]]].
  - unfold ex_fl. rewrite !app_assoc. repeat eapply fe_step. apply fe_nil.
    1: apply fs_receive; vm_compute; lia.
    1: apply fs_take with (st := newFilterWorker ex_rule_cfg); [reflexivity|vm_compute; reflexivity].
    1-7: eapply fs_act; reflexivity.
    eapply fs_done. reflexivity.
  - split; [reflexivity|repeat constructor].
  - constructor; [|constructor]. unfold time_ok, ex_job, int64, minInt64, maxInt64, two63, ex_rule_cfg; simpl; lia.
  - assert (K : forall r name m, In r (fc_rules ex_rule_cfg) -> r_match r = MBasic name -> hashMeasurement (lit "cpu") = hashMeasurement m -> lit "cpu" = m -> name = m).
    { intros r name m [<-|[]] E _ X. inversion E; subst. reflexivity. }
    constructor; [|constructor; [|constructor]]; (split; [intros m tags rest H|intros m tags rest H; right; vm_compute in H; inversion H; subst; discriminate]);
      vm_compute in H; inversion H; subst; clear H; (split; [intros r name [<-|[]] E X; inversion E; subst; clear E|]).
    + reflexivity.
    + right. split; [intros x r E; inversion E; subst; split; discriminate|]. constructor; [|constructor]. intros (ts & E). discriminate.
    + vm_compute in X. discriminate.
    + left. left. intros i j a b L Hi. destruct i; discriminate.
  - reflexivity.
Qed.

Example C56_writer : plain_writer ex_writer /\ settled_ok ex_writer /\ delivered_to [lit "s0"] ex_fl [ex_writer].
Proof.
  split; [|split].
  - split; [|split; [reflexivity|]].
    + split; [vm_compute; lia|]. split; [vm_compute; discriminate|vm_compute; reflexivity].
    + vm_compute. repeat constructor.
  - split; [reflexivity|]. split; [reflexivity|]. vm_compute. intros H. exfalso. apply H. reflexivity.
  - vm_compute. apply Permutation_refl.
Qed.

Example C56_result : in_influxdb [ex_writer] = [ex_out].
Proof. vm_compute. reflexivity. Qed.
