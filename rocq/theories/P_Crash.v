(** C88: the pipeline at any moment, with components killed and started again. *)
From Verif Require Import Base Batch LinesSpec Text TextSpec Rules RulesSpec RulesProofs FilterWorker FilterSpec FilterProofs Listener ListenerSpec
  Retry RetrySpec Writer WriterSpec EndToEnd EndToEndProofs P_EndToEnd Crash.
Local Open Scope Z_scope.

(** Whatever InfluxDB acknowledged is, with multiplicity, part of the forwarded forms of lines that were sent to the
    listeners, each sent line counting at most once. *)
Theorem C88_at_most_once : forall gosort c subs srcs fs ws, histories gosort c subs srcs fs ws ->
  exists outs, part (map snd (taken_up fs)) (flat_map fst srcs) /\
    Forall2 (fun h o => forwarded c subs (fst h) (snd h) o) (taken_up fs) outs /\
    part (in_writer ws) (concat outs) /\ part (in_influxdb ws) (in_writer ws).
Proof. exact any_moment. Qed.
Print Assumptions C88_at_most_once.

(** With lines that are in time, well-formed and have their tags in order: part of the lines that belong on the subjects. *)
Theorem C88_unchanged : forall gosort c subs srcs fs ws sel, histories gosort c subs srcs fs ws ->
  Forall (fun h => passes c (fst h) (snd h)) (taken_up fs) -> Forall (selects c subs sel) (flat_map fst srcs) ->
  part (in_influxdb ws) (filter sel (flat_map fst srcs)).
Proof. exact any_moment_selected. Qed.
Print Assumptions C88_unchanged.

(** A listener killed after any read loses only the end of what arrived, and that is less than one batch. *)
Theorem C88_listener_killed : forall pubfails c now us u, 0 <= lc_max_size c <= 1048576 ->
  Forall (fun u => Z.of_nat (length (u_data u)) <= 65536) (us ++ [u]) ->
  exists lost, sent_lines (us ++ [u]) = flat_map lines_of (ls_pub (udp_run pubfails c (newListener c now) (us ++ [u]))) ++ flat_map lines_of lost /\
    (exists kept, arrived (us ++ [u]) = kept ++ lost) /\
    (lost = [] \/ Z.of_nat (length lost) < lc_max_count c /\ Z.of_nat (length (concat lost)) + 65536 < lc_max_size c).
Proof. exact listener_killed. Qed.
Print Assumptions C88_listener_killed.

(** A listener, a filter killed after its first publish, a second filter that never received anything, and a writer. *)
Definition ex_killed : list flabel := [] ++ [LReceive ex_msg] ++ [LTake 0 ex_job] ++ [LAct 0 (AInc FProcessed)] ++ [LAct 0 (AInc FPassed)] ++
  [LAct 0 (ARule 0)] ++ [LAct 0 (AInc FProcessed)] ++ [LAct 0 (AInc FRejected)] ++ [LAct 0 (APublish (lit "s0") ex_out true)].

Example C88_case : exists s, histories (@isort) ex_rule_cfg [lit "s0"] [(ex_lines, [ex_msg])]
  [FR 1 ex_killed s; FR 3 [] (startFilter ex_rule_cfg 3)] [ex_writer] /\
  in_influxdb [ex_writer] = [ex_out] /\ ~ s = startFilter ex_rule_cfg 1.
Proof.
  destruct C56_pipe as (_ & _ & _ & _ & _ & _ & T & So & _).
  eexists. split; [|split; [vm_compute; reflexivity|]].
  - constructor.
    + exact isort_sorts.
    + constructor; [|constructor]. exists (mkLConf 2 1000 100000), ex_udp, (fun _ => false), 0. vm_compute. split; [split; discriminate|].
      split; [repeat constructor; discriminate|]. split; reflexivity.
    + exact So.
    + constructor; [|constructor; [|constructor]]; cbn [fr_workers fr_labels fr_state].
      * split; [|exact T]. unfold ex_killed. rewrite !app_assoc. repeat eapply fe_step. apply fe_nil.
        1: apply fs_receive; vm_compute; lia.
        1: apply fs_take with (st := newFilterWorker ex_rule_cfg); [reflexivity|vm_compute; reflexivity].
        all: eapply fs_act; reflexivity.
      * split; [apply fe_nil|constructor].
    + exists []. vm_compute. apply Permutation_refl.
    + constructor; [apply C56_writer|constructor].
    + exists []. vm_compute. apply Permutation_refl.
  - vm_compute. discriminate.
Qed.
