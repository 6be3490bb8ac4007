(** C117 for a filter: outages between its workers and the NATS server (each worker has its own connection, filter/worker.go:49-52). *)
From Verif Require Import Base Text Timestamps Rules RulesSpec RulesProofs FilterWorker FilterSpec FilterProofs P_Filter Outage OutageProofs P_Outage.
Local Open Scope nat_scope.

(** The calls of Publish and their results: those of a worker, and those on a connection. *)
Definition calls_of (acts : list act) : list (msg * bool) :=
  flat_map (fun a => match a with APublish s d ok => [((s, d), ok)] | _ => [] end) acts.
Definition calls_on (o : list oobs) : list (msg * bool) :=
  flat_map (fun x => match x with OPub m ok => [(m, ok)] | _ => [] end) o.

Lemma calls_failures acts : count_publish_failures acts = length (filter (fun c => negb (snd c)) (calls_of acts)).
Proof.
  unfold count_publish_failures, calls_of. induction acts as [|a acts IH]; [reflexivity|]. cbn [filter flat_map]. rewrite filter_app, app_length, <- IH.
  destruct a as [s|i|s d ok]; [reflexivity..|]. destruct ok; reflexivity.
Qed.
Lemma calls_published acts : FilterSpec.published acts = map fst (calls_of acts).
Proof.
  unfold FilterSpec.published, calls_of. induction acts as [|a acts IH]; [reflexivity|]. cbn [flat_map]. rewrite map_app, IH. destruct a; reflexivity.
Qed.
Lemma calls_mine subject o : Outage.published subject o = filter (fun m : msg => beqs (fst m) subject) (map fst (calls_on o)).
Proof.
  unfold Outage.published, calls_on. f_equal. induction o as [|x o IH]; [reflexivity|]. cbn [map concat flat_map]. rewrite map_app, IH. destruct x; reflexivity.
Qed.

(** During outages of any kind, failed_nats_publish of a worker counts exactly the messages refused by its connection. *)
Theorem C117_filter_counted : forall gosort c js subject ls s o, sorts gosort -> Forall (job_bounds c) js ->
  let acts := snd (run_worker gosort c (newFilterWorker c) js) in
  orun subject ostart ls = Some (s, o) -> calls_of acts = calls_on o ->
  counter FFailedPublish acts = length (filter (fun c => negb (snd c)) (calls_on o)).
Proof.
  intros gosort c js subject ls s o GS B acts E Q.
  destruct (C29_counters gosort c js GS B) as (fss & _ & _ & _ & _ & _ & _ & _ & F). fold acts in F. rewrite F, calls_failures, Q. reflexivity.
Qed.
Print Assumptions C117_filter_counted.

(** If they are gentle, a subscriber gets, in order, every message the worker made for its subject: those that the fates of the lines
    it received call for (see C28, C29). *)
Theorem C117_filter_partial : forall gosort c js subject ls s o, sorts gosort -> Forall (job_bounds c) js ->
  let acts := snd (run_worker gosort c (newFilterWorker c) js) in
  orun subject ostart ls = Some (s, o) -> calls_of acts = calls_on o -> gentle_run subject ostart ls ->
  exists fss, history_fates c js fss /\
    received o ++ under_way subject s = filter (fun m : msg => beqs (fst m) subject) (flat_map (outputs (fc_rules c) (fc_junk c)) fss) /\
    counter FFailedPublish acts = 0.
Proof.
  intros gosort c js subject ls s o GS B acts E Q G.
  destruct (C29_counters gosort c js GS B) as (fss & Hf & P & _ & _ & _ & _ & _ & F). fold acts in P, F.
  destruct (C117_gentle_partial subject ls s o E G) as [A K]. exists fss. split; [exact Hf|]. split.
  - rewrite A, calls_mine, <- Q, <- calls_published, P. reflexivity.
  - rewrite F, calls_failures, Q. clear - K. unfold calls_on. induction K as [|x o H K IH]; [reflexivity|]. cbn [flat_map].
    rewrite filter_app, app_length, IH. destruct x; try reflexivity. subst ok. reflexivity.
Qed.
Print Assumptions C117_filter_partial.

(** A worker with the server down for the second of its messages: kept, and received after the restart. *)
Example C117_filter_case :
  let c := mkFcfg 1000 [mkRule (MBasic (lit "cpu")) (lit "spout")] (lit "junk") in
  let js := [(fun _ => true, 5%Z, lit "cpu a=1"); (fun _ => true, 6%Z, lit "cpu a=2")] in
  let ls := [Pub (lit "spout", lit "cpu a=1") false; Take; Deliver; ServerDown; Notice; Pub (lit "spout", lit "cpu a=2") false; ServerUp; SubBack; PubBack; Take; Deliver] in
  Forall (job_bounds c) js /\ gentle_run (lit "spout") ostart ls /\
  exists s o, orun (lit "spout") ostart ls = Some (s, o) /\ calls_of (snd (run_worker (@isort) c (newFilterWorker c) js)) = calls_on o /\
    received o = [(lit "spout", lit "cpu a=1"); (lit "spout", lit "cpu a=2")].
Proof.
  cbv zeta. split; [|split].
  - repeat constructor; vm_compute; intuition discriminate.
  - vm_compute. repeat split; reflexivity.
  - do 2 eexists. split; [vm_compute; reflexivity|]. split; vm_compute; reflexivity.
Qed.
