(** C107: how lines are grouped into NATS messages does not matter. *)
From Verif Require Import Base Text TextSpec NumSpec LinesSpec Timestamps Rules RulesSpec RulesProofs FilterWorker FilterSpec FilterProofs
  Retry Writer WriterSpec WriterTop Assigner AssignerSpec Grouping.
Local Open Scope Z_scope.

(** Filter: with distinct subjects the lines published on each subject, and their order, do not depend on how the
    lines arrived in messages (with clock readings which make each line timely in both or in neither). *)
Theorem C107_filter_partial : forall gs c jobs jobs', NoDup (map r_subject (fc_rules c) ++ [fc_junk c]) ->
  Forall (job_bounds c) jobs -> Forall (job_bounds c) jobs' -> same_reads (fc_delta c) jobs jobs' ->
  forall s, sent_on s (snd (run_worker gs c (newFilterWorker c) jobs)) = sent_on s (snd (run_worker gs c (newFilterWorker c) jobs')).
Proof. exact filter_grouping. Qed.
Print Assumptions C107_filter_partial.

(** Neither do its counters, apart from failed publishes; whatever the subjects. *)
Theorem C107_filter_counters : forall gs c jobs jobs',
  Forall (job_bounds c) jobs -> Forall (job_bounds c) jobs' -> same_reads (fc_delta c) jobs jobs' ->
  let a := snd (run_worker gs c (newFilterWorker c) jobs) in let a' := snd (run_worker gs c (newFilterWorker c) jobs') in
  (forall s, s <> FFailedPublish -> counter s a = counter s a') /\ (forall i, rule_counter i a = rule_counter i a').
Proof. exact filter_grouping_counters. Qed.
Print Assumptions C107_filter_counters.

(** Two rules with one subject: the order of the lines on that subject depends on the grouping. *)
Definition gr_cfg (s : bytes) : fcfg := mkFcfg 1000 [mkRule (MBasic (lit "a")) (lit "out"); mkRule (MBasic (lit "b")) s] (lit "junk").
Definition ln (s : bytes) : bytes := s ++ [nl].
Definition gr_one : list job := [(fun _ => true, 500, ln (lit "b f=1 400") ++ ln (lit "a f=2") ++ ln (lit "c f=3") ++ ln (lit "a f=4 160000000000009000"))].
Definition gr_two : list job :=
  [(fun _ => true, 300, ln (lit "b f=1 400")); (fun _ => false, 600, ln (lit "a f=2") ++ ln (lit "c f=3")); (fun _ => true, 700, ln (lit "a f=4 160000000000009000"))].
Lemma gr_same : same_reads 1000 gr_one gr_two /\ Forall (job_bounds (gr_cfg (lit "x"))) gr_one /\ Forall (job_bounds (gr_cfg (lit "x"))) gr_two.
Proof.
  split; [|split; repeat constructor; cbn; unfold int64, minInt64, maxInt64; lia].
  assert (T : forall now now' l, in_window (gr_cfg (lit "x")) now l = in_window (gr_cfg (lit "x")) now' l -> timely 1000 now l <-> timely 1000 now' l).
  { intros now now' l H. rewrite <- !(in_window_timely (gr_cfg (lit "x"))), H. tauto. }
  unfold same_reads. repeat (constructor; [split; [reflexivity|apply T; vm_compute; reflexivity]|]). constructor.
Qed.

Theorem C107_shared_subject_refuted : exists c jobs jobs', Forall (job_bounds c) jobs /\ Forall (job_bounds c) jobs' /\
  same_reads (fc_delta c) jobs jobs' /\
  sent_on (lit "out") (snd (run_worker (@isort) c (newFilterWorker c) jobs)) = ln (lit "a f=2") ++ ln (lit "b f=1 400") /\
  sent_on (lit "out") (snd (run_worker (@isort) c (newFilterWorker c) jobs')) = ln (lit "b f=1 400") ++ ln (lit "a f=2").
Proof.
  exists (gr_cfg (lit "out")), gr_one, gr_two. destruct gr_same as (A & B & C).
  split; [exact B|]. split; [exact C|]. split; [exact A|]. split; vm_compute; reflexivity.
Qed.
Print Assumptions C107_shared_subject_refuted.

Example C107_filter_case : let c := gr_cfg (lit "other") in
  NoDup (map r_subject (fc_rules c) ++ [fc_junk c]) /\ same_reads (fc_delta c) gr_one gr_two /\
  map (fun s => sent_on s (snd (run_worker (@isort) c (newFilterWorker c) gr_two))) [lit "out"; lit "other"; lit "junk"; lit "zz"] =
    [ln (lit "a f=2"); ln (lit "b f=1 400"); ln (lit "c f=3"); []] /\
  counter FInvalidTime (snd (run_worker (@isort) c (newFilterWorker c) gr_one)) = 1%nat.
Proof.
  split; [|split; [apply gr_same|split; vm_compute; reflexivity]].
  repeat (constructor; [cbn; intuition discriminate|]). constructor.
Qed.

(** Writer: two runs of a worker whose messages contain the same lines, however grouped and at whatever times, with any
    timer events and any outcomes of POSTs: what was posted so far followed by what is still held is the same. *)
Theorem C107_writer : forall c cap now ls s tr cap' now' ls' s' tr', (1 <= wc_size c)%nat -> 0 <= cap -> 0 <= cap' ->
  wrun c (Writer.newWorker cap now) ls = Some (s, tr) -> wrun c (Writer.newWorker cap' now') ls' = Some (s', tr') ->
  flat_map (fun m => lines_of (snd m)) (messages tr) = flat_map (fun m => lines_of (snd m)) (messages tr') ->
  concat (bodies tr) ++ held s = concat (bodies tr') ++ held s'.
Proof. exact writer_grouping. Qed.
Print Assumptions C107_writer.

Definition gr_wcfg : wcfg := mkWC 2 100 1000 [mkRule (MBasic (lit "a")) []; mkRule (MBasic (lit "b")) []] 0 60 10.
Example C107_writer_case :
  let ls1 := [PMsg 1 1 (ln (lit "b f=1") ++ ln (lit "c f=2") ++ ln (lit "a f=3") ++ ln (lit "b f=4")); PPost (Status 204) 2] in
  let ls2 := [PMsg 1 1 (ln (lit "b f=1")); PMsg 5 5 (ln (lit "c f=2") ++ ln (lit "a f=3")); PPost NoResponse 9; PMsg 10 10 (ln (lit "b f=4"))] in
  match wrun gr_wcfg (Writer.newWorker 0 0) ls1, wrun gr_wcfg (Writer.newWorker 8 0) ls2 with
  | Some (s, tr), Some (s', tr') =>
      flat_map (fun m => lines_of (snd m)) (messages tr) = flat_map (fun m => lines_of (snd m)) (messages tr') /\
      bodies tr = [ln (lit "b f=1") ++ ln (lit "a f=3") ++ ln (lit "b f=4")] /\ held s = [] /\
      bodies tr' = [ln (lit "b f=1") ++ ln (lit "a f=3")] /\ held s' = ln (lit "b f=4")
  | _, _ => False
  end.
Proof. vm_compute. repeat split. Qed.

(** Downsampler: two histories with the same lines (and clock readings), periods being put out after the same lines: the
    same buckets are put out and remain, and the same lines are refused. *)
Theorem C107_downsampler : forall (B E : Type) (newBucket : Z -> B) (addLine : B -> bytes -> B * list E) a cs cs' a1 a1' ans ans',
  do_calls B E newBucket addLine a cs = (a1, ans) -> do_calls B E newBucket addLine a cs' = (a1', ans') ->
  stream B E cs ans = stream B E cs' ans' -> a1 = a1' /\ buckets B E ans = buckets B E ans' /\ complaints B E ans = complaints B E ans'.
Proof. exact downsampler_grouping. Qed.
Print Assumptions C107_downsampler.

Example C107_downsampler_case :
  let nb := fun _ : Z => @nil bytes in let add := fun (b : list bytes) l => (b ++ [l], @nil unit) in
  let a := newAssigner (list bytes) nb 10 0 in
  let cs := [CUpdate (ln (lit "a f=1 5") ++ ln (lit "b f=2") ++ ln (lit "c f=3 90")) (fun k => Z.of_nat k + 1); CBytes 11; CUpdate (lit "d f=4") (fun _ => 12)] in
  let cs' := [CUpdate (ln (lit "a f=1 5")) (fun _ => 1); CBytes 3; CUpdate (ln (lit "b f=2")) (fun _ => 2); CUpdate (ln (lit "c f=3 90")) (fun _ => 3);
              CBytes 15; CBytes 16; CUpdate (ln (lit "d f=4")) (fun _ => 12)] in
  let r := do_calls (list bytes) unit nb add a cs in let r' := do_calls (list bytes) unit nb add a cs' in
  stream (list bytes) unit cs (snd r) = stream (list bytes) unit cs' (snd r') /\
  buckets (list bytes) unit (snd r) = [(0, [])] /\ a_prev _ (fst r) = (10, [lit "a f=1"; lit "b f=2"]) /\
  complaints (list bytes) unit (snd r) = [UTooNew (lit "c f=3 90")].
Proof. vm_compute. repeat split. Qed.
