(** C111: a counter on the metrics page never goes down while its component runs. *)
From Verif Require Import Base Convert NumSpec Prom RulesSpec RulesProofs PromSpec PromParse PromProofs PromMonitor PromTop PromStats
  Stats StatsSpec StatsProofs Reports MetricsGrow CompGrow.
Local Open Scope Z_scope.

(** If no later report of a metric states a smaller value (and all values are below 2^63), then of any two
    answers of the monitor the later one still has every metric of the earlier one, with at least its value. *)
Theorem C111_answers : forall gs e1 e2, sorts gs -> events_ok (e1 ++ e2) -> growing (reports (e1 ++ e2)) -> small (reports (e1 ++ e2)) ->
  exists set1 outs a1 set2 mid a2 s1 s2,
    mon_run gs [] (map (devent_event gs) (e1 ++ [inr tt])) = Some (set1, outs ++ [a1]) /\
    mon_run gs [] (map (devent_event gs) ((e1 ++ [inr tt]) ++ e2 ++ [inr tt])) = Some (set2, (outs ++ [a1]) ++ mid ++ [a2]) /\
    a1 = page s1 /\ a2 = page s2 /\
    forall name ls v ms, In (Entry name ls v ms) s1 -> exists v' ms', In (Entry name ls v' ms') s2 /\ v <= v'.
Proof. exact two_answers. Qed.
Print Assumptions C111_answers.

(** The reports of a running filter are such, if its rules have different subjects: for every schedule of its
    goroutines, for every order in which the counters are read. *)
Theorem C111_filter_partial : forall gs c rounds workers names sched s labels ds,
  let subjects := map Rules.r_subject (FilterWorker.fc_rules c) in NoDup subjects ->
  uint64_args (real_filter gs c rounds workers) ->
  run names (real_filter gs c rounds workers) sched = Some (s, concat (map rd_log ds)) -> Z.of_nat (length (concat (map rd_log ds))) < 2 ^ 64 ->
  Forall (read_in (length subjects)) ds -> (forall n v, shows (concat (map rd_log ds)) n v -> 0 <= v < 2 ^ 63) ->
  growing (concat (map (round_reports labels subjects) ds)) /\ small (concat (map (round_reports labels subjects) ds)).
Proof. exact filter_growing. Qed.
Print Assumptions C111_filter_partial.

(** From the counters to the page, although reports may get lost on the way. *)
Theorem C111_filter_page_partial : forall gs c rounds workers names sched s labels ds e1 e2, sorts gs ->
  let subjects := map Rules.r_subject (FilterWorker.fc_rules c) in NoDup subjects ->
  uint64_args (real_filter gs c rounds workers) ->
  run names (real_filter gs c rounds workers) sched = Some (s, concat (map rd_log ds)) -> Z.of_nat (length (concat (map rd_log ds))) < 2 ^ 64 ->
  Forall (read_in (length subjects)) ds -> (forall n v, shows (concat (map rd_log ds)) n v -> 0 <= v < 2 ^ 63) ->
  events_ok (e1 ++ e2) -> some_of (reports (e1 ++ e2)) (concat (map (round_reports labels subjects) ds)) ->
  exists set1 outs a1 set2 mid a2 s1 s2,
    mon_run gs [] (map (devent_event gs) (e1 ++ [inr tt])) = Some (set1, outs ++ [a1]) /\
    mon_run gs [] (map (devent_event gs) ((e1 ++ [inr tt]) ++ e2 ++ [inr tt])) = Some (set2, (outs ++ [a1]) ++ mid ++ [a2]) /\
    a1 = page s1 /\ a2 = page s2 /\
    forall name ls v ms, In (Entry name ls v ms) s1 -> exists v' ms', In (Entry name ls v' ms') s2 /\ v <= v'.
Proof. exact filter_answers. Qed.
Print Assumptions C111_filter_page_partial.

(** Any component: its statistics goroutine reads counters that its other goroutines count with in any way
    and in any interleaving, and adds one counter per item (rule, subject); the items have different names and
    their numbers do not decrease. A listener has no items, so nothing is required of it. *)
Theorem C111_component : forall names progs sched s labels cname lname ds, uint64_args progs ->
  run names progs sched = Some (s, concat (map cr_log ds)) -> in_range (concat (map cr_log ds)) ->
  Forall snap_read ds -> items_grow ds -> fit63 ds ->
  growing (concat (map (comp_reports labels cname lname) ds)) /\ small (concat (map (comp_reports labels cname lname) ds)).
Proof. exact component_growing. Qed.
Print Assumptions C111_component.
(** Components that differ in the value of one of their labels (type, name or host) do not share metrics. *)
Theorem C111_apart : forall labels cname lname ds labels' cname' lname' ds' key x y, In (key, x) labels -> In (key, y) labels' -> x <> y ->
  (forall z, In (key, z) labels -> z = x) -> lname <> key ->
  apart (concat (map (comp_reports labels cname lname) ds)) (concat (map (comp_reports labels' cname' lname') ds')).
Proof. exact comp_apart. Qed.
Print Assumptions C111_apart.
(** Any number of components that share no metrics; their reports arrive interleaved in any way, some get lost. *)
Theorem C111_deployment : forall gs sources all e1 e2, sorts gs ->
  Forall growing sources -> Forall small sources -> ForallOrdPairs apart sources -> merges sources all ->
  events_ok (e1 ++ e2) -> some_of (reports (e1 ++ e2)) all ->
  exists set1 outs a1 set2 mid a2 s1 s2,
    mon_run gs [] (map (devent_event gs) (e1 ++ [inr tt])) = Some (set1, outs ++ [a1]) /\
    mon_run gs [] (map (devent_event gs) ((e1 ++ [inr tt]) ++ e2 ++ [inr tt])) = Some (set2, (outs ++ [a1]) ++ mid ++ [a2]) /\
    a1 = page s1 /\ a2 = page s2 /\
    forall name ls v ms, In (Entry name ls v ms) s1 -> exists v' ms', In (Entry name ls v' ms') s2 /\ v <= v'.
Proof. exact deployment_answers. Qed.
Print Assumptions C111_deployment.

(** Two rules with one subject (which nothing forbids) share a metric: the page shows now the count of
    the one, now of the other. Here the first rule has passed a line, the second none; nothing else happens. *)
Definition twin_rules : FilterWorker.fcfg := FilterWorker.mkFcfg 3600000000000
  [Rules.mkRule (Rules.MBasic (lit "cpu")) (lit "hot"); Rules.mkRule (Rules.MBasic (lit "mem")) (lit "hot")] (lit "junk").
Definition twin_job : FilterWorker.job := (fun _ => true, 1500000000000000000, lit "cpu,host=a load=1" ++ [nl]).
Definition twin_progs : list (list sop) := real_filter (@isort) twin_rules [(Some 0, filter_names)] [[twin_job]].
Definition twin_sched : list nat := ([1; 1; 1] ++ repeat 0 20)%nat.
Definition twin_labels : list (bytes * bytes) := NewLabels (lit "h") (lit "filter") (lit "f").
Definition twin_run : option (_ * slog) := run (all_names 2) twin_progs twin_sched.
Definition twin_log : slog := match twin_run with Some (_, l) => l | None => [] end.
Definition twin_round : round := mkRound twin_log 1500000000000000000
  [(lit "passed", 1); (lit "processed", 1); (lit "rejected", 0); (lit "invalid_time", 0); (lit "failed_nats_publish", 0); (lit "nats_dropped", 0)] [1; 0].
Definition twin_line (v : Z) : bytes :=
  lit "triggered{component=""filter"",host=""h"",name=""f"",rule=""hot""} " ++ FormatInt v ++ lit " 1500000000000" ++ [nl].
Definition twin_other (name : string) (v : Z) : bytes :=
  lit name ++ lit "{component=""filter"",host=""h"",name=""f""} " ++ FormatInt v ++ lit " 1500000000000" ++ [nl].
Theorem C111_refuted : exists s r0 r1 r2,
  run (all_names 2) twin_progs twin_sched = Some (s, concat (map rd_log [twin_round])) /\ read_in 2 twin_round /\
  round_reports twin_labels [lit "hot"; lit "hot"] twin_round = [r0; r1; r2] /\
  count (all_names 2) s (rule_stat 0) = 1 /\ count (all_names 2) s (rule_stat 1) = 0 /\
  exists set p1 p2 rest, mon_run (@isort) [] (map (devent_event (@isort)) [inl (r0, fun l => l); inl (r1, fun l => l); inr tt; inl (r2, fun l => l); inr tt]) =
    Some (set, [p1; p2]) /\ p1 = rest ++ twin_line 1 /\ p2 = rest ++ twin_line 0.
Proof.
  eexists _, _, _, _. split; [vm_compute; reflexivity|]. split.
  { split; [repeat constructor; cbn; intuition discriminate|]. split.
    - unfold twin_round. cbn [rd_snap rd_log].
      repeat (apply Forall_cons; [split; [vm_compute; repeat (first [left; reflexivity|right])|unfold shows; vm_compute; repeat (first [left; reflexivity|right])]|]). apply Forall_nil.
    - unfold twin_round. cbn [rd_counts rd_log seq].
      repeat (apply Forall2_cons; [unfold shows; vm_compute; repeat (first [left; reflexivity|right])|]). apply Forall2_nil. }
  split; [reflexivity|]. split; [vm_compute; reflexivity|]. split; [vm_compute; reflexivity|].
  eexists _, _, _. exists (twin_other "failed_nats_publish" 0 ++ twin_other "invalid_time" 0 ++ twin_other "nats_dropped" 0 ++ twin_other "passed" 1 ++ twin_other "processed" 1 ++ twin_other "rejected" 0).
  split; [vm_compute; reflexivity|]. split; vm_compute; reflexivity.
Qed.
Print Assumptions C111_refuted.

(** The hypotheses are met: two subjects, a round before and a round after the worker has passed a line. *)
Definition pair_rules : FilterWorker.fcfg := FilterWorker.mkFcfg 3600000000000
  [Rules.mkRule (Rules.MBasic (lit "cpu")) (lit "hot"); Rules.mkRule (Rules.MBasic (lit "mem")) (lit "warm")] (lit "junk").
Definition pair_progs : list (list sop) := real_filter (@isort) pair_rules [(Some 0, filter_names); (Some 0, filter_names)] [[twin_job]].
Definition pair_sched : list nat := (repeat 0 10 ++ [1; 1; 1] ++ repeat 0 10)%nat.
Definition pair_log : slog := match run (all_names 2) pair_progs pair_sched with Some (_, l) => l | None => [] end.
Definition pair_rounds : list round :=
  [mkRound (firstn 9 pair_log) 1500000000000000000 [(lit "passed", 0); (lit "processed", 0)] [0; 0];
   mkRound (skipn 9 pair_log) 1500000003000000000 [(lit "passed", 1); (lit "processed", 1)] [1; 0]].
Ltac In_list := vm_compute; repeat (first [left; reflexivity|right]).
Example C111_case : exists s, run (all_names 2) pair_progs pair_sched = Some (s, concat (map rd_log pair_rounds)) /\
  NoDup (map Rules.r_subject (FilterWorker.fc_rules pair_rules)) /\ uint64_args pair_progs /\ Forall (read_in 2) pair_rounds /\
  (forall n v, shows (concat (map rd_log pair_rounds)) n v -> 0 <= v < 2 ^ 63) /\
  let rs := concat (map (round_reports twin_labels [lit "hot"; lit "warm"]) pair_rounds) in
  Forall report_ok rs /\ length rs = 6%nat.
Proof.
  eexists. split; [vm_compute; reflexivity|]. split; [repeat constructor; vm_compute; intuition discriminate|].
  split; [repeat constructor; vm_compute; auto; discriminate|]. split.
  { unfold pair_rounds. apply Forall_cons; [|apply Forall_cons; [|apply Forall_nil]]; (split; [repeat constructor; cbn; intuition discriminate|split]); cbn [rd_snap rd_log rd_counts seq].
    - repeat (apply Forall_cons; [split; [In_list|unfold shows; In_list]|]). apply Forall_nil.
    - repeat (apply Forall2_cons; [unfold shows; In_list|]). apply Forall2_nil.
    - repeat (apply Forall_cons; [split; [In_list|unfold shows; In_list]|]). apply Forall_nil.
    - repeat (apply Forall2_cons; [unfold shows; In_list|]). apply Forall2_nil. }
  split.
  { intros n v H. unfold shows in H. vm_compute in H. repeat (destruct H as [H|H]; [inversion H; subst; vm_compute; split; congruence|]). destruct H. }
  split; [|vm_compute; reflexivity].
  assert (Q : forall s : bytes, ~ In dq s -> no_eqdq s) by (intros s N p q ->; apply N; apply in_app_iff; right; right; left; reflexivity).
  vm_compute map. unfold concat. cbn [app].
  repeat (apply Forall_cons; [cbn [report_ok]; repeat match goal with |- _ /\ _ => split end|]); try apply Forall_nil;
    try (repeat constructor; cbn; intuition discriminate);
    try (repeat constructor; cbn [fst snd]; try (apply Q); try discriminate; cbn; intuition discriminate);
    unfold int64, minInt64, maxInt64, two63; lia.
Qed.

(** A listener with two rounds and a writer with one; their reports interleaved. *)
Definition lst_progs : list (list sop) := [[SGet (lit "received"); SGet (lit "received")]; [SInc (lit "received"); SInc (lit "received")]].
Definition lst_sched : list nat := [1; 0; 1; 0]%nat.
Definition lst_log : slog := match run [lit "received"] lst_progs lst_sched with Some (_, l) => l | None => [] end.
Definition lst_rounds : list cround := [mkCround (firstn 2 lst_log) 1000000 [(lit "received", 1)] []; mkCround (skipn 2 lst_log) 4000000 [(lit "received", 2)] []].
Definition lst_reports : list report := concat (map (comp_reports (NewLabels (lit "h") (lit "listener") (lit "l")) [] []) lst_rounds).
Definition wrt_reports : list report := comp_reports (NewLabels (lit "h") (lit "writer") (lit "w")) (lit "nats_dropped") (lit "subject")
  (mkCround [] 2000000 [] [(lit "a", 3); (lit "b", 0)]).
Example C111_case_component : exists s, run [lit "received"] lst_progs lst_sched = Some (s, concat (map cr_log lst_rounds)) /\
  uint64_args lst_progs /\ in_range (concat (map cr_log lst_rounds)) /\ Forall snap_read lst_rounds /\ items_grow lst_rounds /\ fit63 lst_rounds.
Proof.
  eexists. split; [vm_compute; reflexivity|]. split; [repeat constructor|]. split.
  { intros n. replace (concat (map cr_log lst_rounds)) with
      [(1%nat, SInc (lit "received"), 1); (0%nat, SGet (lit "received"), 1); (1%nat, SInc (lit "received"), 2); (0%nat, SGet (lit "received"), 2)] by (vm_compute; reflexivity).
    unfold maxes, incs. cbn [flat_map filter snd fst app largest]. destruct (beqs _ n); cbn; lia. }
  split.
  { unfold lst_rounds. replace lst_log with
      [(1%nat, SInc (lit "received"), 1); (0%nat, SGet (lit "received"), 1); (1%nat, SInc (lit "received"), 2); (0%nat, SGet (lit "received"), 2)] by (vm_compute; reflexivity).
    cbn [firstn skipn]. apply Forall_cons; [|apply Forall_cons; [|apply Forall_nil]]; (split; [repeat constructor; intros []|]); cbn [cr_snap cr_log];
      (apply Forall_cons; [exists 0%nat; cbn [fst snd]; repeat (first [left; reflexivity|right])|apply Forall_nil]). }
  split.
  { split; [repeat constructor|]. intros [|[|k]] k' d d' tag v v' _ Hd _ Hi; cbn in Hd; try (destruct k; discriminate Hd); inversion Hd; subst d; destruct Hi. }
  intros d n v [<-|[<-|[]]] [H|H]; cbn in H; repeat (destruct H as [H|H]; [inversion H; lia|]); destruct H.
Qed.
Example C111_case_apart : apart lst_reports wrt_reports.
Proof.
  assert (X := C111_apart (NewLabels (lit "h") (lit "listener") (lit "l")) [] [] lst_rounds
    (NewLabels (lit "h") (lit "writer") (lit "w")) (lit "nats_dropped") (lit "subject") [mkCround [] 2000000 [] [(lit "a", 3); (lit "b", 0)]]
    (lit "component") (lit "listener") (lit "writer")). cbn [map concat] in X. rewrite app_nil_r in X. apply X.
  - vm_compute. auto.
  - vm_compute. auto.
  - discriminate.
  - intros z H. vm_compute in H. destruct H as [H|[H|[H|[]]]]; inversion H; reflexivity.
  - discriminate.
Qed.
Example C111_case_merge : exists a b, lst_reports = [a; b] /\ merges [lst_reports; wrt_reports] (a :: wrt_reports ++ [b]).
Proof.
  eexists _, _. split; [reflexivity|]. eapply ms_cons; [eapply ms_cons; [apply ms_nil|]|].
  - instantiate (1 := wrt_reports). unfold wrt_reports, comp_reports. cbn [map]. repeat constructor.
  - unfold lst_reports, lst_rounds, wrt_reports, comp_reports. cbn [map concat app cr_snap cr_items cr_nanos]. apply mg_left. do 3 apply mg_right. repeat constructor.
Qed.
