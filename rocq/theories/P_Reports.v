(** C102: what the numbers of a filter's statistics report say while its workers run. *)
From Verif Require Import Base Stats StatsSpec StatsProofs Reports.
From Verif Require Text Rules RulesSpec FilterWorker.
Local Open Scope Z_scope.

(** At every moment: no more lines passed, rejected or refused for their time than processed, no more rules triggered
    than lines passed. *)
Theorem C102_counters_agree : forall gosort c rounds workers names sched s log,
  uint64_args (real_filter gosort c rounds workers) ->
  run names (real_filter gosort c rounds workers) sched = Some (s, log) -> Z.of_nat (length log) < 2 ^ 64 ->
  count names s (lit "passed") + count names s (lit "rejected") + count names s (lit "invalid_time") <= count names s (lit "processed") /\
  fold_right Z.add 0 (map (fun i => count names s (rule_stat i)) (seq 0 (length (FilterWorker.fc_rules c)))) <= count names s (lit "passed").
Proof.
  intros gosort c rounds workers names sched s log U H B. destruct (real_filter_progs gosort c rounds workers) as (ws & E). rewrite E in *.
  exact (counters_agree _ _ _ _ _ _ _ U H B).
Qed.
Print Assumptions C102_counters_agree.

(** Each number of a report is right for some moment while the report was made. *)
Theorem C102_shown_partial : forall gosort c rounds workers names sched s l0 l1 l2 n v,
  uint64_args (real_filter gosort c rounds workers) ->
  run names (real_filter gosort c rounds workers) sched = Some (s, l0 ++ l1 ++ l2) -> Z.of_nat (length (l0 ++ l1 ++ l2)) < 2 ^ 64 ->
  n <> lit "nats_dropped" -> shows l1 n v -> Z.of_nat (incs n l0) <= v <= Z.of_nat (incs n (l0 ++ l1)).
Proof.
  intros gosort c rounds workers names sched s l0 l1 l2 n v U H B. destruct (real_filter_progs gosort c rounds workers) as (ws & E). rewrite E in *.
  exact (shown _ _ _ _ _ _ _ _ _ n v U H B).
Qed.
Print Assumptions C102_shown_partial.

(** The numbers of one report disagree by no more than the lines dealt with while it was made. *)
Theorem C102_off_by_partial : forall gosort c rounds workers names sched s l0 l1 l2 passed rejected invalid processed vs,
  uint64_args (real_filter gosort c rounds workers) ->
  run names (real_filter gosort c rounds workers) sched = Some (s, l0 ++ l1 ++ l2) -> Z.of_nat (length (l0 ++ l1 ++ l2)) < 2 ^ 64 ->
  shows l1 (lit "passed") passed -> shows l1 (lit "rejected") rejected -> shows l1 (lit "invalid_time") invalid ->
  shows l1 (lit "processed") processed ->
  Forall2 (fun i v => shows l1 (rule_stat i) v) (seq 0 (length (FilterWorker.fc_rules c))) vs ->
  passed + rejected + invalid <= processed + Z.of_nat (incs (lit "processed") l1) /\
  fold_right Z.add 0 vs <= passed + Z.of_nat (incs (lit "passed") l1).
Proof.
  intros gosort c rounds workers names sched s l0 l1 l2 pa re iv pr vs U H B S1 S2 S3 S4 F. destruct (real_filter_progs gosort c rounds workers) as (ws & E). rewrite E in *.
  split; [exact (off_by _ _ _ _ _ _ _ _ _ _ _ _ _ U H B S1 S2 S3 S4)|exact (off_by_rules _ _ _ _ _ _ _ _ _ _ _ U H B S1 F)].
Qed.
Print Assumptions C102_off_by_partial.

(** While the workers do nothing, a report is exact. *)
Theorem C102_quiet : forall gosort c rounds workers names sched s l0 l1 l2 n v,
  uint64_args (real_filter gosort c rounds workers) ->
  run names (real_filter gosort c rounds workers) sched = Some (s, l0 ++ l1 ++ l2) -> Z.of_nat (length (l0 ++ l1 ++ l2)) < 2 ^ 64 ->
  quiet l1 -> n <> lit "nats_dropped" -> shows l1 n v -> v = Z.of_nat (incs n l0).
Proof.
  intros gosort c rounds workers names sched s l0 l1 l2 n v U H B. destruct (real_filter_progs gosort c rounds workers) as (ws & E). rewrite E in *.
  exact (quiet_exact _ _ _ _ _ _ _ _ _ n v U H B).
Qed.
Print Assumptions C102_quiet.

(** No number of a later report is smaller. *)
Theorem C102_grow : forall gosort c rounds workers names sched s l0 l1 l2 l3 l4 n v v',
  uint64_args (real_filter gosort c rounds workers) ->
  run names (real_filter gosort c rounds workers) sched = Some (s, l0 ++ l1 ++ l2 ++ l3 ++ l4) ->
  Z.of_nat (length (l0 ++ l1 ++ l2 ++ l3 ++ l4)) < 2 ^ 64 -> shows l1 n v -> shows l3 n v' -> v <= v'.
Proof.
  intros gosort c rounds workers names sched s l0 l1 l2 l3 l4 n v v' U H B. destruct (real_filter_progs gosort c rounds workers) as (ws & E). rewrite E in *.
  exact (reports_grow _ _ _ _ _ _ _ _ _ _ _ n v v' U H B).
Qed.
Print Assumptions C102_grow.

(* ------------------------------------------------------------------ *)
(** * A report that contradicts itself *)

(** One rule for the measurement cpu, one worker, one line. *)
Definition one_rule : FilterWorker.fcfg := FilterWorker.mkFcfg 3600000000000 [Rules.mkRule (Rules.MBasic (lit "cpu")) (lit "hot")] (lit "junk").
Definition one_job : FilterWorker.job := (fun _ => true, 1500000000000000000, lit "cpu,host=a load=1" ++ [nl]).
Definition one_names : list bytes := all_names 1.

(** The order in which the counters are declared, and one in which "processed" comes first: Go may take either. *)
Definition order_a : option Z * list bytes := (Some 0, filter_names).
Definition order_b : option Z * list bytes :=
  (Some 0, [statProcessed; statPassed; statRejected; statInvalidTime; statFailedNATSPublish; statNATSDropped]).
Example orders : map_order order_a /\ map_order order_b.
Proof. split; [apply Permutation_refl|]. apply perm_swap. Qed.

(** A report is one round, from the start to the end. *)
Theorem C102_refuted :
  (** passed > processed *)
  (exists sched s log, run one_names (real_filter (@RulesSpec.isort) one_rule [order_b] [[one_job]]) sched = Some (s, log) /\
    shows log (lit "processed") 0 /\ shows log (lit "passed") 1) /\
  (** triggered > passed *)
  (exists sched s log, run one_names (real_filter (@RulesSpec.isort) one_rule [order_a] [[one_job]]) sched = Some (s, log) /\
    shows log (lit "passed") 0 /\ shows log (lit "processed") 1 /\ shows log (rule_stat 0) 1).
Proof.
  split.
  - exists [0; 0; 1; 1; 1; 0; 0; 0; 0; 0; 0]%nat. eexists. eexists. split; [vm_compute; reflexivity|]. split; vm_compute; auto 20.
  - exists [0; 0; 1; 1; 1; 0; 0; 0; 0; 0; 0]%nat. eexists. eexists. split; [vm_compute; reflexivity|]. repeat split; vm_compute; auto 20.
Qed.
Print Assumptions C102_refuted.

(** The hypotheses are met: two reports, the second of which is made while the worker is idle. *)
Example C102_args : uint64_args (real_filter (@RulesSpec.isort) one_rule [order_b; order_a] [[one_job]]).
Proof. repeat constructor; vm_compute; auto; discriminate. Qed.
Example C102_case : exists s l0 l1 l2,
  run one_names (real_filter (@RulesSpec.isort) one_rule [order_b; order_a] [[one_job]])
    [0; 0; 1; 1; 1; 0; 0; 0; 0; 0; 0; 0; 0; 0; 0; 0; 0; 0; 0]%nat = Some (s, l0 ++ l1 ++ l2) /\
  quiet l1 /\ shows l0 (lit "passed") 1 /\ shows l0 (lit "processed") 0 /\ shows l1 (lit "passed") 1 /\ shows l1 (lit "processed") 1 /\
  count one_names s (lit "processed") = 1 /\ count one_names s (rule_stat 0) = 1.
Proof.
  match goal with |- context [run ?a ?b ?c] => let r := eval vm_compute in (run a b c) in
    match r with Some (?s, ?l) => exists s, (firstn 11 l), (skipn 11 l), [] end end.
  split; [vm_compute; reflexivity|]. repeat split; try (vm_compute; auto 20).
Qed.
