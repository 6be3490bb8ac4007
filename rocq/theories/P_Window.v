(** C81: max_time_delta for every value. *)
From Verif Require Import Base LinesSpec Timestamps Rules RulesSpec FilterWorker FilterSpec Config Window.
Local Open Scope Z_scope.

(** [rejected gs c oks now batch] is what a filter with configuration [c] adds to its count of invalid times for the message
    [batch] received at [now] (nanoseconds since 1970).  Times and durations are int64 in the code. *)

(** As long as now + max_time_delta is a time (before the year 2262), a larger max_time_delta rejects no more lines ... *)
Theorem C81_wider_partial : forall gs oks oks' rules junk d d' now batch, 0 <= now -> int64 now -> 0 <= d <= d' -> d' <= maxInt64 - now ->
  (rejected gs (mkFcfg d' rules junk) oks' now batch <= rejected gs (mkFcfg d rules junk) oks now batch)%nat.
Proof. exact wider. Qed.
Print Assumptions C81_wider_partial.

(** ... and lines without a recognised timestamp (which get the current time) are accepted exactly for these positive
    values of max_time_delta, and otherwise all rejected. *)
Theorem C81_unstamped_partial : forall gs c oks now batch, 0 <= now -> int64 now -> int64 (fc_delta c) ->
  Forall (fun l => line_time now l now) (lines_of batch) -> batch <> [] ->
  (rejected gs c oks now batch = 0%nat <-> 0 < fc_delta c <= maxInt64 - now) /\
  (rejected gs c oks now batch = length (lines_of batch) <-> ~ 0 < fc_delta c <= maxInt64 - now).
Proof. exact unstamped. Qed.
Print Assumptions C81_unstamped_partial.

(** False in general: with a larger value, all lines are rejected and nothing is ever forwarded. *)
Theorem C81_overflow_refuted : forall gs c oks now batch, 0 <= now -> int64 now -> maxInt64 - now < fc_delta c <= maxInt64 ->
  rejected gs c oks now batch = length (lines_of batch) /\
  published (snd (processBatch gs c oks now (newFilterWorker c) batch)) = [].
Proof. exact overflow_rejects. Qed.
Print Assumptions C81_overflow_refuted.

(** Such values are accepted by the configuration: max_time_delta = 2540400h (290 years, meant to switch the check off), and
    also 0s. *)
Definition with_delta (d : Z) : pfile :=
  PFile None (Some (lit "filter")) None None None None None None None None None None None None None None None None None None None
        None (Some d) None None None None None None None.
Theorem C81_config_refuted :
  (exists c, NewConfigFromFile toml_rules FAbsent (FOk (with_delta (2540400 * 3600 * 1000000000))) (lit "filter.toml") [] [] = LoadOk c /\
     forall gs rules oks now batch, 1500000000000000000 <= now <= maxInt64 ->
       published (snd (processBatch gs (mkFcfg (c_max_time_delta c) rules (c_subject_junk c)) oks now (newFilterWorker (mkFcfg (c_max_time_delta c) rules (c_subject_junk c))) batch)) = []) /\
  (exists c, NewConfigFromFile toml_rules FAbsent (FOk (with_delta 0)) (lit "filter.toml") [] [] = LoadOk c /\ c_max_time_delta c = 0).
Proof.
  split; (eexists; split; [vm_compute; reflexivity|]); [|reflexivity].
  intros gs rules oks now batch Hn. apply overflow_rejects; cbn [fc_delta c_max_time_delta]; unfold int64, minInt64, maxInt64, two63 in *; lia.
Qed.
Print Assumptions C81_config_refuted.

(** Non-vacuity: a line without timestamp now, 10 minutes. *)
Example C81_case : rejected (@isort) (mkFcfg 600000000000 [] (lit "junk")) (fun _ => true) 1500000000000000000 (lit "cpu load=1
cpu load=1 1500000000000000000
cpu load=1 1499990000000000000
") = 1%nat /\ rejected (@isort) (mkFcfg (2540400 * 3600 * 1000000000) [] (lit "junk")) (fun _ => true) 1500000000000000000 (lit "cpu load=1
cpu load=1 1500000000000000000
") = 2%nat /\ Forall (fun l => line_time 1500000000000000000 l 1500000000000000000) (lines_of (lit "cpu load=1
mem free=2
")).
Proof.
  split; [vm_compute; reflexivity|]. split; [vm_compute; reflexivity|].
  apply Forall_forall. intros l H. right. split; [left|reflexivity]. vm_compute in H. destruct H as [<-|[<-|[]]]; vm_compute; lia.
Qed.
