(** Property theorems C67, C69: stopping the filter and the downsampler. *)
From Verif Require Import Base Text Timestamps Rules RulesSpec LinesSpec FilterWorker FilterSpec FilterProofs FilterStop
  NumSpec Assigner AssignerSpec AssignerProofs DsProofs DsMain DsStop.
Local Open Scope Z_scope.

(** C67: once stop is closed and no message arrives any more (Stop unsubscribes first), there is a bound on the
    steps the workers can still make, whatever the scheduler does, and when none of them can go on all of them
    have returned - so Stop's wait ends. *)
Theorem C67_stop_ends : forall gosort c n ls s, fexec gosort c (startFilter c n) ls s -> s_stop s = true ->
  exists bound : nat, forall ls' s', fexec gosort c s ls' s' -> Forall no_receive ls' ->
    (length ls' <= bound)%nat /\
    ((forall l s2, fstep gosort c s' l s2 -> ~ no_receive l) -> Forall (fun w => w = WExited) (s_workers s')).
Proof. exact stop_terminates. Qed.
Print Assumptions C67_stop_ends.

(** When all workers have returned every message was processed completely or not at all: what was published is
    what the messages taken produce, and the messages lost are the last ones received, at most 1024. *)
Theorem C67_whole_messages : forall gosort c n ls s, fexec gosort c (startFilter c n) ls s ->
  Forall (fun w => w = WExited) (s_workers s) ->
  exists lost, received ls = map (fun j : job => snd j) (taken ls) ++ lost /\ (length lost <= 1024)%nat /\
    Permutation (published (performed ls))
      (flat_map (fun j : job => let '(oks, now, m) := j in published (snd (processBatch gosort c oks now (newFilterWorker c) m))) (taken ls)).
Proof. exact stopped_whole. Qed.
Print Assumptions C67_whole_messages.

(** Two messages arrive, one is taken, Stop, the worker finishes it and leaves; the other message is lost. *)
Definition sd_cfg : fcfg := mkFcfg 1000 [mkRule (MBasic (lit "cpu")) (lit "s0")] (lit "junk").
Example C67_case : exists ls s, fexec (@isort) sd_cfg (startFilter sd_cfg 1) ls s /\
  Forall (fun w => w = WExited) (s_workers s) /\ s_stop s = true /\ s_jobs s = [lit "cpu x=2"] /\
  published (performed ls) = [(lit "s0", lit "cpu x=1")].
Proof.
  set (j1 := (fun _ : nat => true, 1500000000000000000, lit "cpu x=1")).
  exists ([] ++ [LReceive (snd j1)] ++ [LReceive (lit "cpu x=2")] ++ [LTake 0 j1] ++ [LStop] ++
    [LAct 0 (AInc FProcessed)] ++ [LAct 0 (AInc FPassed)] ++ [LAct 0 (ARule 0)] ++ [LAct 0 (APublish (lit "s0") (snd j1) true)] ++
    [LDone 0] ++ [LExit 0]).
  eexists. split; [|split; [|split; [|split]]].
  - rewrite !app_assoc. repeat eapply fe_step. apply fe_nil.
    1,2: apply fs_receive; vm_compute; lia.
    1: apply fs_take with (st := newFilterWorker sd_cfg); [reflexivity|vm_compute; reflexivity].
    1: apply fs_stop.
    1-4: eapply fs_act; reflexivity.
    1: eapply fs_done; reflexivity.
    1: eapply fs_exit; reflexivity.
  - repeat constructor.
  - reflexivity.
  - reflexivity.
  - reflexivity.
Qed.

(** C69 is false of the code: a line accepted just before the downsampler is stopped is never emitted. *)
Theorem C69_refuted : forall (B E : Type) (newBucket : Z -> B) (addLine : B -> bytes -> B * list E) p now0 e0,
  0 < p -> period_end p now0 e0 ->
  let calls := [CUpdate (lit "m x=1") (fun _ => now0)] in
  let answers := snd (do_calls B E newBucket addLine (newAssigner B newBucket p now0) calls) in
  history B E newBucket addLine p e0 calls answers 0 [(now0, lit "m x=1")] /\ emitted calls answers = [].
Proof. exact stop_loses. Qed.
Print Assumptions C69_refuted.

(** Proved: at any moment the accepted lines that have not been emitted (and are lost if it stops now) are exactly
    those of the three open periods. *)
Theorem C69_fate_partial : forall (B E : Type) (newBucket : Z -> B) (addLine : B -> bytes -> B * list E) p now0 e0 calls,
  0 < p -> period_end p now0 e0 ->
  let answers := snd (do_calls B E newBucket addLine (newAssigner B newBucket p now0) calls) in
  exists k l, history B E newBucket addLine p e0 calls answers k l /\
    Forall (fun x => (fst x < e0 + (k - 2) * p /\ was_emitted B E newBucket addLine p calls answers l (fst x)) \/
                     (e0 + (k - 2) * p <= fst x < e0 + (k + 1) * p /\ ~ was_emitted B E newBucket addLine p calls answers l (fst x))) l.
Proof. exact lines_fate. Qed.
Print Assumptions C69_fate_partial.

(** ... and three more turns of the loop, each after the end of the next period, emit all of them. *)
Theorem C69_drained_partial : forall (B E : Type) (newBucket : Z -> B) (addLine : B -> bytes -> B * list E) p now0 e0 calls n1 n2 n3,
  0 < p -> period_end p now0 e0 ->
  let run cs := snd (do_calls B E newBucket addLine (newAssigner B newBucket p now0) cs) in
  let K := Z.of_nat (length (emitted calls (run calls))) in
  e0 + K * p <= n1 -> e0 + (K + 1) * p <= n2 -> e0 + (K + 2) * p <= n3 ->
  let calls' := calls ++ [CBytes n1; CBytes n2; CBytes n3] in
  exists k l, history B E newBucket addLine p e0 calls (run calls) k l /\
    Forall (fun x => was_emitted B E newBucket addLine p calls' (run calls') l (fst x)) l.
Proof. exact lines_drained. Qed.
Print Assumptions C69_drained_partial.

Definition sd_add (b : list bytes) (l : bytes) : list bytes * list bytes := (b ++ [l], []).
Example C69_case :
  let up := CUpdate (lit "a x=1 1510000000000000005
b x=1 1510000000000000015
c x=1 1510000000000000025") (fun _ => 0) in
  period_end 10 1510000000000000013 1510000000000000020 /\
  emitted [up] (snd (do_calls (list bytes) bytes (fun _ => []) sd_add (newAssigner (list bytes) (fun _ => []) 10 1510000000000000013) [up])) = [] /\
  (let cs := [up; CBytes 1510000000000000020; CBytes 1510000000000000030; CBytes 1510000000000000040] in
   map snd (emitted cs (snd (do_calls (list bytes) bytes (fun _ => []) sd_add (newAssigner (list bytes) (fun _ => []) 10 1510000000000000013) cs))) =
   [(1510000000000000010, [lit "a x=1"]); (1510000000000000020, [lit "b x=1"]); (1510000000000000030, [lit "c x=1"])]).
Proof. split; [vm_compute; intuition congruence|]. split; vm_compute; reflexivity. Qed.
