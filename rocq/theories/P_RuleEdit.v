(** C110: editing the rules of a filter changes only what the edit says. *)
From Verif Require Import Base Text TextSpec NumSpec LinesSpec Rules RulesSpec FilterWorker FilterSpec RulesProofs FilterProofs RuleEdit.
Local Open Scope nat_scope.

(** A rule fits a line when it means the line's measurement, tags or text (as for C25/C28: names
    that collide in the hash and lines rewritten in place excepted); no rule fits an unreadable line. *)
Theorem C110_fits : forall gosort r line m tags rest, sorts gosort -> ParseTags line = POk m tags rest -> clean [r] line ->
  exists text, sorted_text line m tags rest text /\ (fits_rule gosort r line <-> means (r_match r) m tags text).
Proof. exact fits_means. Qed.
Print Assumptions C110_fits.
Theorem C110_unreadable : forall gosort r line, ParseTags line = PErr -> ~ fits_rule gosort r line.
Proof. exact unreadable. Qed.
Print Assumptions C110_unreadable.

(** Inserting a rule [r] after the rules [a] (read backwards: deleting it). Every line keeps its
    destination, except the lines [r] fits and no rule of [a] fits: those move to [r], from a later
    rule or from junk. A line [r] fits stays only if a rule of [a] fits it or its time is refused. *)
Theorem C110_insert : forall gosort d a r b junk oks oks' now batch,
  let c := mkFcfg d (a ++ b) junk in let c' := mkFcfg d (a ++ r :: b) junk in
  exists fs fs',
    published (snd (processBatch gosort c oks now (newFilterWorker c) batch)) = outputs (a ++ b) junk fs /\
    published (snd (processBatch gosort c' oks' now (newFilterWorker c') batch)) = outputs (a ++ r :: b) junk fs' /\
    length fs = length (lines_of batch) /\ length fs' = length (lines_of batch) /\
    forall k line f f', nth_error (lines_of batch) k = Some line -> nth_error fs k = Some f -> nth_error fs' k = Some f' ->
      (f' = shift_fate (length a) f /\ (fits_rule gosort r line -> Exists (fun q => fits_rule gosort q line) a \/ f = FateInvalidTime)) \/
      (moves (length a) f f' /\ fits_rule gosort r line /\ Forall (fun q => ~ fits_rule gosort q line) a).
Proof. exact insert_rule. Qed.
Print Assumptions C110_insert.

(** Appending a rule: the messages of the other rules do not change at all; what went to junk is
    split into the new rule's message and the rest, each in the old order. *)
Theorem C110_append : forall gosort d rs r junk oks oks' now batch,
  let c := mkFcfg d rs junk in let c' := mkFcfg d (rs ++ [r]) junk in
  exists before L lines',
    published (snd (processBatch gosort c oks now (newFilterWorker c) batch)) = before ++ msg junk (all_units L) /\
    published (snd (processBatch gosort c' oks' now (newFilterWorker c') batch)) =
      before ++ msg (r_subject r) (taken L) ++ msg junk (leftover L) /\
    incl lines' (lines_of batch) /\
    Forall2 (fun line u => (fst u = true <-> fits_rule gosort r line) /\ (forall q, In q rs -> ~ fits_rule gosort q line)) lines' L.
Proof. exact append_rule. Qed.
Print Assumptions C110_append.

(** A rule that fits only lines earlier rules fit has no effect, for every history of messages. *)
Theorem C110_dead : forall gosort d a r b junk js js',
  (forall line, fits_rule gosort r line -> Exists (fun q => fits_rule gosort q line) a) -> Forall2 same_job js js' ->
  let c := mkFcfg d (a ++ b) junk in let c' := mkFcfg d (a ++ r :: b) junk in
  published (snd (run_worker gosort c' (newFilterWorker c') js')) = published (snd (run_worker gosort c (newFilterWorker c) js)).
Proof. exact dead_rule. Qed.
Print Assumptions C110_dead.

(** In particular a rule with the condition of an earlier rule (whatever its subject) ... *)
Theorem C110_twice : forall gosort d a r m b junk js js', r_match r = r_match m -> In m a -> Forall2 same_job js js' ->
  let c := mkFcfg d (a ++ b) junk in let c' := mkFcfg d (a ++ r :: b) junk in
  published (snd (run_worker gosort c' (newFilterWorker c') js')) = published (snd (run_worker gosort c (newFilterWorker c) js)).
Proof. exact twice. Qed.
Print Assumptions C110_twice.

(** ... or one that asks for all the tags an earlier rule asks for, and perhaps more. *)
Theorem C110_narrower : forall gosort d a r m ts ts' b junk js js',
  In m a -> r_match m = MTags ts -> r_match r = MTags ts' -> incl ts ts' -> Forall2 same_job js js' ->
  let c := mkFcfg d (a ++ b) junk in let c' := mkFcfg d (a ++ r :: b) junk in
  published (snd (run_worker gosort c' (newFilterWorker c') js')) = published (snd (run_worker gosort c (newFilterWorker c) js)).
Proof. exact narrower. Qed.
Print Assumptions C110_narrower.

(** When no line is fitted by two rules, the order of the rules only changes the order of the
    messages published for one input message. *)
Theorem C110_reorder : forall gosort d rs rs' junk oks oks' now batch, Permutation rs rs' -> exclusive gosort rs (lines_of batch) ->
  let c := mkFcfg d rs junk in let c' := mkFcfg d rs' junk in
  Permutation (published (snd (processBatch gosort c oks now (newFilterWorker c) batch)))
              (published (snd (processBatch gosort c' oks' now (newFilterWorker c') batch))).
Proof. exact reorder_batch. Qed.
Print Assumptions C110_reorder.
Theorem C110_reorder_history : forall gosort d rs rs' junk js js', Permutation rs rs' ->
  (forall j, In j js -> exclusive gosort rs (lines_of (snd j))) -> Forall2 same_job js js' ->
  let c := mkFcfg d rs junk in let c' := mkFcfg d rs' junk in
  Permutation (published (snd (run_worker gosort c (newFilterWorker c) js))) (published (snd (run_worker gosort c' (newFilterWorker c') js'))).
Proof. exact reorder. Qed.
Print Assumptions C110_reorder_history.

(** Other subjects, the same conditions: the same data, under the new subjects. *)
Theorem C110_subjects : forall gosort d rs rs' junk junk' oks oks' now batch, map r_match rs = map r_match rs' ->
  let c := mkFcfg d rs junk in let c' := mkFcfg d rs' junk' in
  exists D : nat -> bytes, exists J : bytes,
    published (snd (processBatch gosort c oks now (newFilterWorker c) batch)) = part 0 rs D ++ msg junk J /\
    published (snd (processBatch gosort c' oks' now (newFilterWorker c') batch)) = part 0 rs' D ++ msg junk' J.
Proof. exact subjects. Qed.
Print Assumptions C110_subjects.

(** ** Cases *)
Definition cpu_rule : rule := mkRule (MBasic (lit "cpu")) (lit "c").
Definition mem_rule : rule := mkRule (MBasic (lit "mem")) (lit "m").
Definition dc_rule : rule := mkRule (MTags [(lit "dc", lit "x")]) (lit "t").
Definition edit_batch : bytes := lit "cpu,dc=x a=1
mem b=1
disk,dc=x c=1
mem,dc=x d=1
net e=1
".
Definition edit_run (rs : list rule) : list (bytes * bytes) :=
  published (snd (processBatch (@isort) (mkFcfg 1000 rs (lit "junk")) (fun _ => true) 0%Z (newFilterWorker (mkFcfg 1000 rs (lit "junk"))) edit_batch)).
Example C110_case_insert : edit_run [cpu_rule; mem_rule] =
    [(lit "c", lit "cpu,dc=x a=1
"); (lit "m", lit "mem b=1
mem,dc=x d=1
"); (lit "junk", lit "disk,dc=x c=1
net e=1
")] /\ edit_run [cpu_rule; dc_rule; mem_rule] =
    [(lit "c", lit "cpu,dc=x a=1
"); (lit "t", lit "disk,dc=x c=1
mem,dc=x d=1
"); (lit "m", lit "mem b=1
"); (lit "junk", lit "net e=1
")] /\ edit_run [cpu_rule; mem_rule; dc_rule] =
    [(lit "c", lit "cpu,dc=x a=1
"); (lit "m", lit "mem b=1
mem,dc=x d=1
"); (lit "t", lit "disk,dc=x c=1
"); (lit "junk", lit "net e=1
")].
Proof. vm_compute. auto. Qed.
(** The order matters when two rules fit a line. *)
Example C110_case_order : ~ Permutation (edit_run [cpu_rule; dc_rule]) (edit_run [dc_rule; cpu_rule]).
Proof.
  intros P. assert (X : In (lit "c", lit "cpu,dc=x a=1
") (edit_run [dc_rule; cpu_rule])) by (apply (Permutation_in _ P); vm_compute; auto).
  vm_compute in X. intuition discriminate.
Qed.
(** Rules for two measurements exclude each other on these lines. *)
Example C110_case_exclusive : exclusive (@isort) [cpu_rule; mem_rule] (lines_of edit_batch) /\ edit_run [mem_rule; cpu_rule] <> edit_run [cpu_rule; mem_rule].
Proof.
  split; [|vm_compute; discriminate].
  intros line i j ri rj Hl Hi Hj (pl & Ep & M) (pl' & Ep' & M').
  assert (pl' = pl) as -> by congruence. clear Ep'.
  destruct i as [|[|[|i]]], j as [|[|[|j]]]; cbn in Hi, Hj; try discriminate; try reflexivity;
    inversion Hi; inversion Hj; subst ri rj; clear Hi Hj; exfalso;
    vm_compute in Hl; repeat (destruct Hl as [<-|Hl]; [vm_compute in Ep; inversion Ep; subst pl; vm_compute in M, M'; discriminate|]); exact Hl.
Qed.
(** A rule that cannot get anything. *)
Example C110_case_dead : incl [(lit "dc", lit "x")] [(lit "dc", lit "x"); (lit "host", lit "h")] /\
  edit_run [dc_rule; mkRule (MTags [(lit "dc", lit "x"); (lit "host", lit "h")]) (lit "never")] = edit_run [dc_rule].
Proof. split; [intros x [<-|[]]; left; reflexivity|vm_compute; reflexivity]. Qed.
Example C110_case_fits : sorts (@isort) /\ clean [dc_rule] (lit "cpu,dc=x a=1
").
Proof.
  split; [exact isort_sorts|]. intros m tags rest H. vm_compute in H. inversion H; subst. split.
  - intros r name [<-|[]] E X; inversion E.
  - left. left. intros i j a b L Hi Hj. destruct j as [|[|j]]; destruct i; cbn in *; try discriminate; lia.
Qed.
