(** The time window of the filter for every value of max_time_delta, including those for which the int64 arithmetic of
    filter/worker.go:90-91 overflows. *)
From Verif Require Import Base LinesSpec Timestamps Rules FilterWorker FilterSpec FilterProofs.
Local Open Scope Z_scope.

(** Lines a filter counts as having an invalid time. *)
Definition rejected gs (c : fcfg) (oks : nat -> bool) (now : Z) (batch : bytes) : nat :=
  counter FInvalidTime (snd (processBatch gs c oks now (newFilterWorker c) batch)).

Definition in_window (c : fcfg) (now : Z) (l : bytes) : bool :=
  (wrap64 (now - fc_delta c) <? filterTimestamp l now) && (filterTimestamp l now <? wrap64 (now + fc_delta c)).

Lemma processLine_count gs c st l : counter FInvalidTime (snd (processLine gs c st l)) = 0%nat.
Proof. unfold processLine. destruct (newParsedLine l); auto. destruct (LookupParsed _ _); auto. Qed.

Lemma process_lines_count gs c now : forall ls st,
  counter FInvalidTime (snd (process_lines gs c now (wrap64 (now - fc_delta c)) (wrap64 (now + fc_delta c)) st ls)) =
  length (filter (fun l => negb (in_window c now l)) (filter (fun l => match l with [] => false | _ => true end) ls)).
Proof.
  induction ls as [|l ls IH]; intros st; auto. cbn [process_lines]. destruct l as [|x l]; [exact (IH st)|]. set (ln := x :: l).
  cbn [filter]. fold (in_window c now ln). unfold ln at 3. fold ln. cbn [filter].
  assert (E : exists st1 a1, (if in_window c now ln then processLine gs c st ln else (st, [AInc FInvalidTime])) = (st1, a1) /\
    counter FInvalidTime a1 = if in_window c now ln then 0%nat else 1%nat).
  { destruct (in_window c now ln); [|eexists _, _; split; reflexivity]. pose proof (processLine_count gs c st ln) as P.
    destruct (processLine gs c st ln) as [st1 a1]. eexists _, _. split; [reflexivity|exact P]. }
  destruct E as (st1 & a1 & E & Ca). rewrite E. specialize (IH st1).
  destruct (process_lines gs c now _ _ st1 ls) as [st2 a2]. cbn [snd] in *.
  change (AInc FProcessed :: a1 ++ a2) with ([AInc FProcessed] ++ (a1 ++ a2)). rewrite !counter_app, Ca, IH.
  change (counter FInvalidTime [AInc FProcessed]) with 0%nat. destruct (in_window c now ln); reflexivity.
Qed.

Lemma publish_count s b ok : counter FInvalidTime (publish s b ok) = 0%nat.
Proof. destruct ok; reflexivity. Qed.
Lemma send_rules_count oks : forall ss bs k, counter FInvalidTime (snd (fst (send_rules oks k ss bs))) = 0%nat.
Proof.
  induction ss as [|s ss IH]; intros [|b bs] k; auto. cbn [send_rules]. destruct b as [|x b].
  - specialize (IH bs k). destruct (send_rules oks k ss bs) as [[bs' a] k']. exact IH.
  - specialize (IH bs (S k)). destruct (send_rules oks (S k) ss bs) as [[bs' a] k']. cbn [fst snd] in *. rewrite counter_app, publish_count, IH. reflexivity.
Qed.
Lemma sendOff_count c oks st : counter FInvalidTime (snd (sendOff c oks st)) = 0%nat.
Proof.
  unfold sendOff. pose proof (send_rules_count oks (Subjects (fc_rules c)) (f_batches st) 0) as P.
  destruct (send_rules _ _ _ _) as [[bs a] k]. cbn [fst snd] in P. destruct (f_junk st); cbn [snd]; auto. rewrite counter_app, publish_count, P. reflexivity.
Qed.

Lemma rejected_count gs c oks now batch : rejected gs c oks now batch = length (filter (fun l => negb (in_window c now l)) (lines_of batch)).
Proof.
  unfold rejected, processBatch. pose proof (process_lines_count gs c now (SplitAfter batch) (newFilterWorker c)) as P.
  destruct (process_lines _ _ _ _ _ _ _) as [st1 a1]. pose proof (sendOff_count c oks st1) as Q. destruct (sendOff c oks st1) as [st2 a2]. cbn [snd] in *.
  rewrite counter_app, P, Q, Nat.add_0_r. f_equal. f_equal. apply (SplitAfter_lines batch).
Qed.

(** The sum and the difference in int64. *)
Lemma wrap_high z : maxInt64 < z -> z < two64 + two63 -> wrap64 z = z - two64.
Proof.
  intros A B. unfold wrap64, maxInt64, minInt64, two63, two64 in *. replace (z + 9223372036854775808) with (z - 9223372036854775808 + 1 * 18446744073709551616) by lia.
  rewrite Z.mod_add by lia. rewrite Z.mod_small by lia. lia.
Qed.

Ltac w64 := unfold int64, maxInt64, minInt64, two63, two64 in *; lia.

Lemma no_wrap c now : 0 <= now -> int64 now -> 0 <= fc_delta c <= maxInt64 - now ->
  wrap64 (now - fc_delta c) = now - fc_delta c /\ wrap64 (now + fc_delta c) = now + fc_delta c.
Proof. intros P N D. split; apply wrap64_id; w64. Qed.

Lemma unstamped_iff c now l : 0 <= now -> int64 now -> int64 (fc_delta c) -> filterTimestamp l now = now ->
  (in_window c now l = true <-> 0 < fc_delta c <= maxInt64 - now).
Proof.
  intros P N D T. unfold in_window. rewrite T, andb_true_iff, !Z.ltb_lt.
  destruct (Z_lt_dec (fc_delta c) 0) as [A|A].
  - rewrite (wrap64_id (now + fc_delta c)) by w64. split; [intros [_ X]; lia|intros [X _]; lia].
  - destruct (Z_lt_dec (maxInt64 - now) (fc_delta c)) as [B|B].
    + rewrite (wrap_high (now + fc_delta c)) by w64. split; w64.
    + rewrite (proj1 (no_wrap c now P N ltac:(w64))), (proj2 (no_wrap c now P N ltac:(w64))). split; w64.
Qed.

Lemma wider_window c c' now l : 0 <= now -> int64 now -> 0 <= fc_delta c <= fc_delta c' -> fc_delta c' <= maxInt64 - now ->
  in_window c now l = true -> in_window c' now l = true.
Proof.
  intros P N D D'. unfold in_window. rewrite (proj1 (no_wrap c now P N ltac:(w64))), (proj2 (no_wrap c now P N ltac:(w64))).
  rewrite (proj1 (no_wrap c' now P N ltac:(w64))), (proj2 (no_wrap c' now P N ltac:(w64))). rewrite !andb_true_iff, !Z.ltb_lt. lia.
Qed.

Lemma overflow_empty c now l : 0 <= now -> int64 now -> maxInt64 - now < fc_delta c <= maxInt64 -> in_window c now l = false.
Proof.
  intros P N D. apply not_true_iff_false. unfold in_window. rewrite andb_true_iff, !Z.ltb_lt.
  rewrite (wrap_high (now + fc_delta c)) by w64. rewrite (wrap64_id (now - fc_delta c)) by w64. w64.
Qed.

Lemma filter_le {A} (f g : A -> bool) l : (forall x, In x l -> f x = true -> g x = true) -> (length (filter f l) <= length (filter g l))%nat.
Proof.
  induction l as [|x l IH]; intros H; auto. cbn [filter]. specialize (IH (fun y Y => H y (or_intror Y))). pose proof (H x (or_introl eq_refl)) as Hx.
  destruct (f x); [rewrite Hx by auto; cbn; lia|]. destruct (g x); cbn; lia.
Qed.

Lemma wider gs oks oks' rules junk d d' now batch : 0 <= now -> int64 now -> 0 <= d <= d' -> d' <= maxInt64 - now ->
  (rejected gs (mkFcfg d' rules junk) oks' now batch <= rejected gs (mkFcfg d rules junk) oks now batch)%nat.
Proof.
  intros P N D D'. rewrite !rejected_count. apply filter_le. intros l _. rewrite !negb_true_iff, <- !not_true_iff_false. intros A B. apply A.
  refine (wider_window (mkFcfg d rules junk) (mkFcfg d' rules junk) now l P N D D' B).
Qed.

Lemma unstamped gs c oks now batch : 0 <= now -> int64 now -> int64 (fc_delta c) -> Forall (fun l => line_time now l now) (lines_of batch) -> batch <> [] ->
  (rejected gs c oks now batch = 0%nat <-> 0 < fc_delta c <= maxInt64 - now) /\
  (rejected gs c oks now batch = length (lines_of batch) <-> ~ 0 < fc_delta c <= maxInt64 - now).
Proof.
  intros P N D F NE. rewrite rejected_count. pose proof (proj1 (lines_of_nil batch)) as LN.
  assert (X : forall l, In l (lines_of batch) -> (in_window c now l = true <-> 0 < fc_delta c <= maxInt64 - now)).
  { intros l I. apply unstamped_iff; auto. rewrite Forall_forall in F. specialize (F l I). apply filterTimestamp_iff in F. auto. }
  destruct (Z_lt_dec 0 (fc_delta c)) as [A|A]; [destruct (Z_le_dec (fc_delta c) (maxInt64 - now)) as [B|B]|].
  1:{ assert (E : filter (fun l => negb (in_window c now l)) (lines_of batch) = []).
      { generalize X. generalize (lines_of batch). induction l as [|x l IH]; intros H; auto. cbn [filter]. rewrite (proj2 (H x (or_introl eq_refl)) (conj A B)). apply IH. intros; apply H; right; auto. }
      rewrite E. cbn [length]. split; [tauto|]. split; [intros L|tauto]. exfalso. apply NE. apply LN. destruct (lines_of batch); auto; discriminate. }
  all: assert (E : filter (fun l => negb (in_window c now l)) (lines_of batch) = lines_of batch) by
      (generalize X; generalize (lines_of batch); induction l as [|x l IH]; intros H; auto; cbn [filter];
       assert (Hx : in_window c now x = false) by (apply not_true_iff_false; rewrite (H x (or_introl eq_refl)); lia);
       rewrite Hx; cbn [negb]; f_equal; apply IH; intros; apply H; right; auto).
  all: rewrite E; split; [split; [intros L; exfalso; apply NE; apply LN; destruct (lines_of batch); auto; discriminate|lia]|split; [lia|reflexivity]].
Qed.

Lemma process_lines_none gs c now : (forall l, in_window c now l = false) -> forall ls st,
  exists a, process_lines gs c now (wrap64 (now - fc_delta c)) (wrap64 (now + fc_delta c)) st ls = (st, a) /\ published a = [].
Proof.
  intros W. induction ls as [|l ls IH]; intros st; [exists []; auto|]. cbn [process_lines]. destruct l as [|x l]; [apply IH|].
  fold (in_window c now (x :: l)). rewrite W. destruct (IH st) as (a & E & Pa). rewrite E. eexists. split; [reflexivity|]. exact Pa.
Qed.
Lemma send_rules_none oks : forall ss n k, published (snd (fst (send_rules oks k ss (repeat [] n)))) = [].
Proof.
  induction ss as [|s ss IH]; intros [|n] k; auto. cbn [repeat send_rules]. specialize (IH n k). destruct (send_rules oks k ss (repeat [] n)) as [[bs' a] k']. exact IH.
Qed.

Lemma overflow_rejects gs c oks now batch : 0 <= now -> int64 now -> maxInt64 - now < fc_delta c <= maxInt64 ->
  rejected gs c oks now batch = length (lines_of batch) /\
  published (snd (processBatch gs c oks now (newFilterWorker c) batch)) = [].
Proof.
  intros P N D. pose proof (fun l => overflow_empty c now l P N D) as W. split.
  - rewrite rejected_count. f_equal. induction (lines_of batch) as [|l ls IH]; auto. cbn [filter]. rewrite W. cbn [negb]. f_equal. exact IH.
  - unfold processBatch. destruct (process_lines_none gs c now W (SplitAfter batch) (newFilterWorker c)) as (a & E & Pa). rewrite E.
    unfold sendOff. unfold newFilterWorker at 1. cbn [f_batches f_junk newFilterWorker].
    pose proof (fun k => send_rules_none oks (Subjects (fc_rules c)) (length (fc_rules c)) k) as Q.
    specialize (Q 0%nat). destruct (send_rules _ _ _ _) as [[bs a'] k]. cbn [fst snd] in *. unfold published in *. rewrite flat_map_app, Pa, Q. reflexivity.
Qed.
