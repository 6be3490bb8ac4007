From Verif Require Import Base Text TextSpec TextProofs Convert Timestamps NumSpec NumProofs LinesSpec Rules RulesSpec
  RulesProofs RouteProofs FilterWorker FilterSpec.
Local Open Scope Z_scope.

(* ------------------------------------------------------------------ *)
(** * Lines and timestamps *)

Lemma process_lines_empties gs c now lo hi : forall ls st,
  process_lines gs c now lo hi st ls = process_lines gs c now lo hi st (filter (fun l : bytes => match l with [] => false | _ => true end) ls).
Proof.
  induction ls as [|l ls IH]; intros st; auto. destruct l as [|a l]; cbn [filter process_lines]; auto.
  destruct (if _ && _ then _ else _) as [st1 a1]. rewrite IH. auto.
Qed.

Lemma SplitAfter_lines b :
  filter (fun l : bytes => match l with [] => false | _ => true end) (SplitAfter b) = lines_of b /\ SplitAfter b <> [].
Proof.
  induction b as [|c b [IH IN]]; [split; [auto|discriminate]|]. cbn [SplitAfter lines_of].
  destruct (Ascii.eqb_spec c nl) as [->|N]; [split; [cbn [filter]; f_equal; exact IH|discriminate]|].
  destruct (SplitAfter b) as [|l ls] eqn:E; [congruence|]. split; [|discriminate].
  cbn [filter]. destruct l as [|x l].
  - cbn [filter] in IH. assert (X : b = [] \/ exists r, b = nl :: r).
    { destruct b as [|d b]; auto. cbn [SplitAfter] in E. destruct (Ascii.eqb_spec d nl) as [->|Nd]; eauto.
      destruct (SplitAfter b); discriminate. }
    destruct X as [->|[r ->]].
    + simpl in E. inversion E; subst. reflexivity.
    + cbn [SplitAfter] in E. rewrite Ascii.eqb_refl in E. discriminate.
  - cbn [filter] in IH. rewrite <- IH. auto.
Qed.

Lemma filterTimestamp_iff now line ts : line_time now line ts <-> ts = filterTimestamp line now.
Proof.
  unfold line_time, filterTimestamp, minTsLen. destruct (Nat.leb_spec (length line) (18 + 6)) as [L|L].
  - split.
    + intros [(H & _)|[_ H]]; auto. lia.
    + intros ->. right. split; auto.
  - assert (L6 : (6 <= length line)%nat) by lia.
    destruct (ExtractNanos line) as [out off] eqn:E.
    assert (St : forall t, stamped line t <-> (out = t /\ off <> -1)).
    { intros t. split.
      - intros (pre & txt & H1 & H2).
        assert (X : ExtractNanos line = (t, Z.of_nat (length pre) + 1) /\ Z.of_nat (length pre) + 1 <> -1).
        { apply ExtractNanos_iff; auto. exists pre, txt. auto. }
        destruct X as [X1 X2]. rewrite E in X1. inversion X1; subst. auto.
      - intros [<- N]. destruct (proj1 (ExtractNanos_iff line out off L6) (conj E N)) as (pre & txt & A & _ & B).
        exists pre, txt. auto. }
    destruct (Z.eq_dec off (-1)) as [Eo|No].
    + pose proof (ExtractNanos_neg _ _ _ E Eo) as ->. simpl. split.
      * intros [(_ & H & _)|[_ H]]; auto. apply St in H. tauto.
      * intros ->. right. split; auto. right. intros t H. apply St in H. tauto.
    + destruct (Z.eqb_spec out (-1)) as [->|Nm].
      * split.
        -- intros [(_ & H & X)|[_ H]]; auto. apply St in H. destruct H; congruence.
        -- intros ->. right. split; auto. right. intros t H. apply St in H. destruct H; congruence.
      * split.
        -- intros [(_ & H & X)|[[H|H] _]]; [apply St in H; destruct H; congruence|lia|].
           exfalso. apply Nm. apply H. apply St. auto.
        -- intros ->. left. split; [lia|]. split; auto. apply St. auto.
Qed.

(* ------------------------------------------------------------------ *)
(** * One line, many lines *)

Definition add_fate (st : fstate) (f : fate) : fstate :=
  match f with
  | FateRule i t => mkFstate (write_nth (f_batches st) i t) (f_junk st)
  | FateJunk t => mkFstate (f_batches st) (f_junk st ++ t)
  | _ => st
  end.
Definition fate_acts (f : fate) : list act :=
  AInc FProcessed ::
  match f with
  | FateRule i _ => [AInc FPassed; ARule i]
  | FateJunk _ => [AInc FRejected]
  | FateInvalidTime => [AInc FInvalidTime]
  | FateDropped => []
  end.

(** [right] holds of the rule the code chooses for [line]. *)
Definition right_for gosort rs (right : bytes -> bytes -> list tag -> bytes -> option nat -> Prop) (line : bytes) : Prop :=
  forall pl, newParsedLine line = Some pl ->
    right line (Measurement pl) (Tags pl) (Escaped (SortTags gosort pl)) (LookupParsed rs (SortTags gosort pl)).

Lemma process_lines_spec gs c now right : sorts gs ->
  int64 (now - fc_delta c) -> int64 (now + fc_delta c) -> forall ls st,
  Forall (fun l => l <> []) ls -> Forall (right_for gs (fc_rules c) right) ls ->
  exists fs, Forall2 (line_fate now (fc_delta c) right) ls fs /\
    process_lines gs c now (wrap64 (now - fc_delta c)) (wrap64 (now + fc_delta c)) st ls =
      (fold_left add_fate fs st, flat_map fate_acts fs).
Proof.
  intros GS B1 B2. rewrite !wrap64_id by auto.
  induction ls as [|line ls IH]; intros st Hn Hr; [exists []; split; auto|].
  inversion Hn as [|? ? Hl Hls]; subst. inversion Hr as [|? ? Rl Rls]; subst.
  assert (X : exists f, line_fate now (fc_delta c) right line f /\
    (if (now - fc_delta c <? filterTimestamp line now) && (filterTimestamp line now <? now + fc_delta c)
     then processLine gs c st line else (st, [AInc FInvalidTime])) = (add_fate st f, tl (fate_acts f))).
  { assert (Lt : line_time now line (filterTimestamp line now)) by (apply filterTimestamp_iff; auto).
    destruct ((now - fc_delta c <? filterTimestamp line now) && (filterTimestamp line now <? now + fc_delta c)) eqn:W.
    - apply andb_true_iff in W. destruct W as [W1 W2]. apply Z.ltb_lt in W1, W2.
      assert (W : now - fc_delta c < filterTimestamp line now < now + fc_delta c) by lia.
      unfold processLine. pose proof (newParsedLine_iff line) as N. destruct (newParsedLine line) as [pl|] eqn:Ep.
      + destruct N as (N & _). destruct (sort_line gs line _ _ _ GS N) as (pl' & tags' & Ep' & P & K & S1 & S2).
        rewrite Ep in Ep'. inversion Ep'; subst pl'.
        assert (Stx : sorted_text line (Measurement pl) (Tags pl) (Remainder pl) (Escaped (SortTags gs pl))).
        { exists tags'. split; auto. split; auto. split; [apply S1|]. exact S2. }
        specialize (Rl pl Ep). destruct (LookupParsed (fc_rules c) (SortTags gs pl)) as [i|] eqn:El.
        * exists (FateRule i (Escaped (SortTags gs pl))). split; [|auto]. eapply lf_rule; eauto.
        * exists (FateJunk (Escaped (SortTags gs pl))). split; [|auto]. eapply lf_junk; eauto.
      + exists FateDropped. split; [|auto]. eapply lf_bad; eauto.
    - exists FateInvalidTime. split; [|auto]. eapply lf_time; eauto.
      apply andb_false_iff in W. lia. }
  destruct X as (f & F & X). destruct (IH (add_fate st f) Hls Rls) as (fs & Fs & E).
  exists (f :: fs). split; [constructor; auto|]. destruct line as [|x line]; [congruence|].
  cbn [process_lines]. rewrite X, E. cbn [fold_left flat_map]. destruct f; reflexivity.
Qed.

Lemma write_nth_map g t : forall n k i,
  write_nth (map g (seq k n)) i t = map (fun j => g j ++ if Nat.eqb (k + i) j then t else []) (seq k n).
Proof.
  induction n as [|n IH]; intros k i; auto. cbn [seq map write_nth]. destruct i as [|i].
  - rewrite Nat.add_0_r, Nat.eqb_refl. f_equal. apply map_ext_in. intros j Hj. apply in_seq in Hj.
    replace (Nat.eqb k j) with false by lia. rewrite app_nil_r. auto.
  - rewrite IH. replace (Nat.eqb (k + S i) k) with false by lia. rewrite app_nil_r. f_equal.
    apply map_ext. intros j. replace (S k + i)%nat with (k + S i)%nat by lia. auto.
Qed.

Lemma fold_fates n : forall fs fs0,
  fold_left add_fate fs (mkFstate (map (fun i => data_for i fs0) (seq 0 n)) (junk_for fs0)) =
  mkFstate (map (fun i => data_for i (fs0 ++ fs)) (seq 0 n)) (junk_for (fs0 ++ fs)).
Proof.
  induction fs as [|f fs IH]; intros fs0; [rewrite app_nil_r; auto|].
  cbn [fold_left]. replace (fs0 ++ f :: fs) with ((fs0 ++ [f]) ++ fs) by (rewrite <- app_assoc; auto).
  rewrite <- IH. f_equal. unfold junk_for. rewrite flat_map_app.
  assert (D : forall i, data_for i (fs0 ++ [f]) = data_for i fs0 ++ data_for i [f]) by (intros; apply flat_map_app).
  unfold add_fate. destruct f as [i t|t| |]; simpl; rewrite ?app_nil_r; f_equal.
  - rewrite write_nth_map. apply map_ext. intros j. rewrite D. simpl. rewrite app_nil_r. auto.
  - apply map_ext. intros j. rewrite D. simpl. rewrite app_nil_r. auto.
  - apply map_ext. intros j. rewrite D. simpl. rewrite app_nil_r. auto.
  - apply map_ext. intros j. rewrite D. simpl. rewrite app_nil_r. auto.
Qed.

Lemma fresh_as_fates c :
  newFilterWorker c = mkFstate (map (fun i => data_for i []) (seq 0 (length (fc_rules c)))) (junk_for []).
Proof.
  unfold newFilterWorker. f_equal. generalize 0%nat. induction (fc_rules c); intros k; simpl; auto. f_equal. auto.
Qed.

(* ------------------------------------------------------------------ *)
(** * sendOff *)

Definition nonempty (p : bytes * bytes) : bool := match snd p with [] => false | _ => true end.

(** The publish actions of a list of messages, k-th outcome first. *)
Fixpoint pub_acts (oks : nat -> bool) (k : nat) (ms : list (bytes * bytes)) : list act :=
  match ms with
  | [] => []
  | (s, d) :: ms' => publish s d (oks k) ++ pub_acts oks (S k) ms'
  end.

Lemma pub_acts_app oks a b : forall k, pub_acts oks k (a ++ b) = pub_acts oks k a ++ pub_acts oks (k + length a) b.
Proof.
  induction a as [|[s d] a IH]; intros k; simpl; [rewrite Nat.add_0_r; auto|].
  rewrite IH. replace (k + S (length a))%nat with (S k + length a)%nat by lia.
  destruct (oks k); simpl; auto.
Qed.

Lemma send_rules_spec oks : forall ss bs k, length ss = length bs ->
  send_rules oks k ss bs = (map (fun _ => []) bs, pub_acts oks k (filter nonempty (combine ss bs)),
                            (k + length (filter nonempty (combine ss bs)))%nat).
Proof.
  induction ss as [|s ss IH]; intros [|b bs] k H; try discriminate; cbn [send_rules combine filter map].
  - simpl. rewrite Nat.add_0_r. auto.
  - injection H as H. destruct b as [|x b].
    + rewrite IH by auto. change (nonempty (s, [])) with false. auto.
    + rewrite IH by auto. change (nonempty (s, x :: b)) with true. cbn [pub_acts length].
      f_equal. lia.
Qed.

Lemma outputs_combine rs junk fs :
  outputs rs junk fs =
  filter nonempty (combine (Subjects rs) (map (fun i => data_for i fs) (seq 0 (length rs)))) ++
  filter nonempty [(junk, junk_for fs)].
Proof.
  unfold outputs, Subjects. rewrite filter_app. f_equal. f_equal.
  generalize 0%nat. induction rs as [|r rs IH]; intros k; simpl; auto. rewrite IH. auto.
Qed.

Lemma sendOff_spec c oks fs :
  sendOff c oks (mkFstate (map (fun i => data_for i fs) (seq 0 (length (fc_rules c)))) (junk_for fs)) =
  (newFilterWorker c, pub_acts oks 0 (outputs (fc_rules c) (fc_junk c) fs)).
Proof.
  unfold sendOff. cbn [f_batches f_junk]. rewrite send_rules_spec
    by (unfold Subjects; rewrite !map_length, seq_length; auto).
  rewrite outputs_combine, pub_acts_app. cbn [Nat.add].
  assert (E : map (fun _ : bytes => @nil ascii) (map (fun i => data_for i fs) (seq 0 (length (fc_rules c)))) =
              repeat (@nil ascii) (length (fc_rules c))).
  { rewrite map_map. generalize 0%nat. induction (fc_rules c); intros k; simpl; auto. f_equal. auto. }
  rewrite E. unfold newFilterWorker. destruct (junk_for fs) as [|j js] eqn:J.
  - change (filter nonempty [(fc_junk c, [])]) with (@nil (bytes * bytes)). simpl. rewrite app_nil_r. auto.
  - change (filter nonempty [(fc_junk c, j :: js)]) with [(fc_junk c, j :: js)]. cbn [pub_acts]. rewrite app_nil_r. auto.
Qed.

(* ------------------------------------------------------------------ *)
(** * processBatch *)

Lemma processBatch_spec gs c oks now batch right : sorts gs ->
  int64 (now - fc_delta c) -> int64 (now + fc_delta c) ->
  Forall (right_for gs (fc_rules c) right) (lines_of batch) ->
  exists fs, Forall2 (line_fate now (fc_delta c) right) (lines_of batch) fs /\
    processBatch gs c oks now (newFilterWorker c) batch =
      (newFilterWorker c, flat_map fate_acts fs ++ pub_acts oks 0 (outputs (fc_rules c) (fc_junk c) fs)).
Proof.
  intros GS B1 B2 Hr. destruct (process_lines_spec gs c now right GS B1 B2 (lines_of batch) (newFilterWorker c)) as (fs & F & E).
  - apply Forall_forall. apply lines_of_nonempty.
  - auto.
  - exists fs. split; auto. unfold processBatch. rewrite process_lines_empties, (proj1 (SplitAfter_lines batch)), E.
    rewrite fresh_as_fates, fold_fates. cbn [app]. rewrite sendOff_spec, <- fresh_as_fates. auto.
Qed.

(** The batch always leaves the worker as new, whatever the clock. *)
Lemma process_lines_fates gs c now lo hi : forall ls st,
  exists fs, process_lines gs c now lo hi st ls = (fold_left add_fate fs st, flat_map fate_acts fs).
Proof.
  induction ls as [|line ls IH]; intros st; [exists []; auto|]. cbn [process_lines].
  destruct line as [|x line]; auto.
  assert (X : exists f, (if (lo <? filterTimestamp (x :: line) now) && (filterTimestamp (x :: line) now <? hi)
     then processLine gs c st (x :: line) else (st, [AInc FInvalidTime])) = (add_fate st f, tl (fate_acts f))).
  { destruct (_ && _); [|exists FateInvalidTime; auto]. unfold processLine.
    destruct (newParsedLine (x :: line)) as [pl|]; [|exists FateDropped; auto].
    destruct (LookupParsed (fc_rules c) (SortTags gs pl)) as [i|]; [eexists (FateRule i _)|eexists (FateJunk _)]; reflexivity. }
  destruct X as (f & X). rewrite X. destruct (IH (add_fate st f)) as (fs & E). exists (f :: fs). rewrite E.
  cbn [fold_left flat_map]. destruct f; reflexivity.
Qed.

Lemma processBatch_fresh gs c oks now batch :
  fst (processBatch gs c oks now (newFilterWorker c) batch) = newFilterWorker c.
Proof.
  unfold processBatch. destruct (process_lines_fates gs c now (wrap64 (now - fc_delta c)) (wrap64 (now + fc_delta c))
    (SplitAfter batch) (newFilterWorker c)) as (fs & E).
  rewrite E, fresh_as_fates, fold_fates. cbn [app]. rewrite sendOff_spec, <- fresh_as_fates. auto.
Qed.

(* ------------------------------------------------------------------ *)
(** * Counters *)

Lemma counter_app s a b : counter s (a ++ b) = (counter s a + counter s b)%nat.
Proof. unfold counter. rewrite filter_app, app_length. auto. Qed.
Lemma rule_counter_app i a b : rule_counter i (a ++ b) = (rule_counter i a + rule_counter i b)%nat.
Proof. unfold rule_counter. rewrite filter_app, app_length. auto. Qed.
Lemma failures_app a b : count_publish_failures (a ++ b) = (count_publish_failures a + count_publish_failures b)%nat.
Proof. unfold count_publish_failures. rewrite filter_app, app_length. auto. Qed.
Lemma published_app a b : published (a ++ b) = published a ++ published b.
Proof. apply flat_map_app. Qed.

Lemma published_fates fs : published (flat_map fate_acts fs) = [].
Proof. induction fs as [|f fs IH]; auto. cbn [flat_map]. rewrite published_app, IH. destruct f; auto. Qed.

Lemma published_pubs oks : forall ms k, published (pub_acts oks k ms) = ms.
Proof.
  induction ms as [|[s d] ms IH]; intros k; auto. cbn [pub_acts]. rewrite published_app, IH. destruct (oks k); auto.
Qed.

Lemma counters_pubs oks s : forall ms k,
  counter s (pub_acts oks k ms) = match s with FFailedPublish => count_publish_failures (pub_acts oks k ms) | _ => 0%nat end.
Proof.
  induction ms as [|[sb d] ms IH]; intros k; [destruct s; auto|]. cbn [pub_acts].
  rewrite counter_app, IH, failures_app. destruct (oks k), s; auto.
Qed.
Lemma rule_counters_pubs oks i : forall ms k, rule_counter i (pub_acts oks k ms) = 0%nat.
Proof.
  induction ms as [|[sb d] ms IH]; intros k; auto. cbn [pub_acts]. rewrite rule_counter_app, IH. destruct (oks k); auto.
Qed.

Lemma counters_fates fs :
  counter FProcessed (flat_map fate_acts fs) = length fs /\
  counter FPassed (flat_map fate_acts fs) = fates_rule fs /\
  counter FRejected (flat_map fate_acts fs) = fates_junk fs /\
  counter FInvalidTime (flat_map fate_acts fs) = fates_time fs /\
  counter FFailedPublish (flat_map fate_acts fs) = 0%nat /\
  count_publish_failures (flat_map fate_acts fs) = 0%nat /\
  (forall i, rule_counter i (flat_map fate_acts fs) = fates_of_rule i fs).
Proof.
  induction fs as [|f fs (A & B & C & D & E & F & G)]; [repeat split; auto|].
  cbn [flat_map]. rewrite !counter_app, failures_app, A, B, C, D, E, F.
  split; [destruct f; reflexivity|]. split; [destruct f; reflexivity|]. split; [destruct f; reflexivity|].
  split; [destruct f; reflexivity|]. split; [destruct f; reflexivity|]. split; [destruct f; reflexivity|].
  intros i. rewrite rule_counter_app, G. destruct f as [j t|t| |]; try reflexivity.
  unfold fates_of_rule, rule_counter, fate_acts. cbn [filter length]. destruct (Nat.eqb i j); reflexivity.
Qed.

Lemma fates_partition fs : length fs = (fates_rule fs + fates_junk fs + fates_time fs + fates_dropped fs)%nat.
Proof.
  induction fs as [|f fs IH]; auto. unfold fates_rule, fates_junk, fates_time, fates_dropped in *.
  destruct f; simpl; lia.
Qed.

Fixpoint sum_to (n : nat) (g : nat -> nat) : nat := match n with O => O | S k => (sum_to k g + g k)%nat end.

Lemma sum_to_ext n g h : (forall i, (i < n)%nat -> g i = h i) -> sum_to n g = sum_to n h.
Proof. induction n as [|n IH]; intros H; simpl; auto. rewrite IH, H; auto. Qed.

Lemma sum_to_plus n g h : sum_to n (fun i => (g i + h i)%nat) = (sum_to n g + sum_to n h)%nat.
Proof. induction n as [|n IH]; simpl; auto. rewrite IH. lia. Qed.

Lemma sum_to_one n i : (i < n)%nat -> sum_to n (fun j => if Nat.eqb j i then 1%nat else 0%nat) = 1%nat.
Proof.
  induction n as [|n IH]; [lia|]. intros H. simpl. destruct (Nat.eqb_spec n i) as [->|N].
  - assert (Z : forall k, (k <= i)%nat -> sum_to k (fun j => if Nat.eqb j i then 1%nat else 0%nat) = 0%nat).
    { induction k as [|k IHk]; intros Hk; auto. cbn [sum_to]. rewrite IHk by lia. replace (Nat.eqb k i) with false by lia. auto. }
    rewrite Z; lia.
  - rewrite IH; lia.
Qed.

Lemma sum_to_zero n : sum_to n (fun _ => 0%nat) = 0%nat.
Proof. induction n; simpl; lia. Qed.

Lemma fates_rule_sum n fs : (forall i t, In (FateRule i t) fs -> (i < n)%nat) ->
  fates_rule fs = sum_to n (fun i => fates_of_rule i fs).
Proof.
  induction fs as [|f fs IH]; intros H; [symmetry; apply sum_to_zero|].
  assert (IH' : fates_rule fs = sum_to n (fun i => fates_of_rule i fs)) by (apply IH; intros; eapply H; simpl; eauto).
  destruct f as [j t|t| |]; try (change (fates_rule fs = sum_to n (fun i => fates_of_rule i fs)); exact IH').
  change (S (fates_rule fs) = sum_to n (fun i => fates_of_rule i (FateRule j t :: fs))).
  rewrite (sum_to_ext _ _ (fun i => ((if Nat.eqb i j then 1 else 0) + fates_of_rule i fs)%nat)).
  - rewrite sum_to_plus, sum_to_one by (apply (H j t); simpl; auto). lia.
  - intros i _. unfold fates_of_rule. cbn [filter]. destruct (Nat.eqb i j); auto.
Qed.

Lemma Forall2_In_r {A B} (R : A -> B -> Prop) l1 l2 y : Forall2 R l1 l2 -> In y l2 -> exists x, In x l1 /\ R x y.
Proof.
  induction 1 as [|a b l1 l2 H F IH]; intros Hy; [contradiction|]. destruct Hy as [<-|Hy]; [exists a; simpl; auto|].
  destruct (IH Hy) as (x & Hx & Rx). exists x; simpl; auto.
Qed.

Lemma Forall2_len {A B} (R : A -> B -> Prop) l1 l2 : Forall2 R l1 l2 -> length l1 = length l2.
Proof. induction 1; simpl; auto. Qed.

Lemma right_some_rule gs rs line : right_for gs rs (some_rule rs) line.
Proof.
  intros pl _. unfold some_rule. destruct (LookupParsed rs (SortTags gs pl)) eqn:E; auto. eapply lookup_lt; eauto.
Qed.

Lemma fate_rule_lt rs now delta ls fs : Forall2 (line_fate now delta (some_rule rs)) ls fs ->
  forall i t, In (FateRule i t) fs -> (i < length rs)%nat.
Proof.
  intros F i t H. destruct (Forall2_In_r _ _ _ _ F H) as (x & _ & L).
  inversion L as [| |ts m tags rest text j Hlt Hw Hp Hs Hr|]. unfold some_rule in Hr. subst. auto.
Qed.

(** Conditions under which the rules see the tags and names that are in the line. *)
Definition clean (rs : list rule) (line : bytes) : Prop :=
  forall m tags rest, ParseTags line = POk m tags rest ->
    no_collision rs m /\
    (not_in_place line m tags rest \/ (plain_start m /\ Forall (fun r => ~ is_tag_rule r) rs)).

Lemma right_first_rule gs rs line : sorts gs -> clean rs line -> right_for gs rs (first_rule rs) line.
Proof.
  intros GS C pl Hp. pose proof (newParsedLine_iff line) as N. rewrite Hp in N. destruct N as (N & _).
  destruct (C _ _ _ N) as [C1 C2]. unfold first_rule. apply (route_spec gs rs line pl); auto.
Qed.

(* ------------------------------------------------------------------ *)
(** * Theorem bodies *)

Lemma routing gs c oks now batch : sorts gs -> int64 (now - fc_delta c) -> int64 (now + fc_delta c) ->
  exists fs, Forall2 (line_fate now (fc_delta c) (some_rule (fc_rules c))) (lines_of batch) fs /\
    published (snd (processBatch gs c oks now (newFilterWorker c) batch)) = outputs (fc_rules c) (fc_junk c) fs.
Proof.
  intros GS B1 B2.
  destruct (processBatch_spec gs c oks now batch (some_rule (fc_rules c)) GS B1 B2) as (fs & F & E).
  - apply Forall_forall. intros l _. apply right_some_rule.
  - exists fs. split; auto. rewrite E. cbn [snd]. rewrite published_app, published_fates, published_pubs. auto.
Qed.

Lemma routing_right gs c oks now batch : sorts gs -> int64 (now - fc_delta c) -> int64 (now + fc_delta c) ->
  Forall (clean (fc_rules c)) (lines_of batch) ->
  exists fs, Forall2 (line_fate now (fc_delta c) (first_rule (fc_rules c))) (lines_of batch) fs /\
    published (snd (processBatch gs c oks now (newFilterWorker c) batch)) = outputs (fc_rules c) (fc_junk c) fs.
Proof.
  intros GS B1 B2 Hc.
  destruct (processBatch_spec gs c oks now batch (first_rule (fc_rules c)) GS B1 B2) as (fs & F & E).
  - eapply Forall_impl; [|exact Hc]. intros l Hl. apply right_first_rule; auto.
  - exists fs. split; auto. rewrite E. cbn [snd]. rewrite published_app, published_fates, published_pubs. auto.
Qed.

(** Histories. *)
Definition job_bounds (c : fcfg) (j : job) : Prop :=
  let '(oks, now, m) := j in int64 (now - fc_delta c) /\ int64 (now + fc_delta c).
Definition job_acts gs (c : fcfg) (j : job) : list act :=
  let '(oks, now, m) := j in snd (processBatch gs c oks now (newFilterWorker c) m).

Lemma run_worker_acts gs c : forall js,
  run_worker gs c (newFilterWorker c) js = (newFilterWorker c, flat_map (job_acts gs c) js).
Proof.
  induction js as [|[[oks now] m] js IH]; auto. cbn [run_worker flat_map job_acts].
  pose proof (processBatch_fresh gs c oks now m) as Fr.
  destruct (processBatch gs c oks now (newFilterWorker c) m) as [st1 a1] eqn:E. simpl in Fr. subst st1.
  rewrite IH. auto.
Qed.

(** The fates of all lines of all messages of a history. *)
Definition history_fates (c : fcfg) (js : list job) (fss : list (list fate)) : Prop :=
  Forall2 (fun j fs => let '(oks, now, m) := j in
             Forall2 (line_fate now (fc_delta c) (some_rule (fc_rules c))) (lines_of m) fs) js fss.

Lemma history gs c js : sorts gs -> Forall (job_bounds c) js ->
  exists fss, history_fates c js fss /\
    let acts := snd (run_worker gs c (newFilterWorker c) js) in
    let fs := concat fss in
    published acts = flat_map (outputs (fc_rules c) (fc_junk c)) fss /\
    counter FProcessed acts = length (flat_map (fun j : job => lines_of (snd j)) js) /\
    counter FPassed acts = fates_rule fs /\
    counter FRejected acts = fates_junk fs /\
    counter FInvalidTime acts = fates_time fs /\
    (forall i, rule_counter i acts = fates_of_rule i fs) /\
    counter FFailedPublish acts = count_publish_failures acts.
Proof.
  intros GS. rewrite run_worker_acts. cbn [snd].
  assert (Fa : forall (g : fate -> bool) l1 l2, length (filter g (l1 ++ l2)) = (length (filter g l1) + length (filter g l2))%nat).
  { intros. rewrite filter_app, app_length. auto. }
  induction js as [|[[oks now] m] js IH]; intros H.
  - exists []. split; [constructor|]. repeat split; auto.
  - inversion H as [|? ? Hb Hbs]; subst. destruct (IH Hbs) as (fss & Hf & IH'). clear IH.
    destruct Hb as [B1 B2].
    destruct (processBatch_spec gs c oks now m (some_rule (fc_rules c)) GS B1 B2) as (fs & F & E).
    { apply Forall_forall. intros l _. apply right_some_rule. }
    exists (fs :: fss). split; [constructor; auto|].
    cbv zeta in *. cbn [flat_map job_acts concat]. rewrite E. cbn [snd].
    destruct IH' as (P1 & P2 & P3 & P4 & P5 & P6 & P7).
    destruct (counters_fates fs) as (A & B & C & D & G & I' & K).
    rewrite !published_app, !counter_app, !failures_app, published_fates, published_pubs, P1.
    rewrite !counters_pubs, A, B, C, D, G, I', P2, P3, P4, P5, P7.
    split; auto. split; [rewrite app_length, (Forall2_len _ _ _ F); lia|].
    unfold fates_rule, fates_junk, fates_time, fates_of_rule in *. rewrite !Fa.
    split; [lia|]. split; [lia|]. split; [lia|]. split; [|lia].
    intros i. rewrite !rule_counter_app, K, P6, rule_counters_pubs, Fa. lia.
Qed.

Lemma history_sums gs c js : sorts gs -> Forall (job_bounds c) js ->
  exists dropped : nat, let acts := snd (run_worker gs c (newFilterWorker c) js) in
    counter FProcessed acts = (counter FPassed acts + counter FRejected acts + counter FInvalidTime acts + dropped)%nat /\
    counter FPassed acts = sum_to (length (fc_rules c)) (fun i => rule_counter i acts) /\
    exists fss, history_fates c js fss /\ dropped = fates_dropped (concat fss).
Proof.
  intros GS H. destruct (history gs c js GS H) as (fss & F & P). cbv zeta in *.
  exists (fates_dropped (concat fss)). destruct P as (_ & P2 & P3 & P4 & P5 & P6 & _).
  assert (L : length (concat fss) = length (flat_map (fun j : job => lines_of (snd j)) js)).
  { clear -F. induction F as [|[[oks now] m] fs js fss Hm F IH]; auto. cbn [concat flat_map]. rewrite !app_length, IH.
    simpl. rewrite (Forall2_len _ _ _ Hm). auto. }
  split; [rewrite P2, P3, P4, P5, <- L; apply fates_partition|]. split; [|eauto].
  rewrite P3, (fates_rule_sum (length (fc_rules c))).
  - apply sum_to_ext. intros i _. auto.
  - intros i t Hi. apply in_concat in Hi. destruct Hi as (fs & Hfs & Hi).
    clear -F Hfs Hi. induction F as [|[[oks now] m] fs' js fss Hm F IH]; [contradiction|].
    destruct Hfs as [->|Hfs]; auto. eapply fate_rule_lt; eauto.
Qed.

(* ------------------------------------------------------------------ *)
(** * The time window (C30) *)

Lemma single_line p : ~ In nl p -> lines_of (p ++ [nl]) = [p ++ [nl]].
Proof. intros H. rewrite lines_of_nl_app by auto. auto. Qed.

Lemma window_exact gs c oks now line ts : sorts gs -> int64 (now - fc_delta c) -> int64 (now + fc_delta c) ->
  lines_of line = [line] -> line_time now line ts ->
  let acts := snd (processBatch gs c oks now (newFilterWorker c) line) in
  (now - fc_delta c < ts < now + fc_delta c -> counter FInvalidTime acts = 0%nat) /\
  (~ (now - fc_delta c < ts < now + fc_delta c) -> counter FInvalidTime acts = 1%nat /\ published acts = []).
Proof.
  intros GS B1 B2 L1 Lt. cbv zeta.
  destruct (processBatch_spec gs c oks now line (some_rule (fc_rules c)) GS B1 B2) as (fs & F & E).
  { apply Forall_forall. intros l _. apply right_some_rule. }
  rewrite L1 in F. inversion F as [|? f ? ? Ff F']; subst. inversion F'; subst. rewrite E. cbn [snd].
  apply filterTimestamp_iff in Lt.
  assert (U : forall ts', line_time now line ts' -> ts' = ts) by (intros ts' H; apply filterTimestamp_iff in H; congruence).
  rewrite counter_app, counters_pubs, published_app, published_fates, published_pubs, Nat.add_0_r.
  inversion Ff as [ts' Ht Hw|ts' Ht Hw Hp|ts' m tags rest text i Ht Hw Hp Hs Hr|ts' m tags rest text Ht Hw Hp Hs Hr];
    subst f; specialize (U _ Ht); subst ts'.
  - split; [tauto|]. intros _. split; [reflexivity|]. rewrite outputs_combine. cbn [junk_for flat_map].
    change (filter nonempty [(fc_junk c, [])]) with (@nil (bytes * bytes)). rewrite app_nil_r.
    generalize 0%nat. unfold Subjects. clear. induction (fc_rules c) as [|r rs IH]; intros k; auto.
    cbn [length seq map combine filter]. change (data_for k [FateInvalidTime]) with (@nil ascii).
    change (nonempty (r_subject r, [])) with false. apply IH.
  - split; [reflexivity|tauto].
  - split; [reflexivity|tauto].
  - split; [reflexivity|tauto].
Qed.

(* ------------------------------------------------------------------ *)
(** * The pool (C31) *)

Definition received (ls : list flabel) : list bytes :=
  flat_map (fun l => match l with LReceive m => [m] | _ => [] end) ls.
Definition taken (ls : list flabel) : list job :=
  flat_map (fun l => match l with LTake _ j => [j] | _ => [] end) ls.
Definition performed (ls : list flabel) : list act :=
  flat_map (fun l => match l with LAct _ a => [a] | _ => [] end) ls.
Definition todo_of (w : wstate) : list act := match w with WBusy _ t => t | _ => [] end.
Definition st_fresh (c : fcfg) (w : wstate) : Prop :=
  match w with WIdle st => st = newFilterWorker c | WBusy st _ => st = newFilterWorker c | WExited => True end.

Lemma set_nth_split {A} (l : list A) i x y : nth_error l i = Some y ->
  exists l1 l2, l = l1 ++ y :: l2 /\ set_nth l i x = l1 ++ x :: l2 /\ length l1 = i.
Proof.
  revert i; induction l as [|z l IH]; intros [|i] H; try discriminate; simpl in H.
  - inversion H; subst. exists [], l. auto.
  - destruct (IH i H) as (l1 & l2 & -> & E & L). exists (z :: l1), l2. simpl. rewrite E. auto.
Qed.

Lemma pool_invariant gs c n ls s : fexec gs c (startFilter c n) ls s ->
  received ls = map (fun j : job => snd j) (taken ls) ++ s_jobs s /\
  Permutation (s_done s ++ flat_map todo_of (s_workers s)) (flat_map (job_acts gs c) (taken ls)) /\
  s_done s = performed ls /\ Forall (st_fresh c) (s_workers s) /\ length (s_workers s) = n /\
  (length (s_jobs s) <= jobs_cap)%nat.
Proof.
  remember (startFilter c n) as s0 eqn:E0. intros H. induction H as [s|s0 l s1 ls s2 H IH St]; subst.
  - unfold startFilter. cbn [s_jobs s_done s_workers received taken performed flat_map map app].
    split; auto. split; [|split; auto; split; [|split; [apply repeat_length|unfold jobs_cap; simpl; lia]]].
    + induction n; simpl; auto.
    + apply Forall_forall. intros w Hw. apply repeat_spec in Hw. subst. reflexivity.
  - destruct (IH eq_refl) as (A & B & D & F & L & Q). clear IH.
    assert (Ra : received (ls ++ [l]) = received ls ++ received [l]) by (apply flat_map_app).
    assert (Ta : taken (ls ++ [l]) = taken ls ++ taken [l]) by (apply flat_map_app).
    assert (Pa : performed (ls ++ [l]) = performed ls ++ performed [l]) by (apply flat_map_app).
    rewrite Ra, Ta, Pa. inversion St as [q ws d s m Hc|q ws d s w st oks now m st' acts Hw Hp|q ws d s w st a todo Hw
      |q ws d s w st Hw|q ws d|q ws d w st Hw]; subst; cbn [s_jobs s_done s_workers] in *;
      cbn [received taken performed flat_map app map] in *; rewrite ?app_nil_r.
    + repeat split; auto. { rewrite A, <- app_assoc. auto. } { rewrite app_length; simpl; lia. }
    + destruct (set_nth_split ws w (WBusy st' acts) _ Hw) as (l1 & l2 & -> & E & _). rewrite E.
      apply Forall_app in F. destruct F as [F1 F2]. inversion F2 as [|? ? Fw F3]; subst. simpl in Fw. subst st.
      pose proof (processBatch_fresh gs c oks now m) as Fr. rewrite Hp in Fr. simpl in Fr. subst st'.
      split; [|split; [|split; [auto|split; [|split]]]].
      * rewrite A, map_app, <- app_assoc. auto.
      * rewrite !flat_map_app. cbn [flat_map]. rewrite app_nil_r.
        replace (job_acts gs c (oks, now, m)) with acts by (unfold job_acts; rewrite Hp; auto).
        rewrite flat_map_app in B. cbn [flat_map todo_of app] in B.
        eapply perm_trans; [|apply Permutation_app_tail; exact B].
        rewrite <- !app_assoc. apply Permutation_app_head. apply Permutation_app_head. apply Permutation_app_comm.
      * apply Forall_app. split; auto. constructor; auto. reflexivity.
      * cbn [length]; rewrite !app_length in *; cbn [length] in *; auto.
      * simpl in Q. lia.
    + destruct (set_nth_split ws w (WBusy st todo) _ Hw) as (l1 & l2 & -> & E & _). rewrite E.
      apply Forall_app in F. destruct F as [F1 F2]. inversion F2 as [|? ? Fw F3]; subst.
      split; [auto|split; [|split; [auto|split; [|split]]]]; auto.
      * eapply perm_trans; [|exact B]. rewrite !flat_map_app. cbn [flat_map todo_of].
        rewrite <- !app_assoc. apply Permutation_app_head. cbn [app]. 
        apply (Permutation_middle (flat_map todo_of l1) (todo ++ flat_map todo_of l2) a).
      * apply Forall_app. split; auto.
      * cbn [length]; rewrite !app_length in *; cbn [length] in *; auto.
    + destruct (set_nth_split ws w (WIdle st) _ Hw) as (l1 & l2 & -> & E & _). rewrite E.
      apply Forall_app in F. destruct F as [F1 F2]. inversion F2 as [|? ? Fw F3]; subst.
      split; [auto|split; [|split; [auto|split; [|split]]]]; auto.
      * rewrite flat_map_app in *. auto.
      * apply Forall_app. split; auto.
      * cbn [length]; rewrite !app_length in *; cbn [length] in *; auto.
    + repeat split; auto.
    + destruct (set_nth_split ws w WExited _ Hw) as (l1 & l2 & -> & E & _). rewrite E.
      apply Forall_app in F. destruct F as [F1 F2]. inversion F2 as [|? ? Fw F3]; subst.
      split; [auto|split; [|split; [auto|split; [|split]]]]; auto.
      * rewrite flat_map_app in *. auto.
      * apply Forall_app. split; auto. constructor; auto. exact Logic.I.
      * cbn [length]; rewrite !app_length in *; cbn [length] in *; auto.
Qed.

Lemma perm_counter s a b : Permutation a b -> counter s a = counter s b.
Proof.
  intros P. unfold counter. induction P; simpl; auto; try congruence.
  - destruct x; auto. destruct (fstat_eqb s s0); simpl; auto.
  - destruct x as [t|i|su d o], y as [t'|i'|su' d' o']; auto.
    destruct (fstat_eqb s t), (fstat_eqb s t'); auto.
Qed.
Lemma perm_rule_counter i a b : Permutation a b -> rule_counter i a = rule_counter i b.
Proof.
  intros P. unfold rule_counter. induction P; simpl; auto; try congruence.
  - destruct x as [t|j|su d o]; auto. destruct (Nat.eqb i j); simpl; auto.
  - destruct x as [t|j|su d o], y as [t'|j'|su' d' o']; auto.
    destruct (Nat.eqb i j), (Nat.eqb i j'); auto.
Qed.
Lemma perm_published a b : Permutation a b -> Permutation (published a) (published b).
Proof. intros P. apply Permutation_flat_map. auto. Qed.
Lemma published_flat {A} (g : A -> list act) l : published (flat_map g l) = flat_map (fun x => published (g x)) l.
Proof. induction l; auto. cbn [flat_map]. rewrite published_app. congruence. Qed.

(** Nothing in flight. *)
Definition quiet (s : fsys) : Prop := s_jobs s = [] /\ Forall (fun w => todo_of w = []) (s_workers s).

Lemma quiet_todo ws : Forall (fun w => todo_of w = []) ws -> flat_map todo_of ws = [].
Proof. induction 1; simpl; auto. rewrite H; auto. Qed.

Lemma pool_quiet gs c n ls s : fexec gs c (startFilter c n) ls s -> quiet s ->
  received ls = map (fun j : job => snd j) (taken ls) /\
  Permutation (published (performed ls))
              (flat_map (fun j : job => let '(oks, now, m) := j in
                           published (snd (processBatch gs c oks now (newFilterWorker c) m))) (taken ls)) /\
  (forall st, counter st (performed ls) =
     list_sum (map (fun j : job => let '(oks, now, m) := j in
                      counter st (snd (processBatch gs c oks now (newFilterWorker c) m))) (taken ls))) /\
  (forall i, rule_counter i (performed ls) =
     list_sum (map (fun j : job => let '(oks, now, m) := j in
                      rule_counter i (snd (processBatch gs c oks now (newFilterWorker c) m))) (taken ls))).
Proof.
  intros H [Hq Hw]. destruct (pool_invariant gs c n ls s H) as (A & B & D & _).
  rewrite Hq, app_nil_r in A. rewrite (quiet_todo _ Hw), app_nil_r, D in B.
  split; auto. split; [|split].
  - apply perm_published in B. rewrite published_flat in B.
    eapply perm_trans; [exact B|]. erewrite flat_map_ext; [apply Permutation_refl|].
    intros [[oks now] m]. auto.
  - intros st. rewrite (perm_counter st _ _ B). clear. induction (taken ls) as [|[[oks now] m] js IH]; auto.
    cbn [flat_map map list_sum fold_right]. rewrite counter_app, IH. auto.
  - intros st. rewrite (perm_rule_counter st _ _ B). clear. induction (taken ls) as [|[[oks now] m] js IH]; auto.
    cbn [flat_map map list_sum fold_right]. rewrite rule_counter_app, IH. auto.
Qed.

(** Progress: while a message is queued and some worker has not exited, some worker step is
    possible. *)
Lemma pool_progress gs c n ls s : fexec gs c (startFilter c n) ls s ->
  (exists w st, nth_error (s_workers s) w = Some st /\ st <> WExited) -> s_jobs s <> [] \/ flat_map todo_of (s_workers s) <> [] ->
  exists l s', fstep gs c s l s' /\ match l with LReceive _ | LStop | LExit _ => False | _ => True end.
Proof.
  intros H (w & st & Hw & Ne) Hj. destruct s as [q ws d sp]. cbn [s_jobs s_workers] in *.
  destruct st as [st|st [|a todo]|]; [| | |congruence].
  - destruct q as [|m q].
    + destruct Hj as [Hj|Hj]; [congruence|].
      assert (X : exists w' st' a t, nth_error ws w' = Some (WBusy st' (a :: t))).
      { clear -Hj. induction ws as [|[st|st [|a t]|] ws IH]; simpl in Hj; try congruence.
        - destruct (IH Hj) as (w' & s' & a & t & E). exists (S w'), s', a, t. auto.
        - destruct (IH Hj) as (w' & s' & a & t & E). exists (S w'), s', a, t. auto.
        - exists 0%nat, st, a, t. auto.
        - destruct (IH Hj) as (w' & s' & a & t & E). exists (S w'), s', a, t. auto. }
      destruct X as (w' & st' & a & t & E). eexists (LAct w' a), _. split; [eapply fs_act; eauto|auto].
    + destruct (processBatch gs c (fun _ => true) 0 st m) as [st' acts] eqn:E.
      eexists (LTake w (fun _ => true, 0, m)), _. split; [eapply fs_take; eauto|auto].
  - eexists (LDone w), _. split; [eapply fs_done; eauto|auto].
  - eexists (LAct w a), _. split; [eapply fs_act; eauto|auto].
Qed.

Lemma pool_moment gs c n ls s : fexec gs c (startFilter c n) ls s ->
  received ls = map (fun j : job => snd j) (taken ls) ++ s_jobs s /\
  Permutation (performed ls ++ flat_map todo_of (s_workers s)) (flat_map (job_acts gs c) (taken ls)) /\
  length (s_workers s) = n /\ (length (s_jobs s) <= 1024)%nat.
Proof.
  intros H. destruct (pool_invariant gs c n ls s H) as (A & B & D & F & L & Q). rewrite <- D. auto.
Qed.

Lemma full_ts_time now line pre txt ts :
  line_ts_split line pre txt ts -> length txt = 19%nat -> (24 < length line)%nat -> ts <> -1 -> line_time now line ts.
Proof.
  intros H Lt L N. left. split; auto. split; auto. exists pre, txt. split; auto.
  rewrite Lt. replace (length pre + 19 - 19)%nat with (length pre) by lia. rewrite skipn_all. auto.
Qed.

Lemma line_time_unique now line t1 t2 : line_time now line t1 -> line_time now line t2 -> t1 = t2.
Proof. rewrite !filterTimestamp_iff. congruence. Qed.
