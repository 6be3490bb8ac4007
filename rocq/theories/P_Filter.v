(** Property theorems C23-C31: rules and the filter. *)
From Verif Require Import Base Text TextSpec TextProofs Timestamps NumSpec NumProofs LinesSpec Rules RulesSpec RulesProofs
  RouteProofs FilterWorker FilterSpec FilterProofs.
Local Open Scope Z_scope.

(** Sorting functions as required of sort.Sort exist. *)
Example gosort_exists : sorts (@isort).
Proof. exact isort_sorts. Qed.

(** C23 *)
Theorem C23_subset_of : forall a b : list tag,
  SubsetOf a b = true <-> (forall k v, In (k, v) a -> In (k, v) b).
Proof.
  exact (fun a b => iff_trans (subset_iff a b)
    (conj (fun H k v => H (k, v)) (fun H kv => match kv with (k, v) => H k v end))).
Qed.
Print Assumptions C23_subset_of.
Example C23_case : SubsetOf [(lit "a", lit "1"); (lit "b", lit "2"); (lit "a", lit "1")]
                            [(lit "b", lit "2"); (lit "c", lit "3"); (lit "a", lit "1")] = true /\
                   SubsetOf [(lit "a", lit "1"); (lit "b", lit "3")] [(lit "b", lit "2"); (lit "a", lit "1")] = false.
Proof. vm_compute. auto. Qed.

(** C24: the rule found is the first whose match function accepts the line. *)
Theorem C24_first_match : forall rs pl,
  first_such (fun r => rule_matches r pl = true) rs (LookupParsed rs pl).
Proof. exact LookupParsed_first. Qed.
Print Assumptions C24_first_match.

(** The answer is determined by that. *)
Theorem C24_first_match_unique : forall (A : Type) (P : A -> Prop) l o1 o2,
  first_such P l o1 -> first_such P l o2 -> o1 = o2.
Proof. exact (fun A => @first_such_unique A). Qed.

(** For a raw line: unparseable lines match nothing; otherwise the first rule whose meaning
    fits the line, provided no basic rule's name collides with the measurement. *)
Theorem C24_lookup_raw : forall rs line,
  match ParseTags line with
  | POk m tags rest => no_collision rs m -> first_such (fun r => means (r_match r) m tags line) rs (Lookup rs line)
  | _ => Lookup rs line = None
  end.
Proof. exact Lookup_spec. Qed.
Print Assumptions C24_lookup_raw.
Definition ex_rules : list rule :=
  [ mkRule (MBasic (lit "cpu")) (lit "s0"); mkRule (MTags [(lit "host", lit "s1")]) (lit "s1");
    mkRule (MBasic (lit "cpu")) (lit "s2"); mkRule (MNegRegex (fun t => memb t "!"%char)) (lit "s3") ].
Example C24_case :
  map (Lookup ex_rules) [lit "cpu,host=s1 x=1"; lit "mem,a=b,host=s1 x=1"; lit "mem x=1"; lit "mem x=""!"""; lit "a,b"] =
  [Some 0%nat; Some 1%nat; Some 3%nat; None; None].
Proof. vm_compute. auto. Qed.

(** C25: false of the code: only 32-bit hashes are compared. *)
Theorem C25_refuted : exists name line m tags rest pl,
  newParsedLine line = Some pl /\ ParseTags line = POk m tags rest /\ m <> name /\
  rule_matches (mkRule (MBasic name) (lit "s")) pl = true.
Proof.
  exists (lit "swap_in_p508"), (lit "kafka_count34,host=a value=1"), (lit "kafka_count34"), [(lit "host", lit "a")], (lit "value=1"),
    (mkPL (lit "kafka_count34,host=a value=1") None (PView 0 13) [(PView 14 4, PView 19 1)] (Some 21%nat)).
  split; [vm_compute; reflexivity|]. split; [vm_compute; reflexivity|]. split; [discriminate|vm_compute; reflexivity].
Qed.
Print Assumptions C25_refuted.

(** What holds: the right name always matches, and a match means equal hashes. *)
Theorem C25_basic_partial : forall name subj line pl m tags rest,
  newParsedLine line = Some pl -> ParseTags line = POk m tags rest ->
  (m = name -> rule_matches (mkRule (MBasic name) subj) pl = true) /\
  (rule_matches (mkRule (MBasic name) subj) pl = true -> hashMeasurement m = hashMeasurement name).
Proof. exact basic_rule. Qed.
Print Assumptions C25_basic_partial.

(** Names differing in a single byte never collide; a common ending does not change whether
    names collide. *)
Theorem C25_one_byte_apart_partial : forall a x y b,
  hashMeasurement (a ++ x :: b) = hashMeasurement (a ++ y :: b) -> x = y.
Proof. exact hash_one_byte. Qed.
Print Assumptions C25_one_byte_apart_partial.
Theorem C25_common_ending_partial : forall a1 a2 b,
  hashMeasurement (a1 ++ b) = hashMeasurement (a2 ++ b) <-> hashMeasurement a1 = hashMeasurement a2.
Proof. exact hash_suffix. Qed.
Print Assumptions C25_common_ending_partial.
(** FNV-1 test vectors (published reference values). *)
Example C25_vectors : map hashMeasurement [lit ""; lit "a"; lit "foobar"] = [2166136261; 84696446; 837857890].
Proof. vm_compute. auto. Qed.

(** C26 *)
Theorem C26_sorted_unchanged : forall gosort line m tags rest, sorts gosort ->
  ParseTags line = POk m tags rest -> keys_sorted tags ->
  exists pl, newParsedLine line = Some pl /\ Escaped (SortTags gosort pl) = line.
Proof. exact sort_noop. Qed.
Print Assumptions C26_sorted_unchanged.

Theorem C26_data_preserved : forall gosort line m tags rest, sorts gosort -> ParseTags line = POk m tags rest ->
  rest <> [] -> good_measurement m -> Forall good_tag tags ->
  exists pl tags', newParsedLine line = Some pl /\ Permutation tags tags' /\ keys_sorted tags' /\
    ParseTags (Escaped (SortTags gosort pl)) = POk m tags' rest /\
    exists hdr, Escaped (SortTags gosort pl) = hdr ++ [sp] ++ rest.
Proof. exact sort_line_data. Qed.
Print Assumptions C26_data_preserved.
(** Both code paths: in place (same length), and copying (the escapes differ). *)
Example C26_case_in_place : option_map (fun pl => Escaped (SortTags (@isort) pl)) (newParsedLine (lit "foo,host=s1,dc=n\,y x=1")) =
  Some (lit "foo,dc=n\,y,host=s1 x=1").
Proof. vm_compute. auto. Qed.
Example C26_case_copy : option_map (fun pl => Escaped (SortTags (@isort) pl)) (newParsedLine (lit "foo,z=b=c,a=1 x=1")) =
  Some (lit "foo,a=1,z=b\=c x=1").
Proof. vm_compute. auto. Qed.
(** The conditions are needed: without fields the newline moves into the middle of the line;
    a value with a backslash before a quote changes. *)
Example C26_no_fields : option_map (fun pl => Escaped (SortTags (@isort) pl)) (newParsedLine (lit "foo,b=1,a=2
")) = Some (lit "foo,a=2
,b=1").
Proof. vm_compute. auto. Qed.
Example C26_bad_value : option_map (fun pl => Escaped (SortTags (@isort) pl)) (newParsedLine (lit "foo,b=\\""q,a=2 x=1")) =
  Some (lit "foo,a=2,b=\""q x=1").
Proof. vm_compute. auto. Qed.

(** C27: false of the code: an unsorted line with the tag is not matched by its tags rule. *)
Theorem C27_refuted : exists line line' m tags tags' rest pl pl',
  newParsedLine line = Some pl /\ newParsedLine line' = Some pl' /\
  ParseTags line = POk m tags rest /\ ParseTags line' = POk m tags' rest /\ Permutation tags tags' /\
  LookupParsed [mkRule (MTags [(lit "host", lit "s1")]) (lit "s")] (SortTags (@isort) pl) <>
  LookupParsed [mkRule (MTags [(lit "host", lit "s1")]) (lit "s")] (SortTags (@isort) pl').
Proof.
  exists (lit "foo,host=s1,dc=nyc x=1"), (lit "foo,dc=nyc,host=s1 x=1"), (lit "foo"),
    [(lit "host", lit "s1"); (lit "dc", lit "nyc")], [(lit "dc", lit "nyc"); (lit "host", lit "s1")], (lit "x=1"),
    (mkPL (lit "foo,host=s1,dc=nyc x=1") None (PView 0 3) [(PView 4 4, PView 9 2); (PView 12 2, PView 15 3)] (Some 19%nat)),
    (mkPL (lit "foo,dc=nyc,host=s1 x=1") None (PView 0 3) [(PView 4 2, PView 7 3); (PView 11 4, PView 16 2)] (Some 19%nat)).
  split; [vm_compute; reflexivity|]. split; [vm_compute; reflexivity|]. split; [vm_compute; reflexivity|].
  split; [vm_compute; reflexivity|]. split; [apply perm_swap|]. vm_compute. discriminate.
Qed.
Print Assumptions C27_refuted.

(** What holds: unless the line is rewritten in place, or when no rule looks at tags, the
    first rule whose meaning fits the line's set of tags is chosen. *)
Theorem C27_rules_see_the_line_partial : forall gosort rs line pl m tags rest, sorts gosort ->
  newParsedLine line = Some pl -> ParseTags line = POk m tags rest -> no_collision rs m ->
  (not_in_place line m tags rest \/ (plain_start m /\ Forall (fun r => ~ is_tag_rule r) rs)) ->
  first_such (fun r => means (r_match r) m tags (Escaped (SortTags gosort pl))) rs
             (LookupParsed rs (SortTags gosort pl)).
Proof. exact route_values. Qed.
Print Assumptions C27_rules_see_the_line_partial.
Example C27_case : not_in_place (lit "foo,z=b=c,a=1 x=1") (lit "foo") [(lit "z", lit "b=c"); (lit "a", lit "1")] (lit "x=1") /\
  ~ keys_sorted [(lit "z", lit "b=c"); (lit "a", lit "1")].
Proof.
  split; [right; right; vm_compute; discriminate|].
  intros H. specialize (H 0%nat 1%nat (lit "z", lit "b=c") (lit "a", lit "1")). vm_compute in H.
  specialize (H ltac:(auto) eq_refl eq_refl). discriminate.
Qed.

(** C28: every line of a batch has one fate, and what is published is exactly the forwarded
    lines, per rule in input order, then junk. *)
Theorem C28_routing : forall gosort c oks now batch, sorts gosort ->
  int64 (now - fc_delta c) -> int64 (now + fc_delta c) ->
  exists fs, Forall2 (line_fate now (fc_delta c) (some_rule (fc_rules c))) (lines_of batch) fs /\
    published (snd (processBatch gosort c oks now (newFilterWorker c) batch)) = outputs (fc_rules c) (fc_junk c) fs.
Proof. exact routing. Qed.
Print Assumptions C28_routing.

(** With the rule being the right one, for lines the rules see unscathed (C25, C27). *)
Theorem C28_right_subject : forall gosort c oks now batch, sorts gosort ->
  int64 (now - fc_delta c) -> int64 (now + fc_delta c) ->
  Forall (clean (fc_rules c)) (lines_of batch) ->
  exists fs, Forall2 (line_fate now (fc_delta c) (first_rule (fc_rules c))) (lines_of batch) fs /\
    published (snd (processBatch gosort c oks now (newFilterWorker c) batch)) = outputs (fc_rules c) (fc_junk c) fs.
Proof. exact routing_right. Qed.
Print Assumptions C28_right_subject.

(** Batches do not mix: a worker is as new after each. *)
Theorem C28_nothing_left_behind : forall gosort c oks now batch,
  fst (processBatch gosort c oks now (newFilterWorker c) batch) = newFilterWorker c.
Proof. exact processBatch_fresh. Qed.
Print Assumptions C28_nothing_left_behind.

Definition ex_cfg : fcfg := mkFcfg 1000 ex_rules (lit "junk").
Example C28_case : published (snd (processBatch (@isort) ex_cfg (fun _ => true) 1500000000000000000 (newFilterWorker ex_cfg) (lit "cpu x=1
mem,z=1,host=s1=2 x=1

cpu,b=1,a=2 x=2
mem x=""!"" 1400000000000000000
mem x=""!""
broken,
cpu x=3"))) = [ (lit "s0", lit "cpu x=1
cpu,a=2,b=1 x=2
cpu x=3"); (lit "s3", lit "mem,host=s1\=2,z=1 x=1

"); (lit "junk", lit "mem x=""!""
")].
Proof. vm_compute. auto. Qed.
Example C28_case_bounds : int64 (1500000000000000000 - fc_delta ex_cfg) /\ int64 (1500000000000000000 + fc_delta ex_cfg).
Proof. unfold int64, minInt64, maxInt64, two63, ex_cfg; simpl; lia. Qed.
Example C28_case_clean : Forall (clean ex_rules) (lines_of (lit "cpu x=1
")).
Proof.
  constructor; [|constructor]. intros m tags rest H. vm_compute in H. inversion H; subst. split.
  - intros r name [<-|[<-|[<-|[<-|[]]]]] E X; inversion E; reflexivity.
  - left. left. intros i j a b L Hi. destruct i; discriminate.
Qed.

(** C29: the counters after any history of messages handled by one worker. *)
Theorem C29_counters : forall gosort c js, sorts gosort -> Forall (job_bounds c) js ->
  exists fss, history_fates c js fss /\
    let acts := snd (run_worker gosort c (newFilterWorker c) js) in
    let fs := concat fss in
    published acts = flat_map (outputs (fc_rules c) (fc_junk c)) fss /\
    counter FProcessed acts = length (flat_map (fun j : job => lines_of (snd j)) js) /\
    counter FPassed acts = fates_rule fs /\
    counter FRejected acts = fates_junk fs /\
    counter FInvalidTime acts = fates_time fs /\
    (forall i, rule_counter i acts = fates_of_rule i fs) /\
    counter FFailedPublish acts = count_publish_failures acts.
Proof. exact history. Qed.
Print Assumptions C29_counters.

Theorem C29_sums : forall gosort c js, sorts gosort -> Forall (job_bounds c) js ->
  exists dropped : nat, let acts := snd (run_worker gosort c (newFilterWorker c) js) in
    counter FProcessed acts = (counter FPassed acts + counter FRejected acts + counter FInvalidTime acts + dropped)%nat /\
    counter FPassed acts = sum_to (length (fc_rules c)) (fun i => rule_counter i acts) /\
    exists fss, history_fates c js fss /\ dropped = fates_dropped (concat fss).
Proof. exact history_sums. Qed.
Print Assumptions C29_sums.
Example C29_case : let acts := snd (run_worker (@isort) ex_cfg (newFilterWorker ex_cfg)
    [ (fun _ => false, 1500000000000000000, lit "cpu x=1
mem x=""!""
a,b
"); (fun _ => true, 1500000000000000000, lit "cpu x=1 1400000000000000000
") ]) in
  map (fun s => counter s acts) [FProcessed; FPassed; FRejected; FInvalidTime; FFailedPublish] = [4; 1; 1; 1; 2]%nat.
Proof. vm_compute. auto. Qed.

(** C30: false of the code as stated: short lines, short timestamps and 20-character
    timestamps are never checked. *)
Theorem C30_refuted : exists line ts, line_ts line ts (Z.of_nat (length line) - 7) /\ ts = 123456 /\
  ~ (1500000000000000000 - 1000 < ts < 1500000000000000000 + 1000) /\
  published (snd (processBatch (@isort) ex_cfg (fun _ => true) 1500000000000000000 (newFilterWorker ex_cfg) line)) =
    [(lit "s0", line)].
Proof.
  exists (lit "cpu,host=somewhere,rack=one value=1 123456
"), 123456.
  split; [|split; [auto|split; [lia|vm_compute; auto]]].
  exists (lit "cpu,host=somewhere,rack=one value=1"), (lit "123456"). split; [|vm_compute; auto].
  split; [left; reflexivity|]. split; [vm_compute; intuition discriminate|]. split; [vm_compute; lia|].
  split; [|vm_compute; intuition discriminate].
  change 123456 with (dec_value (lit "123456")). constructor. split; [discriminate|].
  repeat constructor; vm_compute; intuition discriminate.
Qed.
Print Assumptions C30_refuted.
(** 20 characters (negative), and a timestamp of -1, and a window that overflows int64. *)
Example C30_more_unchecked :
  map (fun line => published (snd (processBatch (@isort) ex_cfg (fun _ => true) 1500000000000000000 (newFilterWorker ex_cfg) line)))
    [ lit "cpu value=1 -1400000000000000000"; lit "cpu value=1111111111111 -1"; lit "cpu x=1 123456789" ] =
    [ [(lit "s0", lit "cpu value=1 -1400000000000000000")]; [(lit "s0", lit "cpu value=1111111111111 -1")];
      [(lit "s0", lit "cpu x=1 123456789")] ] /\
  published (snd (processBatch (@isort) (mkFcfg 9000000000000000000 ex_rules (lit "junk")) (fun _ => true)
    1500000000000000000 (newFilterWorker ex_cfg) (lit "cpu x=1 1500000000000000000"))) = [].
Proof. vm_compute. auto. Qed.

(** What holds, exactly: with [line_time] the time the filter recognises in a line, the line is
    counted as invalid and not published when that is outside the open window, and never
    counted as invalid otherwise. *)
Theorem C30_window_partial : forall gosort c oks now line ts, sorts gosort ->
  int64 (now - fc_delta c) -> int64 (now + fc_delta c) -> lines_of line = [line] -> line_time now line ts ->
  let acts := snd (processBatch gosort c oks now (newFilterWorker c) line) in
  (now - fc_delta c < ts < now + fc_delta c -> counter FInvalidTime acts = 0%nat) /\
  (~ (now - fc_delta c < ts < now + fc_delta c) -> counter FInvalidTime acts = 1%nat /\ published acts = []).
Proof. exact window_exact. Qed.
Print Assumptions C30_window_partial.

(** A 19-character timestamp (nanoseconds since 2001, to 2262) at the end of a line longer than
    24 bytes is always recognised. *)
Theorem C30_full_timestamps_recognised : forall now line pre txt ts,
  line_ts_split line pre txt ts -> length txt = 19%nat -> (24 < length line)%nat -> ts <> -1 -> line_time now line ts.
Proof. exact full_ts_time. Qed.
Print Assumptions C30_full_timestamps_recognised.
Theorem C30_one_time_per_line : forall now line t1 t2, line_time now line t1 -> line_time now line t2 -> t1 = t2.
Proof. exact line_time_unique. Qed.

(** C31 *)
Theorem C31_pool : forall gosort c n ls s, fexec gosort c (startFilter c n) ls s -> quiet s ->
  received ls = map (fun j : job => snd j) (taken ls) /\
  Permutation (published (performed ls))
              (flat_map (fun j : job => let '(oks, now, m) := j in
                           published (snd (processBatch gosort c oks now (newFilterWorker c) m))) (taken ls)) /\
  (forall st, counter st (performed ls) =
     list_sum (map (fun j : job => let '(oks, now, m) := j in
                      counter st (snd (processBatch gosort c oks now (newFilterWorker c) m))) (taken ls))) /\
  (forall i, rule_counter i (performed ls) =
     list_sum (map (fun j : job => let '(oks, now, m) := j in
                      rule_counter i (snd (processBatch gosort c oks now (newFilterWorker c) m))) (taken ls))).
Proof. exact pool_quiet. Qed.
Print Assumptions C31_pool.

(** At every moment: what was done and what the busy workers still have to do is what the
    messages taken so far produce; messages received are those taken, in order, then those
    still queued (which are lost if Stop is called). *)
Theorem C31_at_every_moment : forall gosort c n ls s, fexec gosort c (startFilter c n) ls s ->
  received ls = map (fun j : job => snd j) (taken ls) ++ s_jobs s /\
  Permutation (performed ls ++ flat_map todo_of (s_workers s)) (flat_map (job_acts gosort c) (taken ls)) /\
  length (s_workers s) = n /\ (length (s_jobs s) <= 1024)%nat.
Proof. exact pool_moment. Qed.
Print Assumptions C31_at_every_moment.

(** Work never gets stuck while a worker is alive. *)
Theorem C31_progress : forall gosort c n ls s, fexec gosort c (startFilter c n) ls s ->
  (exists w st, nth_error (s_workers s) w = Some st /\ st <> WExited) ->
  s_jobs s <> [] \/ flat_map todo_of (s_workers s) <> [] ->
  exists l s', fstep gosort c s l s' /\ match l with LReceive _ | LStop | LExit _ => False | _ => True end.
Proof. exact pool_progress. Qed.
Print Assumptions C31_progress.

(** Two workers with interleaved actions. *)
Example C31_case : exists ls s, fexec (@isort) ex_cfg (startFilter ex_cfg 2) ls s /\ quiet s /\
  published (performed ls) = [(lit "s0", lit "cpu x=2
"); (lit "s0", lit "cpu x=1
")].
Proof.
  set (j1 := (fun _ : nat => true, 1500000000000000000, lit "cpu x=1
")). set (j2 := (fun _ : nat => true, 1500000000000000000, lit "cpu x=2
")).
  exists ([] ++ [LReceive (snd j1)] ++ [LReceive (snd j2)] ++ [LTake 0 j1] ++ [LTake 1 j2] ++
    [LAct 0 (AInc FProcessed)] ++ [LAct 1 (AInc FProcessed)] ++ [LAct 1 (AInc FPassed)] ++ [LAct 0 (AInc FPassed)] ++
    [LAct 1 (ARule 0)] ++ [LAct 0 (ARule 0)] ++ [LAct 1 (APublish (lit "s0") (snd j2) true)] ++
    [LAct 0 (APublish (lit "s0") (snd j1) true)]).
  eexists. split; [|split; [split|]].
  - rewrite !app_assoc. repeat eapply fe_step. apply fe_nil.
    1,2: apply fs_receive; vm_compute; lia.
    1,2: apply fs_take with (st := newFilterWorker ex_cfg); [reflexivity|vm_compute; reflexivity].
    1-8: eapply fs_act; reflexivity.
  - reflexivity.
  - repeat constructor.
  - reflexivity.
Qed.
