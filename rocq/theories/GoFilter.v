(** filter/rules.go, filter/worker.go and the line filter of writer/writer.go with the bounds checks of Go (GoLang.v), and
    that they do what Rules.v, FilterWorker.v and Writer.v say.

    Simplified: sort.Sort and sort.IsSorted call Less and Swap with indices within bounds (contract of package sort);
    regular expressions do not panic.  SortTags, TagSet.Bytes and Escape (filter/rules.go:212-244, influx/tags.go:68-92,
    influx/escape.go:23-110) only append, range, copy and make slices of non-negative size, none of which can panic, and
    are used as modelled in Rules.v. *)
From Verif Require Import Base Text TextProofs Convert Timestamps GoLang GoInflux Rules FilterWorker.
Local Open Scope Z_scope.
Local Open Scope go_scope.

(** filter/rules.go:165-177 newParsedLine: ParseTags with its index expressions; where its results lie in the line is
    what ParseTagsP of Rules.v says. *)
Definition newParsedLine_go (line : bytes) : go (option parsedLine) :=
  r <- ParseTags_go line ;;
  match r with PErr => Ret None | _ => Ret (newParsedLine line) end.
(** filter/rules.go:39-89: the match functions. *)
Definition rule_matches_go (r : rule) (pl : parsedLine) : go bool :=
  match r_match r with
  | MBasic m => Ret (Z.eqb (hashMeasurement m) (HashedMeasurement pl))
  | MTags ts => SubsetOf_go ts (Tags pl)
  | MRegex re => u <- Unescape_go (Escaped pl) ;; Ret (re u)
  | MNegRegex re => u <- Unescape_go (Escaped pl) ;; Ret (negb (re u))
  end.
(** filter/rules.go:156-163 LookupParsed. *)
Definition LookupParsed_go (rs : list rule) (pl : parsedLine) : go Z :=
  r <- range rs 0 (fun i rl _ => m <- rule_matches_go rl pl ;; Ret (if m : bool then Leave i else Cont tt)) tt ;;
  match r with Leave i => Ret i | Cont _ => Ret (-1) end.
(** filter/rules.go:145-151 Lookup. *)
Definition Lookup_go (rs : list rule) (line : bytes) : go Z :=
  o <- newParsedLine_go line ;;
  match o with None => Ret (-1) | Some pl => LookupParsed_go rs pl end.
(** filter/worker.go:167-178 extractTimestamp. *)
Definition filterTimestamp_go (line : bytes) (defaultTs : Z) : go Z :=
  if len line <=? Z.of_nat minTsLen + 6 then Ret defaultTs
  else '(out, _) <- ExtractNanos_go line ;; Ret (if out =? -1 then defaultTs else out).

Section Worker.
  Variable gosort : forall A : Type, (A -> A -> bool) -> list A -> list A.
  Variable c : fcfg.

  (** filter/worker.go:114-135 processLine; w.batches[idx] and the rule's counter (stats/anonstats.go:42-44) are indexed. *)
  Definition processLine_go (st : fstate) (rawLine : bytes) : go (fstate * list act) :=
    o <- newParsedLine_go rawLine ;;
    match o with
    | None => Ret (st, [])
    | Some pl =>
        let line := SortTags gosort pl in
        idx <- LookupParsed_go (fc_rules c) line ;;
        if idx =? -1 then Ret (mkFstate (f_batches st) (f_junk st ++ Escaped line), [AInc FRejected])
        else
          b <- at_ (f_batches st) idx ;;
          bs <- put (f_batches st) idx (b ++ Escaped line) ;;
          _ <- at_ (fc_rules c) idx ;;
          Ret (mkFstate bs (f_junk st), [AInc FPassed; ARule (Z.to_nat idx)])
    end.
  (** filter/worker.go:93-108. *)
  Fixpoint process_lines_go (now minTs maxTs : Z) (st : fstate) (ls : list bytes) : go (fstate * list act) :=
    match ls with
    | [] => Ret (st, [])
    | line :: ls' =>
        if len line =? 0 then process_lines_go now minTs maxTs st ls'
        else
          ts <- filterTimestamp_go line now ;;
          '(st1, a1) <- (if (minTs <? ts) && (ts <? maxTs) then processLine_go st line else Ret (st, [AInc FInvalidTime])) ;;
          '(st2, a2) <- process_lines_go now minTs maxTs st1 ls' ;;
          Ret (st2, AInc FProcessed :: a1 ++ a2)
    end.
  (** filter/worker.go:137-144: for i, subject := range subjects { batch := w.batches[i] ... }; state: batches, actions, publishes. *)
  Definition send_rules_body (oks : nat -> bool) (i : Z) (s : bytes) (x : list bytes * list act * nat) : go (iter (list bytes * list act * nat) unit) :=
    let '(bs, acts, k) := x in
    b <- at_ bs i ;;
    if len b =? 0 then Ret (Cont (bs, acts, k))
    else bs' <- put bs i [] ;; Ret (Cont (bs', acts ++ publish s b (oks k), S k)).
  Definition send_rules_go (oks : nat -> bool) (subjects : list bytes) (batches : list bytes) : go (list bytes * list act * nat) :=
    r <- range subjects 0 (send_rules_body oks) (batches, [], O) ;;
    match r with Leave _ => Ret (batches, [], O) | Cont x => Ret x end.
  (** filter/worker.go:137-151 sendOff. *)
  Definition sendOff_go (oks : nat -> bool) (st : fstate) : go (fstate * list act) :=
    '(bs, a, k) <- send_rules_go oks (Subjects (fc_rules c)) (f_batches st) ;;
    if len (f_junk st) =? 0 then Ret (mkFstate bs [], a) else Ret (mkFstate bs [], a ++ publish (fc_junk c) (f_junk st) (oks k)).
  (** filter/worker.go:88-112 processBatch. *)
  Definition processBatch_go (oks : nat -> bool) (now : Z) (st : fstate) (batch : bytes) : go (fstate * list act) :=
    let minTs := wrap64 (now - fc_delta c) in
    let maxTs := wrap64 (now + fc_delta c) in
    '(st1, a1) <- process_lines_go now minTs maxTs st (SplitAfter batch) ;;
    '(st2, a2) <- sendOff_go oks st1 ;;
    Ret (st2, a1 ++ a2).
  (** filter/worker.go:72-86 run. *)
  Fixpoint run_worker_go (st : fstate) (jobs : list job) : go (fstate * list act) :=
    match jobs with
    | [] => Ret (st, [])
    | (oks, now, m) :: js =>
        '(st1, a1) <- processBatch_go oks now st m ;;
        '(st2, a2) <- run_worker_go st1 js ;;
        Ret (st2, a1 ++ a2)
    end.
End Worker.

(* ------------------------------------------------------------------ *)

From Verif Require Import RulesProofs.

Lemma newParsedLine_go_ok line : newParsedLine_go line = Ret (newParsedLine line).
Proof.
  unfold newParsedLine_go. rewrite ParseTags_go_ok. cbn [bind]. destruct (ParseTags line) as [m tags rest| |] eqn:E; try reflexivity.
  unfold newParsedLine. pose proof (ParseTagsP_read line) as H. rewrite E in H. destruct (ParseTagsP line); try contradiction; try discriminate; reflexivity.
Qed.
Lemma rule_matches_go_ok r pl : rule_matches_go r pl = Ret (rule_matches r pl).
Proof.
  unfold rule_matches_go, rule_matches. destruct (r_match r); [reflexivity|apply SubsetOf_go_ok| |]; rewrite Unescape_go_ok; reflexivity.
Qed.
Lemma lookup_from_bound rs pl : forall k i, lookup_from k rs pl = Some i -> (k <= i < k + length rs)%nat.
Proof.
  induction rs as [|r rs IH]; intros k i E; [discriminate|]. cbn [lookup_from length] in *. destruct (rule_matches r pl); [injection E as <-; lia|]. apply IH in E. lia.
Qed.
Lemma LookupParsed_go_ok rs pl : LookupParsed_go rs pl = Ret (match LookupParsed rs pl with Some i => Z.of_nat i | None => -1 end).
Proof.
  unfold LookupParsed_go, LookupParsed.
  assert (G : forall k, range rs (Z.of_nat k) (fun i rl _ => m <- rule_matches_go rl pl ;; Ret (if m : bool then Leave i else Cont tt)) tt =
    Ret (match lookup_from k rs pl with Some i => Leave (Z.of_nat i) | None => Cont tt end)).
  { induction rs as [|r rs IH]; intros k; [reflexivity|]. cbn [range lookup_from]. rewrite rule_matches_go_ok. cbn [bind]. destruct (rule_matches r pl); [reflexivity|].
    replace (Z.of_nat k + 1) with (Z.of_nat (S k)) by lia. exact (IH (S k)). }
  specialize (G 0%nat). change (Z.of_nat 0) with 0 in G. rewrite G. cbn [bind]. destruct (lookup_from 0 rs pl); reflexivity.
Qed.
Lemma Lookup_go_ok rs line : Lookup_go rs line = Ret (match Lookup rs line with Some i => Z.of_nat i | None => -1 end).
Proof. unfold Lookup_go, Lookup. rewrite newParsedLine_go_ok. cbn [bind]. destruct (newParsedLine line); [apply LookupParsed_go_ok|reflexivity]. Qed.
Lemma filterTimestamp_go_ok line d : filterTimestamp_go line d = Ret (filterTimestamp line d).
Proof.
  unfold filterTimestamp_go, filterTimestamp. replace (len line <=? Z.of_nat minTsLen + 6) with (Nat.leb (length line) (minTsLen + 6)) by (unfold len, minTsLen; lia).
  destruct (Nat.leb (length line) (minTsLen + 6)); [reflexivity|]. rewrite ExtractNanos_go_ok. cbn [bind]. destruct (ExtractNanos line) as [o k]. reflexivity.
Qed.

Lemma write_nth_split a x b y : write_nth (a ++ x :: b) (length a) y = a ++ (x ++ y) :: b.
Proof. induction a as [|z a IH]; [reflexivity|]. cbn [app length write_nth]. rewrite IH. reflexivity. Qed.

Section WorkerProofs.
  Variable gosort : forall A : Type, (A -> A -> bool) -> list A -> list A.
  Variable c : fcfg.
  (** One buffer per rule. *)
  Definition sized (st : fstate) : Prop := length (f_batches st) = length (fc_rules c).

  Lemma processLine_go_ok st line : sized st -> processLine_go gosort c st line = Ret (processLine gosort c st line) /\ sized (fst (processLine gosort c st line)).
  Proof.
    intros Z0. unfold processLine_go, processLine. rewrite newParsedLine_go_ok. cbn [bind]. destruct (newParsedLine line) as [pl|]; [|split; [reflexivity|exact Z0]].
    rewrite LookupParsed_go_ok. cbn [bind]. destruct (LookupParsed (fc_rules c) (SortTags gosort pl)) as [i|] eqn:E; [|split; [reflexivity|exact Z0]].
    apply lookup_from_bound in E. replace (Z.of_nat i =? -1) with false by lia. unfold sized in Z0.
    destruct (at_ok (f_batches st) (Z.of_nat i)) as (a & x & b & Eb & La & At); [unfold len; lia|]. rewrite At. cbn [bind].
    destruct (at_ok (fc_rules c) (Z.of_nat i)) as (a' & x' & b' & _ & _ & At'); [unfold len; lia|].
    assert (Li : i = length a) by (unfold len in La; lia). rewrite Eb, put_app by (unfold len; lia). cbn [bind]. rewrite At'. cbn [bind]. rewrite Nat2Z.id. subst i. rewrite write_nth_split.
    split; [reflexivity|]. cbn [fst f_batches]. unfold sized. cbn [f_batches]. rewrite <- Z0, Eb, !app_length. reflexivity.
  Qed.
  Lemma process_lines_go_ok now lo hi : forall ls st, sized st -> process_lines_go gosort c now lo hi st ls = Ret (process_lines gosort c now lo hi st ls) /\ sized (fst (process_lines gosort c now lo hi st ls)).
  Proof.
    induction ls as [|line ls IH]; intros st Z0; [split; [reflexivity|exact Z0]|]. cbn [process_lines_go process_lines]. rewrite len_zero. destruct line as [|ch line]; [exact (IH st Z0)|].
    rewrite filterTimestamp_go_ok. cbn [bind]. destruct ((lo <? filterTimestamp (ch :: line) now) && (filterTimestamp (ch :: line) now <? hi)).
    - destruct (processLine_go_ok st (ch :: line) Z0) as [E1 Z1]. rewrite E1. cbn [bind]. destruct (processLine gosort c st (ch :: line)) as [st1 a1]. cbn [fst] in Z1.
      destruct (IH st1 Z1) as [E2 Z2]. rewrite E2. cbn [bind]. destruct (process_lines gosort c now lo hi st1 ls) as [st2 a2]. split; [reflexivity|exact Z2].
    - cbn [bind]. destruct (IH st Z0) as [E2 Z2]. rewrite E2. cbn [bind]. destruct (process_lines gosort c now lo hi st ls) as [st2 a2]. split; [reflexivity|exact Z2].
  Qed.
  Lemma send_rules_length oks : forall ss bs k, length (fst (fst (send_rules oks k ss bs))) = length bs.
  Proof.
    induction ss as [|s ss IH]; intros bs k; [reflexivity|]. destruct bs as [|b bs]; [reflexivity|]. cbn [send_rules]. destruct b as [|ch b].
    - specialize (IH bs k). destruct (send_rules oks k ss bs) as [[bs' a] k']. cbn in *. lia.
    - specialize (IH bs (S k)). destruct (send_rules oks (S k) ss bs) as [[bs' a] k']. cbn in *. lia.
  Qed.
  Lemma send_rules_go_range oks : forall ss done bs acts k i, length ss = length bs -> i = len done ->
    range ss i (send_rules_body oks) (done ++ bs, acts, k) =
    Ret (Cont (let '(bs', a, k') := send_rules oks k ss bs in (done ++ bs', acts ++ a, k'))).
  Proof.
    induction ss as [|s ss IH]; intros done bs acts k i L ->; destruct bs as [|b bs]; try discriminate L.
    - cbn [range send_rules]. rewrite app_nil_r. rewrite (app_nil_r acts). reflexivity.
    - cbn [length] in L. cbn [range]. unfold send_rules_body at 1. rewrite at_app by reflexivity. cbn [bind]. rewrite len_zero. cbn [send_rules]. destruct b as [|ch b].
      + cbn [bind]. assert (L2 : length ss = length bs) by lia. assert (E2 : len done + 1 = len (done ++ [[] : bytes])) by (rewrite len_app, len_cons, len_nil; lia).
        pose proof (IH (done ++ [[]]) bs acts k (len done + 1) L2 E2) as X. rewrite <- app_assoc in X. cbn [app] in X. refine (eq_trans X _).
        destruct (send_rules oks k ss bs) as [[bs' a] k']. rewrite <- app_assoc. reflexivity.
      + rewrite put_app by reflexivity. cbn [bind]. assert (L2 : length ss = length bs) by lia. assert (E2 : len done + 1 = len (done ++ [[] : bytes])) by (rewrite len_app, len_cons, len_nil; lia).
        pose proof (IH (done ++ [[]]) bs (acts ++ publish s (ch :: b) (oks k)) (S k) (len done + 1) L2 E2) as X. rewrite <- app_assoc in X. cbn [app] in X. refine (eq_trans X _).
        destruct (send_rules oks (S k) ss bs) as [[bs' a] k']. rewrite <- !app_assoc. reflexivity.
  Qed.
  Lemma sendOff_go_ok oks st : sized st -> sendOff_go c oks st = Ret (sendOff c oks st) /\ sized (fst (sendOff c oks st)).
  Proof.
    intros Z0. unfold sendOff_go, sendOff, send_rules_go. assert (L : length (Subjects (fc_rules c)) = length (f_batches st)) by (unfold Subjects; rewrite map_length; symmetry; exact Z0).
    pose proof (send_rules_length oks (Subjects (fc_rules c)) (f_batches st) 0) as Ls.
    pose proof (send_rules_go_range oks (Subjects (fc_rules c)) [] (f_batches st) [] 0 0 L eq_refl) as R. cbn [app] in R. rewrite R. cbn [bind].
    destruct (send_rules oks 0 (Subjects (fc_rules c)) (f_batches st)) as [[bs a] k]. cbn [fst snd bind] in *. rewrite len_zero.
    destruct (f_junk st); (split; [reflexivity|]); unfold sized in *; cbn [fst f_batches]; lia.
  Qed.
  Lemma processBatch_go_ok oks now st m : sized st -> processBatch_go gosort c oks now st m = Ret (processBatch gosort c oks now st m) /\ sized (fst (processBatch gosort c oks now st m)).
  Proof.
    intros Z0. unfold processBatch_go, processBatch. destruct (process_lines_go_ok now (wrap64 (now - fc_delta c)) (wrap64 (now + fc_delta c)) (SplitAfter m) st Z0) as [E1 Z1]. rewrite E1. cbn [bind].
    destruct (process_lines gosort c now (wrap64 (now - fc_delta c)) (wrap64 (now + fc_delta c)) st (SplitAfter m)) as [st1 a1]. cbn [fst] in Z1.
    destruct (sendOff_go_ok oks st1 Z1) as [E2 Z2]. rewrite E2. cbn [bind]. destruct (sendOff c oks st1) as [st2 a2]. split; [reflexivity|exact Z2].
  Qed.
  Lemma run_worker_go_from : forall jobs st, sized st -> run_worker_go gosort c st jobs = Ret (run_worker gosort c st jobs).
  Proof.
    induction jobs as [|[[oks now] m] jobs IH]; intros st Z0; [reflexivity|]. cbn [run_worker_go run_worker]. destruct (processBatch_go_ok oks now st m Z0) as [E1 Z1]. rewrite E1. cbn [bind].
    destruct (processBatch gosort c oks now st m) as [st1 a1]. cbn [fst] in Z1. rewrite (IH st1 Z1). cbn [bind]. destruct (run_worker gosort c st1 jobs) as [st2 a2]. reflexivity.
  Qed.
  Theorem run_worker_go_ok : forall jobs, run_worker_go gosort c (newFilterWorker c) jobs = Ret (run_worker gosort c (newFilterWorker c) jobs).
  Proof. intros jobs. apply run_worker_go_from. unfold sized, newFilterWorker. cbn [f_batches]. apply repeat_length. Qed.
End WorkerProofs.
