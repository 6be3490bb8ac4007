(** How lines are grouped into NATS messages does not matter to what a filter, a writer or a downsampler
    makes of them (filter/worker.go:88-151, writer/writer.go, downsampler/assigner.go:95-114). *)
From Verif Require Import Base Text TextSpec NumSpec LinesSpec SplitterProofs Timestamps Rules RulesSpec RulesProofs FilterWorker FilterSpec FilterProofs
  Writer WriterSpec WriterTop Assigner AssignerSpec AssignerProofs.
Local Open Scope Z_scope.

(* ------------------------------------------------------------------ *)
(** ** Filter: specification *)

(** The lines a filter worker reads, each with the clock reading of its message. *)
Definition job_reads (j : job) : list (Z * bytes) := let '(oks, now, m) := j in map (fun l => (now, l)) (lines_of m).
Definition reads (jobs : list job) : list (Z * bytes) := flat_map job_reads jobs.

(** The line counts as timely when the clock shows [now]. *)
Definition timely (delta now : Z) (line : bytes) : Prop := exists ts, line_time now line ts /\ now - delta < ts < now + delta.

(** The same lines in the same order, each timely in one grouping exactly when it is in the other. *)
Definition same_reads (delta : Z) (jobs jobs' : list job) : Prop :=
  Forall2 (fun x y => snd x = snd y /\ (timely delta (fst x) (snd x) <-> timely delta (fst y) (snd y))) (reads jobs) (reads jobs').

(** Everything published on a subject, in order. *)
Definition sent_on (s : bytes) (acts : list act) : bytes :=
  concat (map snd (filter (fun p => beqs (fst p) s) (published acts))).

(* ------------------------------------------------------------------ *)
(** ** Filter: proofs *)

Section Filter.
  Variable gs : forall A : Type, (A -> A -> bool) -> list A -> list A.
  Variable c : fcfg.

  (** What the code does with one line, as a value. *)
  Definition fate_in (timely : bool) (line : bytes) : fate :=
    if timely then
      match newParsedLine line with
      | None => FateDropped
      | Some pl =>
          match LookupParsed (fc_rules c) (SortTags gs pl) with
          | None => FateJunk (Escaped (SortTags gs pl))
          | Some i => FateRule i (Escaped (SortTags gs pl))
          end
      end
    else FateInvalidTime.
  Definition in_window (now : Z) (line : bytes) : bool :=
    (now - fc_delta c <? filterTimestamp line now) && (filterTimestamp line now <? now + fc_delta c).
  Definition fate_at (x : Z * bytes) : fate := fate_in (in_window (fst x) (snd x)) (snd x).

  Lemma in_window_timely now line : in_window now line = true <-> timely (fc_delta c) now line.
  Proof.
    unfold in_window, timely. rewrite andb_true_iff, !Z.ltb_lt. split.
    - intros H. exists (filterTimestamp line now). split; [apply filterTimestamp_iff; reflexivity|exact H].
    - intros (ts & H & W). apply filterTimestamp_iff in H. subst ts. exact W.
  Qed.

  Lemma process_lines_at now : int64 (now - fc_delta c) -> int64 (now + fc_delta c) -> forall ls st, Forall (fun l => l <> []) ls ->
    process_lines gs c now (wrap64 (now - fc_delta c)) (wrap64 (now + fc_delta c)) st ls =
      (fold_left add_fate (map (fun l => fate_at (now, l)) ls) st, flat_map fate_acts (map (fun l => fate_at (now, l)) ls)).
  Proof.
    intros B1 B2. rewrite !wrap64_id by auto. induction ls as [|line ls IH]; intros st F; auto.
    inversion F as [|? ? N F']; subst. cbn [process_lines map fold_left flat_map].
    assert (X : (if (now - fc_delta c <? filterTimestamp line now) && (filterTimestamp line now <? now + fc_delta c)
       then processLine gs c st line else (st, [AInc FInvalidTime])) = (add_fate st (fate_at (now, line)), tl (fate_acts (fate_at (now, line))))).
    { unfold fate_at, fate_in, in_window. cbn [fst snd]. destruct (_ && _); [|reflexivity]. unfold processLine.
      destruct (newParsedLine line) as [pl|]; [|reflexivity]. destruct (LookupParsed (fc_rules c) (SortTags gs pl)); reflexivity. }
    destruct line as [|x line]; [congruence|]. rewrite X, IH by auto.
    reflexivity.
  Qed.

  Lemma job_acts_at j : job_bounds c j ->
    job_acts gs c j = flat_map fate_acts (map fate_at (job_reads j)) ++
      pub_acts (fst (fst j)) 0 (outputs (fc_rules c) (fc_junk c) (map fate_at (job_reads j))).
  Proof.
    destruct j as [[oks now] m]. intros [B1 B2]. cbn [job_acts job_reads fst]. unfold processBatch.
    rewrite process_lines_empties, (proj1 (SplitAfter_lines m)). rewrite process_lines_at by (auto; apply Forall_forall, lines_of_nonempty).
    rewrite fresh_as_fates, fold_fates. cbn [app]. rewrite sendOff_spec. cbn [snd]. rewrite map_map. reflexivity.
  Qed.

  Lemma published_jobs jobs : Forall (job_bounds c) jobs ->
    published (flat_map (job_acts gs c) jobs) = flat_map (fun j => outputs (fc_rules c) (fc_junk c) (map fate_at (job_reads j))) jobs.
  Proof.
    induction 1 as [|j jobs B F IH]; auto. cbn [flat_map]. rewrite published_app, IH. f_equal.
    rewrite job_acts_at by exact B. rewrite published_app, published_fates, published_pubs. reflexivity.
  Qed.

  Lemma fates_same jobs jobs' : same_reads (fc_delta c) jobs jobs' -> map fate_at (reads jobs) = map fate_at (reads jobs').
  Proof.
    unfold same_reads. induction 1 as [|x y l l' [E T] F IH]; auto. cbn [map]. f_equal; auto. unfold fate_at. rewrite E. f_equal.
    destruct (in_window (fst x) (snd y)) eqn:E1, (in_window (fst y) (snd y)) eqn:E2; auto; exfalso.
    - apply in_window_timely in E1. rewrite E in T. apply T in E1. apply in_window_timely in E1. congruence.
    - apply in_window_timely in E2. rewrite E in T. apply T in E2. apply in_window_timely in E2. congruence.
  Qed.

  (** Data for one subject among the outputs of a message. *)
  Definition pick (s : bytes) (ms : list (bytes * bytes)) : bytes := concat (map snd (filter (fun p => beqs (fst p) s) ms)).
  Lemma pick_app s a b : pick s (a ++ b) = pick s a ++ pick s b.
  Proof. unfold pick. rewrite filter_app, map_app, concat_app. reflexivity. Qed.
  Lemma pick_nonempty s ms : pick s (filter FilterProofs.nonempty ms) = pick s ms.
  Proof.
    induction ms as [|[t d] ms IH]; auto. cbn [filter]. destruct d as [|x d].
    - change (FilterProofs.nonempty (t, [])) with false. cbn iota. rewrite IH. unfold pick. cbn [filter fst]. destruct (beqs t s); reflexivity.
    - change (FilterProofs.nonempty (t, x :: d)) with true. cbn iota. change ((t, x :: d) :: filter FilterProofs.nonempty ms) with ([(t, x :: d)] ++ filter FilterProofs.nonempty ms).
      change ((t, x :: d) :: ms) with ([(t, x :: d)] ++ ms). rewrite !pick_app, IH. reflexivity.
  Qed.
  Lemma pick_none s ms : ~ In s (map fst ms) -> pick s ms = [].
  Proof.
    induction ms as [|[t d] ms IH]; auto. cbn [map fst In]. intros N. unfold pick. cbn [filter fst].
    destruct (beqs t s) eqn:E; [apply beqs_eq in E; tauto|]. apply IH. tauto.
  Qed.

  (** With distinct subjects, a subject carries one rule's data, or the junk, or nothing. *)
  Lemma pick_rule : forall rs k i s fs, NoDup (map r_subject rs) -> nth_error (map r_subject rs) i = Some s ->
    pick s (combine (map r_subject rs) (map (fun i => data_for i fs) (seq k (length rs)))) = data_for (k + i) fs.
  Proof.
    induction rs as [|r rs IH]; intros k i s fs D H; [destruct i; discriminate|].
    cbn [map length seq combine] in *. inversion D as [|? ? N D']; subst.
    change ((r_subject r, data_for k fs) :: combine (map r_subject rs) (map (fun i => data_for i fs) (seq (S k) (length rs)))) with
      ([(r_subject r, data_for k fs)] ++ combine (map r_subject rs) (map (fun i => data_for i fs) (seq (S k) (length rs)))).
    rewrite pick_app. destruct i as [|i]; cbn [nth_error] in H.
    - injection H as H. rewrite (pick_none s (combine _ _)).
      + unfold pick. cbn [filter fst]. replace (beqs (r_subject r) s) with true by (rewrite H, beqs_refl; reflexivity). cbn [map snd concat]. rewrite Nat.add_0_r. unfold bytes in *. rewrite !app_nil_r. reflexivity.
      + intros X. rewrite <- H in X. apply N. apply in_map_iff in X. destruct X as ([a b] & <- & X). eapply in_combine_l. exact X.
    - rewrite (IH (S k) i s fs D' H). replace (pick s [(r_subject r, data_for k fs)]) with (@nil ascii).
      + cbn [app]. f_equal. lia.
      + symmetry. apply pick_none. cbn [map fst In]. intros [X|[]]. apply N. rewrite X. eapply nth_error_In. exact H.
  Qed.

  Lemma pick_outputs s fs : NoDup (map r_subject (fc_rules c) ++ [fc_junk c]) ->
    (forall i, nth_error (map r_subject (fc_rules c)) i = Some s -> pick s (outputs (fc_rules c) (fc_junk c) fs) = data_for i fs) /\
    (s = fc_junk c -> pick s (outputs (fc_rules c) (fc_junk c) fs) = junk_for fs) /\
    (~ In s (map r_subject (fc_rules c) ++ [fc_junk c]) -> pick s (outputs (fc_rules c) (fc_junk c) fs) = []).
  Proof.
    intros D. rewrite outputs_combine, pick_app, !pick_nonempty. unfold Subjects.
    assert (K : forall x, In x (map fst (combine (map r_subject (fc_rules c)) (map (fun i => data_for i fs) (seq 0 (length (fc_rules c)))))) -> In x (map r_subject (fc_rules c))).
    { intros x X. apply in_map_iff in X. destruct X as ([a b] & <- & X). eapply in_combine_l. exact X. }
    assert (D1 : NoDup (map r_subject (fc_rules c))) by (apply NoDup_remove_1 in D; rewrite app_nil_r in D; exact D).
    assert (Nj : ~ In (fc_junk c) (map r_subject (fc_rules c))).
    { intros X. apply NoDup_remove_2 in D. rewrite app_nil_r in D. contradiction. }
    split; [|split].
    - intros i H. rewrite (pick_rule _ 0 i s fs D1 H). rewrite pick_none; [rewrite app_nil_r; reflexivity|].
      cbn [map fst In]. intros [X|[]]. apply Nj. rewrite X. eapply nth_error_In. exact H.
    - intros ->. rewrite pick_none by (intros X; apply Nj; apply K; exact X). unfold pick. cbn [filter fst]. rewrite beqs_refl.
      cbn [map snd concat app]. apply app_nil_r.
    - intros N. rewrite pick_none by (intros X; apply N; apply in_or_app; left; apply K; exact X).
      rewrite pick_none; auto. cbn [map fst In]. intros [X|[]]. apply N. apply in_or_app. right. left. exact X.
  Qed.

  Lemma pick_flat {A} s (g : A -> list (bytes * bytes)) l : pick s (flat_map g l) = concat (map (fun x => pick s (g x)) l).
  Proof. induction l as [|x l IH]; auto. cbn [flat_map map concat]. rewrite pick_app, IH. reflexivity. Qed.

  Lemma data_flat i jobs : concat (map (fun j => data_for i (map fate_at (job_reads j))) jobs) = data_for i (map fate_at (reads jobs)).
  Proof.
    unfold reads. induction jobs as [|j jobs IH]; auto. cbn [map concat flat_map]. rewrite IH, map_app. unfold data_for. rewrite flat_map_app. reflexivity.
  Qed.
  Lemma junk_flat jobs : concat (map (fun j => junk_for (map fate_at (job_reads j))) jobs) = junk_for (map fate_at (reads jobs)).
  Proof.
    unfold reads. induction jobs as [|j jobs IH]; auto. cbn [map concat flat_map]. rewrite IH, map_app. unfold junk_for. rewrite flat_map_app. reflexivity.
  Qed.

  Lemma sent_jobs s jobs : NoDup (map r_subject (fc_rules c) ++ [fc_junk c]) -> Forall (job_bounds c) jobs ->
    let sent := sent_on s (snd (run_worker gs c (newFilterWorker c) jobs)) in
    (forall i, nth_error (map r_subject (fc_rules c)) i = Some s -> sent = data_for i (map fate_at (reads jobs))) /\
    (s = fc_junk c -> sent = junk_for (map fate_at (reads jobs))) /\
    (~ In s (map r_subject (fc_rules c) ++ [fc_junk c]) -> sent = []).
  Proof.
    intros D B sent. unfold sent, sent_on. rewrite run_worker_acts. cbn [snd]. rewrite published_jobs by exact B.
    change (concat (map snd (filter (fun p => beqs (fst p) s) ?l))) with (pick s l). rewrite pick_flat.
    split; [|split].
    - intros i H. rewrite <- data_flat. f_equal. apply map_ext. intros j. apply (pick_outputs s _ D). exact H.
    - intros H. rewrite <- junk_flat. f_equal. apply map_ext. intros j. apply (pick_outputs s _ D). exact H.
    - intros H. clear B sent. induction jobs as [|j jobs IH]; [reflexivity|]. cbn [map concat]. rewrite IH. rewrite app_nil_r.
      apply (pick_outputs s _ D). exact H.
  Qed.

  (** Streams per subject. *)
  Theorem filter_grouping jobs jobs' : NoDup (map r_subject (fc_rules c) ++ [fc_junk c]) ->
    Forall (job_bounds c) jobs -> Forall (job_bounds c) jobs' -> same_reads (fc_delta c) jobs jobs' ->
    forall s, sent_on s (snd (run_worker gs c (newFilterWorker c) jobs)) = sent_on s (snd (run_worker gs c (newFilterWorker c) jobs')).
  Proof.
    intros D B B' R s. destruct (sent_jobs s jobs D B) as (A1 & A2 & A3). destruct (sent_jobs s jobs' D B') as (A1' & A2' & A3').
    rewrite (fates_same jobs jobs' R) in A1, A2.
    destruct (In_dec (list_eq_dec ascii_dec) s (map r_subject (fc_rules c) ++ [fc_junk c])) as [I0|N].
    - apply in_app_or in I0. destruct I0 as [I0|[<-|[]]].
      + apply In_nth_error in I0. destruct I0 as (i & I0). rewrite (A1 i I0), (A1' i I0). reflexivity.
      + rewrite (A2 eq_refl), (A2' eq_refl). reflexivity.
    - rewrite (A3 N), (A3' N). reflexivity.
  Qed.

  (** Counters, whatever the subjects. *)
  Theorem filter_grouping_counters jobs jobs' :
    Forall (job_bounds c) jobs -> Forall (job_bounds c) jobs' -> same_reads (fc_delta c) jobs jobs' ->
    let a := snd (run_worker gs c (newFilterWorker c) jobs) in let a' := snd (run_worker gs c (newFilterWorker c) jobs') in
    (forall s, s <> FFailedPublish -> counter s a = counter s a') /\ (forall i, rule_counter i a = rule_counter i a').
  Proof.
    intros B B' R a a'. unfold a, a'. rewrite !run_worker_acts. cbn [snd].
    assert (X : forall jobs, Forall (job_bounds c) jobs -> 
      (forall s, s <> FFailedPublish -> counter s (flat_map (job_acts gs c) jobs) = counter s (flat_map fate_acts (map fate_at (reads jobs)))) /\
      (forall i, rule_counter i (flat_map (job_acts gs c) jobs) = rule_counter i (flat_map fate_acts (map fate_at (reads jobs))))).
    { clear. induction 1 as [|j jobs Bj F [IH1 IH2]]; [split; reflexivity|]. cbn [flat_map].
      change (reads (j :: jobs)) with (job_reads j ++ reads jobs). rewrite map_app, flat_map_app, job_acts_at by exact Bj. split.
      - intros s Ns. rewrite !counter_app, IH1 by exact Ns. pose proof (counters_pubs (fst (fst j)) s (outputs (fc_rules c) (fc_junk c) (map fate_at (job_reads j))) 0) as X.
        destruct s; try congruence; lia.
      - intros i. rewrite !rule_counter_app, IH2, rule_counters_pubs. lia. }
    destruct (X jobs B) as [C1 C2]. destruct (X jobs' B') as [C1' C2']. rewrite (fates_same jobs jobs' R) in C1, C2.
    split; [intros s Ns; rewrite C1, C1' by exact Ns; reflexivity|intros i; rewrite C2, C2'; reflexivity].
  Qed.
End Filter.

(* ------------------------------------------------------------------ *)
(** ** Writer *)

Definition keeps (rs : list rule) (l : bytes) : bool := match rs with [] => true | _ => kept rs l end.

Lemma accepted_lines rs data : accepted rs data = concat (filter (keeps rs) (lines_of data)).
Proof.
  unfold accepted, writes_of, keeps. destruct rs as [|r rs]; [|reflexivity].
  cbn [concat]. rewrite app_nil_r. rewrite <- (lines_of_concat data) at 1. f_equal.
  induction (lines_of data) as [|l ls IH]; auto. cbn [filter]. f_equal. exact IH.
Qed.

Lemma accepted_messages rs (ms : list (Z * bytes)) :
  concat (map (fun m => accepted rs (snd m)) ms) = concat (filter (keeps rs) (flat_map (fun m => lines_of (snd m)) ms)).
Proof.
  induction ms as [|m ms IH]; auto. cbn [map concat flat_map]. rewrite IH, accepted_lines, filter_app, concat_app. reflexivity.
Qed.

(** Two runs of a writer worker with the same lines, grouped differently, and any other events: the same data, in the same
    order, are posted or still held. *)
Theorem writer_grouping : forall c cap now ls s tr cap' now' ls' s' tr', (1 <= wc_size c)%nat -> 0 <= cap -> 0 <= cap' ->
  wrun c (Writer.newWorker cap now) ls = Some (s, tr) -> wrun c (Writer.newWorker cap' now') ls' = Some (s', tr') ->
  flat_map (fun m => lines_of (snd m)) (messages tr) = flat_map (fun m => lines_of (snd m)) (messages tr') ->
  concat (bodies tr) ++ held s = concat (bodies tr') ++ held s'.
Proof.
  intros c cap now ls s tr cap' now' ls' s' tr' Hs Hc Hc' H H' E.
  destruct (pair_data c Hs cap now ls s tr Hc H) as [A _]. destruct (pair_data c Hs cap' now' ls' s' tr' Hc' H') as [A' _].
  rewrite A, A'. unfold input. rewrite !accepted_messages, E. reflexivity.
Qed.

(* ------------------------------------------------------------------ *)
(** ** Downsampler *)

Section Ds.
  Variables (B E : Type).
  Variable newBucket : Z -> B.
  Variable addLine : B -> bytes -> B * list E.

  (** The lines of a message, each with the clock reading made for it. *)
  Definition clocked (data : bytes) (clk : nat -> Z) : list (bytes * Z) :=
    combine (full_lines data) (map clk (seq 0 (length (full_lines data)))).

  (** What happened, without the boundaries of messages: [Some] a line was read, [None] a period was put out. *)
  Fixpoint stream (cs : list call) (ans : list (answer B E)) : list (option (bytes * Z)) :=
    match cs, ans with
    | CUpdate data clk :: cs', _ :: ans' => map Some (clocked data clk) ++ stream cs' ans'
    | CBytes _ :: cs', ABucket _ :: ans' => None :: stream cs' ans'
    | _ :: cs', _ :: ans' => stream cs' ans'
    | _, _ => []
    end.
  Definition buckets (ans : list (answer B E)) : list (Z * B) :=
    flat_map (fun r => match r with ABucket eb => [eb] | _ => [] end) ans.
  Definition complaints (ans : list (answer B E)) : list (uerr E) :=
    flat_map (fun r => match r with AErrors es => es | _ => [] end) ans.

  (** The same by events. *)
  Fixpoint plays (a : assigner B) (xs : list (option (bytes * Z))) : assigner B * list (Z * B) * list (uerr E) :=
    match xs with
    | [] => (a, [], [])
    | Some x :: xs' => let (a1, e1) := update_line B E addLine a (fst x) (snd x) in
        let '(a2, bs, e2) := plays a1 xs' in (a2, bs, e1 ++ e2)
    | None :: xs' => let '(a2, bs, e2) := plays (fst (emit B newBucket a (fst (a_curr B a)))) xs' in (a2, a_prev B a :: bs, e2)
    end.

  Lemma plays_lines : forall ls a clk ys, 
    plays a (map Some (combine (filter AssignerProofs.nonempty ls) (map clk (seq 0 (length (filter AssignerProofs.nonempty ls))))) ++ ys) =
    let (a1, e1) := update_lines B E addLine a ls clk in let '(a2, bs, e2) := plays a1 ys in (a2, bs, e1 ++ e2).
  Proof.
    induction ls as [|l ls IH]; intros a clk ys; [cbn; destruct (plays a ys) as [[a2 bs] e2]; reflexivity|].
    cbn [update_lines filter]. destruct l as [|x l]; [exact (IH a clk ys)|].
    cbn [AssignerProofs.nonempty length seq map combine app plays fst snd].
    destruct (update_line B E addLine a (x :: l) (clk 0%nat)) as [a1 e1]. rewrite <- seq_shift, map_map, IH.
    destruct (update_lines B E addLine a1 ls (fun k => clk (S k))) as [a2 e2]. destruct (plays a2 ys) as [[a3 bs] e3].
    rewrite app_assoc. reflexivity.
  Qed.

  Lemma emit_some a now a' eb : emit B newBucket a now = (a', Some eb) ->
    a' = fst (emit B newBucket a (fst (a_curr B a))) /\ eb = a_prev B a.
  Proof.
    unfold emit. destruct (now <? _); [discriminate|]. rewrite Z.ltb_irrefl. intros H. injection H as <- <-. split; reflexivity.
  Qed.
  Lemma emit_none a now a' : emit B newBucket a now = (a', None) -> a' = a.
  Proof. unfold emit. destruct (now <? _); [|discriminate]. intros H. injection H as <-. reflexivity. Qed.

  Lemma calls_play : forall cs a a' ans, do_calls B E newBucket addLine a cs = (a', ans) ->
    plays a (stream cs ans) = (a', buckets ans, complaints ans).
  Proof.
    induction cs as [|c cs IH]; intros a a' ans H; cbn [do_calls] in H; [injection H as <- <-; reflexivity|].
    destruct (do_call B E newBucket addLine a c) as [a1 r] eqn:E1. destruct (do_calls B E newBucket addLine a1 cs) as [a2 rs] eqn:E2.
    injection H as <- <-. specialize (IH _ _ _ E2). destruct c as [data clk|now]; cbn [do_call] in E1.
    - destruct (Update B E addLine a data clk) as [b es] eqn:EU. injection E1 as <- <-. cbn [stream]. unfold clocked.
      rewrite <- Split_lines, plays_lines. unfold Update in EU. rewrite EU, IH. reflexivity.
    - destruct (emit B newBucket a now) as [b o] eqn:EE. injection E1 as <- <-. destruct o as [eb|].
      + cbn [stream plays]. apply emit_some in EE. destruct EE as [-> ->]. rewrite IH. reflexivity.
      + cbn [stream]. apply emit_none in EE. subst b. rewrite IH. reflexivity.
  Qed.

  Theorem downsampler_grouping : forall a cs cs' a1 a1' ans ans',
    do_calls B E newBucket addLine a cs = (a1, ans) -> do_calls B E newBucket addLine a cs' = (a1', ans') ->
    stream cs ans = stream cs' ans' -> a1 = a1' /\ buckets ans = buckets ans' /\ complaints ans = complaints ans'.
  Proof.
    intros a cs cs' a1 a1' ans ans' H H' S0. apply calls_play in H, H'. rewrite S0, H' in H. injection H as H1 H2 H3. auto.
  Qed.
End Ds.
