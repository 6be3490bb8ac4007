(** Property theorems C47-C50, C61, C62: the counters of the components, the metric lines they exchange
    with the monitor, and what the monitor serves.

    [run names progs sched] is an execution of any number of goroutines on shared counters: goroutine t makes
    the calls of the t-th program and the scheduler picks who makes the next atomic operation.
    [mon_run gs [] evs] is a history of the monitor from its start. *)
From Verif Require Import Base Convert Prom RulesSpec RulesProofs PromSpec PromParse PromProofs PromMonitor PromTop
  PromStats Stats StatsSpec StatsProofs.
Local Open Scope Z_scope.

(* ------------------------------------------------------------------ *)
(** * Counters *)

(** Two goroutines race in Max: goroutine 0 loads 0 before goroutine 1 stores 5, so its swap fails and it retries. *)
Definition race : list (list sop) := [[SMax (lit "m") 7; SInc (lit "i")]; [SMax (lit "m") 5; SInc (lit "i"); SGet (lit "m")]].
Definition race_sched : list nat := [0; 1; 1; 0; 0; 0; 1; 0; 1]%nat.
Example race_runs : exists s, run [lit "i"; lit "m"] race race_sched =
  Some (s, [(1%nat, SMax (lit "m") 5, 5); (0%nat, SMax (lit "m") 7, 7); (1%nat, SInc (lit "i"), 1); (0%nat, SInc (lit "i"), 2); (1%nat, SGet (lit "m"), 7)]) /\
  s_counts s = [2; 7].
Proof. eexists. split; [vm_compute; reflexivity|reflexivity]. Qed.
Example race_args : uint64_args race.
Proof. unfold uint64_args, race. repeat constructor; lia. Qed.

(** C47: every execution is equivalent to its calls made one after the other, in the order they returned, and every
    goroutine made its calls in program order. *)
Theorem C47_linearizable : forall names progs sched s log, uint64_args progs -> run names progs sched = Some (s, log) ->
  (exists st, sequential (fun _ => 0) log st /\ forall n, st n = count names s n) /\
  (forall t p, nth_error progs t = Some p ->
     exists g, nth_error (s_gors s) t = Some g /\ p = calls_of t log ++ g_todo g).
Proof. exact run_linear. Qed.
Print Assumptions C47_linearizable.

(** A counter that is only incremented reads the number of completed increments. *)
Theorem C47_inc : forall names progs sched s log n, uint64_args progs -> run names progs sched = Some (s, log) ->
  maxes n log = [] -> count names s n = Z.of_nat (incs n log) mod 2 ^ 64.
Proof. exact count_inc. Qed.
Print Assumptions C47_inc.

(** A counter that is only updated by Max reads the largest of the values. *)
Theorem C47_max : forall names progs sched s log n, uint64_args progs -> run names progs sched = Some (s, log) ->
  incs n log = O -> count names s n = largest (maxes n log).
Proof. exact count_max. Qed.
Print Assumptions C47_max.

(** Max returns at least its argument. *)
Theorem C47_max_returns : forall names progs sched s log t n v r, uint64_args progs ->
  run names progs sched = Some (s, log) -> In (t, SMax n v, r) log -> v <= r.
Proof. exact max_returns. Qed.
Print Assumptions C47_max_returns.

(** No counter ever decreases, short of 2^64 events. *)
Theorem C47_monotone : forall names progs a b s1 log1 s2 log2 n, uint64_args progs ->
  run names progs a = Some (s1, log1) -> run names progs (a ++ b) = Some (s2, log2) ->
  largest (maxes n log2) + Z.of_nat (incs n log2) < 2 ^ 64 -> count names s1 n <= count names s2 n.
Proof. exact count_mono. Qed.
Print Assumptions C47_monotone.

(** Calls on known counters never panic; a call on an unknown one does. *)
Theorem C47_no_panic : forall names progs sched,
  (forall p o, In p progs -> In o p -> In (sop_name o) names) -> run names progs sched <> None.
Proof. exact run_no_panic. Qed.
Print Assumptions C47_no_panic.

Theorem C47_unknown_panics : forall names o rest progs sched, ~ In (sop_name o) names ->
  run names ((o :: rest) :: progs) (O :: sched) = None.
Proof. exact unknown_panics. Qed.
Print Assumptions C47_unknown_panics.

(** Lock freedom: whenever an unfinished goroutine has made three more steps, some call has returned. *)
Theorem C47_progress : forall names progs a b s log s' log' t p, run names progs a = Some (s, log) ->
  run names progs (a ++ b) = Some (s', log') -> nth_error progs t = Some p -> calls_of t log <> p ->
  (3 <= count_occ Nat.eq_dec b t)%nat -> (length log < length log')%nat.
Proof. exact system_progress. Qed.
Print Assumptions C47_progress.

(** Obstruction freedom: an unfinished goroutine that runs alone returns from its call within three steps. *)
Theorem C47_solo_progress : forall names progs sched s log t p, run names progs sched = Some (s, log) ->
  (forall p0 o, In p0 progs -> In o p0 -> In (sop_name o) names) -> nth_error progs t = Some p -> calls_of t log <> p ->
  exists s' log', run names progs (sched ++ [t; t; t]) = Some (s', log') /\
    (length (calls_of t log) < length (calls_of t log'))%nat.
Proof. exact solo_progress. Qed.
Print Assumptions C47_solo_progress.

(* ------------------------------------------------------------------ *)
(** * Metric lines *)

(** C48: the round trip.  [ok_label]: the label name has no equals sign followed by a quote, the value no quote. *)
Theorem C48_round_trip : forall gs name ls v ms, sorts gs -> name <> [] -> ~ In sp name -> ~ In lbrace name ->
  Forall ok_label ls -> Forall (fun l : bytes * bytes => hd_error (fst l) <> Some rbrace) ls -> int64 v -> int64 ms ->
  exists m ls', ParseMetric (MetricToBytes gs name ls v ms) = MOk m /\ Permutation ls ls' /\ in_order label_less ls' /\
    Name m = name /\ Labels m = ls' /\ m_value m = v /\ m_ms m = Z.max 0 ms.
Proof. exact round_trip. Qed.
Print Assumptions C48_round_trip.

Example C48_case : MetricToBytes (@isort) (lit "foo") [(lit "z", lit "1,2"); (lit "a", lit "x{y} z")] (-5) 99 =
  lit "foo{a=""x{y} z"",z=""1,2""} -5 99" /\
  match ParseMetric (lit "foo{a=""x{y} z"",z=""1,2""} -5 99") with
  | MOk m => Name m = lit "foo" /\ Labels m = [(lit "a", lit "x{y} z"); (lit "z", lit "1,2")] /\ m_value m = -5 /\ m_ms m = 99
  | _ => False
  end.
Proof. vm_compute. repeat split. Qed.

(** The parser accepts exactly the well-formed lines, and reads from them what they say. *)
Theorem C48_parser_accepts : forall line, (exists m, ParseMetric line = MOk m) <-> (exists e, reads line e).
Proof. exact ParseMetric_ok. Qed.
Print Assumptions C48_parser_accepts.

Theorem C48_parser_reads : forall line e, reads line e -> exists m, ParseMetric line = MOk m /\
  Name m = e_name e /\ Labels m = e_labels e /\ m_value m = e_value e /\ m_ms m = e_ms e.
Proof.
  exact (fun line e H => match ParseMetric_complete line e H with
    ex_intro _ m (conj a (conj _ (conj b (conj _ (conj c (conj d (conj f _))))))) => ex_intro _ m (conj a (conj b (conj c (conj d f)))) end).
Qed.
Print Assumptions C48_parser_reads.

(** A line says at most one thing. *)
Theorem C48_unambiguous : forall line e e', reads line e -> reads line e' -> e = e'.
Proof. exact reads_unique. Qed.
Print Assumptions C48_unambiguous.

(** C49 is false of the code: it panics on lines that stop behind an opening brace or behind the labels. *)
Theorem C49_refuted : ParseMetric (lit "ab{") = MPanic /\ ParseMetric (lit "ab{}") = MPanic /\
  ParseMetric (lit "foo{a=""b""") = MPanic /\ ParseMetric (lit "foo{a=""b""}") = MPanic /\
  mon_run (@isort) [] [EMsg (lit "x 1" ++ [nl] ++ lit "ab{}") (fun l => l)] = None.
Proof. vm_compute. repeat split. Qed.
Print Assumptions C49_refuted.

(** Exactly these lines panic ([truncated], [breaks_off] in PromSpec). *)
Theorem C49_panics_iff : forall line, ParseMetric line = MPanic <-> truncated line.
Proof. exact ParseMetric_panic. Qed.
Print Assumptions C49_panics_iff.

(** A message kills the monitor exactly when, before any malformed line, it contains such a line. *)
Theorem C49_message_kills_iff : forall gs set data order, mon_step gs set (EMsg data order) = None <->
  exists lines a l b, message_lines data lines /\ lines = a ++ l :: b /\
    Forall (fun l => exists e, reads l e) a /\ truncated l.
Proof. exact message_panic. Qed.
Print Assumptions C49_message_kills_iff.

(** No history without such a line kills the monitor. *)
Theorem C49_history_partial : forall gs evs set, mon_run gs set evs = None ->
  exists data order lines l, In (EMsg data order) evs /\ message_lines data lines /\ In l lines /\ truncated l.
Proof. exact run_crash. Qed.
Print Assumptions C49_history_partial.

(** In particular lines without an opening brace are harmless. *)
Theorem C49_no_brace_partial : forall line, ~ In lbrace line -> ParseMetric line <> MPanic.
Proof. exact no_brace_no_panic. Qed.
Print Assumptions C49_no_brace_partial.

(* ------------------------------------------------------------------ *)
(** * What the monitor serves *)

(** C50 is false of the code: rendering writes over the memory the labels live in.  The labels arrive unsorted; the
    first GET is right, the second one is not, although nothing happened in between. *)
Example C50_refuting_history : exists set,
  mon_run (@isort) [] [EMsg unsorted_message (fun l => l); EGet; EGet] =
  Some (set, [lit "t{a=""22"",bb=""1""} 7" ++ [nl]; lit "t{a==""2"",b=""""1""} 7" ++ [nl]]).
Proof. eexists. vm_compute. reflexivity. Qed.

Theorem C50_refuted : exists set outs answer es,
  accepted [EMsg unsorted_message (fun l => l); EGet] es /\
  mon_run (@isort) [] ([EMsg unsorted_message (fun l => l); EGet] ++ [EGet]) = Some (set, outs ++ [answer]) /\
  ~ right_answer es answer.
Proof. exact unsorted_wrong. Qed.
Print Assumptions C50_refuted.

(** When the labels of every accepted line arrive in order of their names, every GET is answered right:
    one line per metric, with the value and time of the last valid message, in order of name and labels. *)
Theorem C50_sorted_labels_partial : forall gs, sorts gs -> forall evs es set outs answer, accepted evs es -> orders_ok evs ->
  mon_run gs [] (evs ++ [EGet]) = Some (set, outs ++ [answer]) ->
  Forall (fun e => increasing (e_labels e)) es -> right_answer es answer.
Proof. exact sorted_answers. Qed.
Print Assumptions C50_sorted_labels_partial.

(** With labels in any order (but distinct label names), the first GET is answered right. *)
Theorem C50_first_get_partial : forall gs, sorts gs -> forall evs es set outs answer, accepted evs es -> orders_ok evs ->
  mon_run gs [] (evs ++ [EGet]) = Some (set, outs ++ [answer]) -> gets evs = O ->
  Forall (fun e => NoDup (map fst (e_labels e))) es -> right_answer es answer.
Proof. exact first_answer. Qed.
Print Assumptions C50_first_get_partial.

(** Every history that did not crash has accepted some entries, and they are determined. *)
Theorem C50_accepted_total : forall gs, sorts gs -> forall evs set outs, mon_run gs [] evs = Some (set, outs) ->
  exists es, accepted evs es.
Proof. exact accepted_total. Qed.
Print Assumptions C50_accepted_total.

Theorem C50_accepted_unique : forall evs es es', accepted evs es -> accepted evs es' -> es = es'.
Proof. exact accepted_unique. Qed.
Print Assumptions C50_accepted_unique.

(** What has to be answered is determined by what was accepted. *)
Theorem C50_answer_unique : forall es a a', right_answer es a -> right_answer es a' -> a = a'.
Proof. exact right_answer_unique. Qed.
Print Assumptions C50_answer_unique.

(** Different metrics never share a line: the identity text determines name and labels. *)
Theorem C50_identity_injective : forall n ls n' ls', ~ In lbrace n -> ~ In lbrace n' -> Forall ok_label ls -> Forall ok_label ls' ->
  identity n ls = identity n' ls' -> n = n' /\ ls = ls'.
Proof. exact identity_inj. Qed.
Print Assumptions C50_identity_injective.

(** Rendering a parsed metric never needs more memory than its line (so it always overwrites that line). *)
Theorem C50_rendering_in_place : forall gs, sorts gs -> forall line m, ParseMetric line = MOk m ->
  (length (fst (ToBytes gs m)) <= length line)%nat.
Proof. exact render_fits. Qed.
Print Assumptions C50_rendering_in_place.

Definition c50_history : list mevent :=
  [EMsg (lit "b 1" ++ [nl] ++ lit "a{x=""1"",y=""2""} 2 50") (fun l => rev l); EGet; EMsg (lit "b 9") (fun l => l);
   EMsg (lit "b 10" ++ [nl] ++ lit "junk") (fun l => l); EMsg (lit "a{x=""1"",y=""3""} 4" ++ [nl]) (fun l => l)].
Example C50_case : exists set outs, mon_run (@isort) [] (c50_history ++ [EGet]) =
  Some (set, outs ++ [lit "a{x=""1"",y=""2""} 2 50" ++ [nl] ++ lit "a{x=""1"",y=""3""} 4" ++ [nl] ++ lit "b 9" ++ [nl]]).
Proof. eexists. eexists [_]. vm_compute. reflexivity. Qed.

(* ------------------------------------------------------------------ *)
(** * Reports of the components *)

(** C61: for any history of reports by components and GETs, the monitor does not crash and the next GET is answered
    right with respect to the reports (in the order they arrived). *)
Theorem C61_deployment : forall gs, sorts gs -> forall evs : list ((report * (list metric -> list metric)) + unit),
  (forall r o, In (inl (r, o)) evs -> report_ok r /\ forall l, Permutation l (o l)) ->
  exists set outs answer ess, mon_run gs [] (map (devent_event gs) (evs ++ [inr tt])) = Some (set, outs ++ [answer]) /\
    Forall2 reported (flat_map (fun e => match e with inl (r, _) => [r] | inr _ => [] end) evs) ess /\
    right_answer (concat ess) answer.
Proof. exact deployment_right. Qed.
Print Assumptions C61_deployment.

(** Every single report arrives whole. *)
Theorem C61_report_arrives : forall gs, sorts gs -> forall r, report_ok r -> exists es, says (report_text gs r) es /\ reported r es.
Proof. exact report_says. Qed.
Print Assumptions C61_report_arrives.

Definition c61_labels : list (bytes * bytes) := NewLabels (lit "h1") (lit "writer") (lit "w").
Definition c61_report : report := RSnapshot [(lit "received", 3); (lit "failed_writes", 2 ^ 64 - 1)] 5999999 c61_labels.
Example C61_case_ok : report_ok c61_report.
Proof.
  assert (Q : forall s : bytes, ~ In dq s -> no_eqdq s) by (intros s N p q ->; apply N; apply in_app_iff; right; right; left; reflexivity).
  cbn [report_ok c61_report]. repeat split; try discriminate.
  - repeat constructor; cbn; intuition discriminate.
  - repeat constructor; cbn; try discriminate; intuition discriminate.
  - repeat constructor; cbn [fst snd]; try (apply Q); try discriminate; cbn; intuition discriminate.
  - repeat constructor; cbn; intuition discriminate.
Qed.
Example C61_case : report_text (@isort) c61_report =
  lit "failed_writes{component=""writer"",host=""h1"",name=""w""} -1 5" ++ [nl] ++
  lit "received{component=""writer"",host=""h1"",name=""w""} 3 5" ++ [nl].
Proof. vm_compute. reflexivity. Qed.

(** C62: in every round of a statistician every counter carries the component's labels and its own item's label,
    although all of them are built from one shared label slice that rendering sorts in place. *)
Theorem C62_filter_downsampler : forall gs, sorts gs -> forall roundcap hostname component name cname lname rounds,
  let (h, s) := base3 hostname component name in
  Forall2 (labelled_round gs [(lit "component", component); (lit "name", name); (lit "host", hostname)] cname lname) rounds (stat_rounds gs roundcap h s cname lname rounds).
Proof. exact component_rounds. Qed.
Print Assumptions C62_filter_downsampler.

(** The writer's labels are built by With; its array is exactly full, because six labels (288 bytes) are an
    allocation size of Go's runtime. *)
Theorem C62_writer : forall gs, sorts gs -> forall roundcap hostname name addr port db cname lname rounds, roundcap 6%nat = 6%nat ->
  let (h, s) := base_writer roundcap hostname name addr port db in
  Forall2 (labelled_round gs [(lit "component", lit "writer"); (lit "name", name); (lit "host", hostname);
     (lit "influxdb_address", addr); (lit "influxdb_port", port); (lit "influxdb_dbname", db)] cname lname)
    rounds (stat_rounds gs roundcap h s cname lname rounds).
Proof. exact writer_rounds. Qed.
Print Assumptions C62_writer.

Example C62_case : let (h, s) := base3 (lit "h") (lit "filter") (lit "f") in
  stat_rounds (@isort) (fun n => n) h s (lit "triggered") (lit "rule") [([(lit "passed", 1)], [(lit "r1", 4); (lit "r2", 5)], 1000000)] =
  [(lit "passed{component=""filter"",host=""h"",name=""f""} 1 1" ++ [nl],
    [lit "triggered{component=""filter"",host=""h"",name=""f"",rule=""r1""} 4 1";
     lit "triggered{component=""filter"",host=""h"",name=""f"",rule=""r2""} 5 1"])].
Proof. vm_compute. reflexivity. Qed.

(** That depends on the array being full.  With one label fewer in the writer's base (length 5, capacity 6) the
    counters of two subjects would share memory: With does not return independent labels, contrary to its comment. *)
Example C62_with_shares : let (h0, s0) := new_slice [] c61_labels in
  let (h1, s1) := With (fun n => n) h0 s0 (lit "x") (lit "1") in
  let (h2, a) := With (fun n => n) h1 s1 (lit "a") (lit "A") in
  let (h3, b) := With (fun n => n) h2 s1 (lit "a") (lit "B") in
  content h3 a = content h3 b /\ content (sort_slice (@isort) h3 b) s1 <> content h3 s1 /\
  In (lit "a", lit "B") (content (sort_slice (@isort) h3 b) s1).
Proof. vm_compute. repeat split; [discriminate|auto]. Qed.
