(** C108: old data leave no traces - in the filter and the downsampler; in the monitor they do. *)
From Verif Require Import Base LinesSpec NumSpec Text TextSpec GrammarSpec Rules RulesSpec RulesProofs FilterWorker FilterSpec FilterProofs Assigner
  AssignerSpec AssignerProofs Avg AvgSpec AvgProofs DsMain Prom PromSpec PromParse PromProofs PromMonitor PromTop PromStats Forget ForgetMon.
Local Open Scope Z_scope.

(** Filter: what a worker does with messages does not depend on the messages before them (or on the outcomes of their
    publishing or their times). *)
Theorem C108_filter : forall gs c before later,
  snd (run_worker gs c (fst (run_worker gs c (newFilterWorker c) before)) later) = snd (run_worker gs c (newFilterWorker c) later).
Proof. exact filter_forgets. Qed.
Print Assumptions C108_filter.

(** Downsampler: two downsamplers of one period length, started at any times and after any histories, that are in the
    same period now and have accepted the same lines with timestamps in the three open periods (so, the lines in
    [recent]): all later calls are answered the same. *)
Theorem C108_downsampler : forall (B E : Type) (newBucket : Z -> B) (addLine : B -> bytes -> B * list E)
  p now0 e0 cs ans k l now0' e0' cs' ans' k' l' later,
  0 < p -> period_end p now0 e0 -> period_end p now0' e0' ->
  history B E newBucket addLine p e0 cs ans k l -> history B E newBucket addLine p e0' cs' ans' k' l' ->
  e0 + k * p = e0' + k' * p -> recent (e0 + k * p - 2 * p) l = recent (e0 + k * p - 2 * p) l' ->
  snd (do_calls B E newBucket addLine (fst (do_calls B E newBucket addLine (newAssigner B newBucket p now0) cs)) later) =
  snd (do_calls B E newBucket addLine (fst (do_calls B E newBucket addLine (newAssigner B newBucket p now0') cs')) later).
Proof. exact ds_forgets. Qed.
Print Assumptions C108_downsampler.

(** A downsampler that hears nothing for three periods is as new. *)
Theorem C108_silence : forall (B E : Type) (newBucket : Z -> B) (addLine : B -> bytes -> B * list E)
  p now0 e0 cs ans k l n1 n2 n3, 0 < p -> period_end p now0 e0 -> history B E newBucket addLine p e0 cs ans k l ->
  e0 + k * p <= n1 -> e0 + (k + 1) * p <= n2 -> e0 + (k + 2) * p <= n3 ->
  let a := fst (do_calls B E newBucket addLine (newAssigner B newBucket p now0) (cs ++ [CBytes n1; CBytes n2; CBytes n3])) in
  forall eb, In eb [a_prev B a; a_curr B a; a_next B a] -> snd eb = newBucket (fst eb).
Proof. exact ds_silence. Qed.
Print Assumptions C108_silence.

(** The series a downsampler holds are those of the accepted lines of its three open periods that a new bucket takes
    without an error; so there are at most as many as such lines. *)
Theorem C108_series : forall fo p now0 e0 cs ans k l key, 0 < p -> period_end p now0 e0 ->
  history (avgBucket fo) lerr (fun _ => []) (AddLine fo) p e0 cs ans k l ->
  (In key (held fo (fst (do_calls (avgBucket fo) lerr (fun _ => []) (AddLine fo) (newAssigner (avgBucket fo) (fun _ => []) p now0) cs))) <->
   exists ts body, In (ts, body) l /\ e0 + (k - 2) * p <= ts < e0 + (k + 1) * p /\ series body key /\ snd (AddLine fo [] body) = []).
Proof. exact held_series. Qed.
Print Assumptions C108_series.
Theorem C108_series_count : forall fo p now0 e0 cs ans k l, 0 < p -> period_end p now0 e0 ->
  history (avgBucket fo) lerr (fun _ => []) (AddLine fo) p e0 cs ans k l ->
  (length (held fo (fst (do_calls (avgBucket fo) lerr (fun _ => []) (AddLine fo) (newAssigner (avgBucket fo) (fun _ => []) p now0) cs)))
   <= length (recent (e0 + (k - 2) * p) l))%nat.
Proof. exact held_count. Qed.
Print Assumptions C108_series_count.

(** Two such downsamplers: one started in the period ending at 10 that has seen an old series, one started at 33. *)
Definition fg_old : list (call) :=
  [CUpdate (lit "x b=t") (fun _ => 3); CUpdate (lit "x b=f") (fun _ => 3); CBytes 10; CBytes 20; CBytes 30; CUpdate (lit "a b=t") (fun _ => 35)].
Definition fg_new : list (call) := [CUpdate (lit "a b=t") (fun _ => 35)].
Lemma fg_short e0 cs ans k l line clk i : history (avgBucket fo0) lerr (fun _ => []) (AddLine fo0) 10 e0 cs ans k l ->
  full_lines line = [line] -> (length line < 6)%nat -> k - 1 <= i <= k + 1 -> e0 + (i - 1) * 10 <= clk O < e0 + i * 10 ->
  exists errs, history (avgBucket fo0) lerr (fun _ => []) (AddLine fo0) 10 e0 (cs ++ [CUpdate line clk]) (ans ++ [AErrors errs]) k (l ++ [(clk O, line)]).
Proof.
  intros H F L Ik T. eexists. apply h_update with (l := l); [exact H|]. rewrite F. cbn [length seq map combine].
  apply takes_ok with (ts := clk O) (body := line) (i := i); [|exact Ik|exact T|apply takes_nil].
  right. split; [left; exact L|auto].
Qed.
Lemma fg_history_new : exists ans, history (avgBucket fo0) lerr (fun _ => []) (AddLine fo0) 10 40 fg_new ans 0 [(35, lit "a b=t")].
Proof.
  destruct (fg_short 40 [] [] 0 [] (lit "a b=t") (fun _ => 35) 0) as [errs H]; [apply h_nil|reflexivity|cbn; lia|lia|lia|].
  eexists. exact H.
Qed.
Lemma fg_history_old : exists ans, history (avgBucket fo0) lerr (fun _ => []) (AddLine fo0) 10 10 fg_old ans 3 [(3, lit "x b=t"); (3, lit "x b=f"); (35, lit "a b=t")].
Proof.
  destruct (fg_short 10 [] [] 0 [] (lit "x b=t") (fun _ => 3) 0) as [e1 H1]; [apply h_nil|reflexivity|cbn; lia|lia|lia|].
  destruct (fg_short 10 _ _ 0 _ (lit "x b=f") (fun _ => 3) 0 H1) as [e2 H2]; [reflexivity|cbn; lia|lia|lia|].
  assert (H3 : exists ans, history (avgBucket fo0) lerr (fun _ => []) (AddLine fo0) 10 10 (firstn 5 fg_old) ans 3 [(3, lit "x b=t"); (3, lit "x b=f")]).
  { eexists. change (firstn 5 fg_old) with ((((([] ++ [CUpdate (lit "x b=t") (fun _ => 3)]) ++ [CUpdate (lit "x b=f") (fun _ => 3)]) ++ [CBytes 10]) ++ [CBytes 20]) ++ [CBytes 30]).
    change 3 with (0 + 1 + 1 + 1) at 3. apply h_emit; [|lia]. apply h_emit; [|lia]. apply h_emit; [|lia]. exact H2. }
  destruct H3 as [ans H3].
  destruct (fg_short 10 _ _ 3 _ (lit "a b=t") (fun _ => 35) 3 H3) as [e4 H4]; [reflexivity|cbn; lia|lia|lia|].
  eexists. exact H4.
Qed.
Example C108_case : forall later,
  snd (do_calls _ _ (fun _ => []) (AddLine fo0) (fst (do_calls _ _ (fun _ => []) (AddLine fo0) (newAssigner _ (fun _ => []) 10 3) fg_old)) later) =
  snd (do_calls _ _ (fun _ => []) (AddLine fo0) (fst (do_calls _ _ (fun _ => []) (AddLine fo0) (newAssigner _ (fun _ => []) 10 33) fg_new)) later).
Proof.
  intros later. destruct fg_history_old as [ans H], fg_history_new as [ans' H'].
  eapply C108_downsampler; [ | | |exact H|exact H'| |]; try lia; vm_compute; intuition congruence.
Qed.
(** The states and what they hold, computed. *)
Example C108_case_states :
  fst (do_calls _ _ (fun _ => []) (AddLine fo0) (newAssigner _ (fun _ => []) 10 3) fg_old) =
  fst (do_calls _ _ (fun _ => []) (AddLine fo0) (newAssigner _ (fun _ => []) 10 33) fg_new) /\
  held fo0 (fst (do_calls _ _ (fun _ => []) (AddLine fo0) (newAssigner _ (fun _ => []) 10 3) fg_old)) = [lit "a"] /\
  held fo0 (fst (do_calls _ _ (fun _ => []) (AddLine fo0) (newAssigner _ (fun _ => []) 10 3) (firstn 2 fg_old))) = [lit "x"].
Proof. vm_compute. auto. Qed.

(** Monitor: it forgets nothing.  A metric in a report it accepted is in every later answer, with the value and time of
    the last report of it. *)
Theorem C108_monitor_keeps_partial : forall gs, sorts gs -> forall evs es e later es2 set outs answer,
  accepted evs es -> In e es -> accepted (evs ++ later) es2 -> orders_ok (evs ++ later) ->
  Forall (fun e => increasing (e_labels e)) es2 ->
  mon_run gs [] ((evs ++ later) ++ [EGet]) = Some (set, outs ++ [answer]) ->
  exists v ms pre post, answer = pre ++ served_line (e_name e) (e_labels e) v ms ++ [nl] ++ post /\
    latest es2 (e_name e) (e_labels e) v ms.
Proof. exact mon_keeps. Qed.
Print Assumptions C108_monitor_keeps_partial.

(** So its memory and its answers grow without bound: after n hosts have each reported once, at whatever times, an answer
    has (at least) n lines. *)
Theorem C108_monitor_refuted : forall gs, sorts gs -> forall t n, (forall i, (i < n)%nat -> int64 (t i)) ->
  exists set outs answer, mon_run gs [] (map (devent_event gs) (once_each t n ++ [inr tt])) = Some (set, outs ++ [answer]) /\
    (n <= count_occ ascii_dec answer nl)%nat.
Proof. exact mon_grows. Qed.
Print Assumptions C108_monitor_refuted.

Example C108_monitor_case :
  exists set, mon_run (@isort) [] (map (devent_event (@isort)) (once_each (fun i => Z.of_nat i * 3600000000000) 3 ++ [inr tt])) =
  Some (set, [lit "up{host=""""} 1
up{host=""x""} 1 3600000
up{host=""xx""} 1 7200000
"]).
Proof. eexists. vm_compute. reflexivity. Qed.
