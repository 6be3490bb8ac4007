(** C121: a component's statistics reach the monitor whatever its name and subjects are. *)
From Verif Require Import Base Convert RulesSpec RulesProofs Prom PromSpec PromParse PromProofs PromMonitor PromTop PromStats LabelText LabelLost.
From Verif Require Config.
Local Open Scope nat_scope.

(** Exactly: a report arrives (is read by the monitor as what it stands for) if and only if no label value has a quote or a newline in it. *)
Theorem C121_exact_partial : forall gs, sorts gs -> forall r, report_frame_ok r ->
  ((exists es, says (report_text gs r) es /\ reported r es) <-> Forall (fun l : bytes * bytes => one_piece (snd l)) (report_labels r)).
Proof. exact arrives_iff. Qed.
Print Assumptions C121_exact_partial.

(** It is the format: no message at all says such a report, however it is written. *)
Theorem C121_inexpressible : forall r es data, report_frame_ok r -> reported r es -> says data es ->
  Forall (fun l : bytes * bytes => one_piece (snd l)) (report_labels r).
Proof. exact reported_values. Qed.
Print Assumptions C121_inexpressible.

(** The check of the configuration does not look at the name. *)
Theorem C121_any_name : forall c v, Config.Validate (Config.set_name c v) = Config.Validate c.
Proof. intros c v. destruct c. reflexivity. Qed.
Print Assumptions C121_any_name.

(** A component whose name has a quote, a closing brace and a newline in it (whatever stands before and behind) ends the monitor's process with
    its first report, whatever happened before: nobody's statistics are served any more. *)
Theorem C121_crash_refuted : forall gs, sorts gs -> forall evs r host comp v0 rest order more,
  report_frame_ok r -> report_labels r = NewLabels host comp (v0 ++ [dq; rbrace; nl] ++ rest) ->
  one_piece host -> one_piece comp -> one_piece v0 ->
  mon_run gs [] (evs ++ EMsg (report_text gs r) order :: more) = None.
Proof. exact monitor_stops. Qed.
Print Assumptions C121_crash_refuted.

(** Without a newline in a label value no report ends the monitor's process, whatever else is in the values; so it survives all histories
    of such reports (some may be refused). *)
Theorem C121_no_crash_partial : forall gs, sorts gs -> forall rs,
  Forall (fun r => report_frame_ok r /\ Forall (fun l : bytes * bytes => ~ In nl (snd l)) (report_labels r)) rs ->
  forall set, exists set' outs, mon_run gs set (map (fun r => EMsg (report_text gs r) (fun l => l)) rs) = Some (set', outs).
Proof. exact reports_survive. Qed.
Print Assumptions C121_no_crash_partial.

(** What the example components report: one counter. *)
Definition c121_report (name : bytes) : report := RSnapshot [(lit "received", 3%Z)] 5999999 (NewLabels (lit "h1") (lit "filter") name).

Lemma c121_frame name : report_frame_ok (c121_report name).
Proof.
  assert (NQ : forall s : bytes, ~ In dq s -> no_eqdq s) by (intros s N p q ->; apply N; apply in_app_iff; right; right; left; reflexivity).
  assert (Q : forall s : bytes, ~ In dq s -> ~ In nl s -> hd_error s <> Some rbrace -> plain_label_name s) by (intros s A B C; split; [apply NQ; auto|split; auto]).
  split; [|split].
  - cbn [c121_report report_labels NewLabels]. apply Forall_cons; [|apply Forall_cons; [|apply Forall_cons; [|apply Forall_nil]]]; cbn [fst];
      apply Q; try discriminate; cbn; intuition discriminate.
  - cbn. repeat constructor; cbn; intuition discriminate.
  - cbn [c121_report]. split; [discriminate|]. split; [|split; [|unfold int64, minInt64, maxInt64, two63; lia]].
    + cbn. repeat constructor; cbn; intuition discriminate.
    + apply Forall_cons; [|apply Forall_nil]. cbn [fst]. unfold plain_name. repeat split; try discriminate; cbn; intuition discriminate.
Qed.

(** A name with a double quote before anything but a comma, a closing brace or a newline (my 2'' filter, with a double quote): the monitor drops
    every report of the component, whole, and goes on as if nothing had come; nothing on /metrics tells. *)
Theorem C121_lost_refuted : forall gs, sorts gs -> forall r host comp v0 x rest set order,
  report_frame_ok r -> report_labels r = NewLabels host comp (v0 ++ dq :: x :: rest) ->
  one_piece host -> one_piece comp -> one_piece v0 -> x <> rbrace -> x <> comma -> ~ In nl (x :: rest) ->
  mon_step gs set (EMsg (report_text gs r) order) = Some (set, None).
Proof. exact report_lost. Qed.
Print Assumptions C121_lost_refuted.
Example C121_lost_case : let name := lit "my 2"" filter" in report_frame_ok (c121_report name) /\
  name = lit "my 2" ++ dq :: " "%char :: lit "filter" /\ one_piece (lit "my 2") /\ ~ In nl (" "%char :: lit "filter") /\
  report_labels (c121_report name) = NewLabels (lit "h1") (lit "filter") name.
Proof.
  cbv zeta. split; [apply c121_frame|]. split; [reflexivity|]. split; [split; cbn; intuition discriminate|]. split; [cbn; intuition discriminate|reflexivity].
Qed.

(** A name can bring labels of its own, and pass for another component. *)
Theorem C121_forged_refuted : exists name, report_frame_ok (c121_report name) /\
  says (report_text (@isort) (c121_report name))
    [Entry (lit "received") [(lit "component", lit "filter"); (lit "host", lit "h1"); (lit "name", lit "a"); (lit "rule", lit "b")] 3 5].
Proof.
  exists (lit "a"",rule=""b"). split; [apply c121_frame|].
  exists [lit "received{component=""filter"",host=""h1"",name=""a"",rule=""b""} 3 5"]. split.
  - apply message_lines_iff. vm_compute. reflexivity.
  - constructor; [|constructor].
    assert (NQ : forall s : bytes, ~ In dq s -> no_eqdq s) by (intros s N p q ->; apply N; apply in_app_iff; right; right; left; reflexivity).
    assert (R : reads (served_line (lit "received") [(lit "component", lit "filter"); (lit "host", lit "h1"); (lit "name", lit "a"); (lit "rule", lit "b")] 3 5)
      (Entry (lit "received") [(lit "component", lit "filter"); (lit "host", lit "h1"); (lit "name", lit "a"); (lit "rule", lit "b")] 3 (Z.max 0 5))).
    { apply served_reads; try discriminate; try (cbn; intuition discriminate);
        try (unfold int64, minInt64, maxInt64, two63; lia).
      - repeat (apply Forall_cons; [split; [apply NQ|]; cbn; intuition discriminate|]). apply Forall_nil.
      - repeat (apply Forall_cons; [discriminate|]). apply Forall_nil. }
    exact R.
Qed.
Print Assumptions C121_forged_refuted.

(** What Prometheus reads of a value which does arrive: the value that was meant, exactly if it has no escapes in it. *)
Theorem C121_scraped_partial : forall v, unescape v = v <-> no_escape v.
Proof. exact unescape_iff. Qed.
Print Assumptions C121_scraped_partial.

(** A name like C:\new arrives, is served as it is, and is read by Prometheus with a newline in it. *)
Theorem C121_backslash_refuted : exists v, one_piece v /\ v = lit "C:\new" /\ unescape v = lit "C:" ++ nl :: lit "ew".
Proof. exists (lit "C:\new"). split; [split; cbn; intuition discriminate|]. split; [reflexivity|]. vm_compute. reflexivity. Qed.
Print Assumptions C121_backslash_refuted.

(** The hypotheses of the crash are met, and without that report the monitor answers. *)
Example C121_crash_case : let name := lit "x" ++ [dq; rbrace; nl] ++ lit "y" in
  report_frame_ok (c121_report name) /\ report_labels (c121_report name) = NewLabels (lit "h1") (lit "filter") name /\
  one_piece (lit "h1") /\ one_piece (lit "filter") /\ one_piece (lit "x") /\
  mon_run (@isort) [] [EMsg (report_text (@isort) (c121_report (lit "ok"))) (fun l => l); EGet] <> None /\
  mon_run (@isort) [] [EMsg (report_text (@isort) (c121_report (lit "ok"))) (fun l => l); EMsg (report_text (@isort) (c121_report name)) (fun l => l); EGet] = None.
Proof.
  cbv zeta. split; [apply c121_frame|]. split; [reflexivity|].
  split; [split; cbn; intuition discriminate|]. split; [split; cbn; intuition discriminate|]. split; [split; cbn; intuition discriminate|].
  split; [vm_compute; discriminate|vm_compute; reflexivity].
Qed.
(** An ordinary name arrives. *)
Example C121_plain_case : exists es, says (report_text (@isort) (c121_report (lit "filter-1"))) es /\ reported (c121_report (lit "filter-1")) es.
Proof.
  apply (C121_exact_partial (@isort) isort_sorts); [apply c121_frame|]. cbn [c121_report report_labels NewLabels].
  repeat (apply Forall_cons; [split; cbn; intuition discriminate|]). apply Forall_nil.
Qed.
Example C121_no_escape_case : no_escape (lit "a\b") /\ unescape (lit "a\b") = lit "a\b".
Proof. split; [apply unescape_iff|]; vm_compute; reflexivity. Qed.
(** A history with a refused report and one that arrives meets the hypotheses of C121_no_crash_partial. *)
Example C121_no_crash_case : Forall (fun r => report_frame_ok r /\ Forall (fun l : bytes * bytes => ~ In nl (snd l)) (report_labels r))
  [c121_report (lit "my 2"" filter"); c121_report (lit "ok")].
Proof.
  apply Forall_cons; [|apply Forall_cons; [|apply Forall_nil]]; (split; [apply c121_frame|]); cbn [c121_report report_labels NewLabels];
    repeat (apply Forall_cons; [cbn; intuition discriminate|]); apply Forall_nil.
Qed.
