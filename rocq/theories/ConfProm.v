(** The cases of /repo/prometheus/*_small_test.go and /repo/stats/prometheus_small_test.go run on the model: evidence that
    the model agrees with the code, not part of any proof.  Error texts are not modelled. *)
From Verif Require Import ConfTac Base Convert RulesSpec Prom.
Local Open Scope Z_scope.

(** The fields of a parsed metric, as the tests compare them. *)
Definition shown (m : metric) : bytes * list (bytes * bytes) * Z * Z := (Name m, Labels m, m_value m, m_ms m).
Definition parsed (s : bytes) : option (bytes * list (bytes * bytes) * Z * Z) :=
  match ParseMetric s with MOk m => Some (shown m) | _ => None end.

(** prometheus/parse_small_test.go TestParseBasic, TestParseLabel, TestParseEmptyLabels, TestParseMultipleLabels,
    TestParseTimestamp, TestParseLabelsAndTimestamp *)
Example conf_ParseMetric : Forall (fun c => parsed (fst c) = Some (snd c)) [
  (lit "foo 42", (lit "foo", [], 42, 0));
  (lit "foo{method=""post""} 2", (lit "foo", [(lit "method", lit "post")], 2, 0));
  (lit "foo{} 2", (lit "foo", [], 2, 0));
  (lit "foo{method=""post"",code=""200""} 2", (lit "foo", [(lit "method", lit "post"); (lit "code", lit "200")], 2, 0));
  (lit "foo 42 1234567", (lit "foo", [], 42, 1234567));
  (lit "foo{host=""nyc01"",bar=""definitely"",thing=""forgot""} 42 123456789",
    (lit "foo", [(lit "host", lit "nyc01"); (lit "bar", lit "definitely"); (lit "thing", lit "forgot")], 42, 123456789))].
Proof. table. Qed.

(** TestParseEmpty, TestParseNoValue, TestParseEmptyValue, TestParseFloatValue, TestParseStringValue, TestParseBadLabelSep,
    TestParseNoLabelValue, TestParseMissingClosingBrace, TestParseMissingLabelOpeningQuote,
    TestParseMissingLabelClosingQuotes, TestParseInvalidTimestamp, TestParseTrailingSpace *)
Example conf_ParseMetric_errors : Forall (fun s => ParseMetric s = MErr) [
  []; lit "what"; lit "what "; lit "foo 12.32"; lit "foo bar"; lit "foo{method=""post""/code=""200""} 2"; lit "foo{method} 2";
  lit "foo{method=""post"" 2"; lit "foo{method=post} 2"; lit "foo{method=""post} 2"; lit "foo 42 abc"; lit "foo 42 "].
Proof. table. Qed.

Definition metrics (s : bytes) : option (list (bytes * list (bytes * bytes) * Z * Z)) :=
  match ParseMetrics (@isort) s with PsOk set => Some (map (fun e => shown (snd e)) set) | _ => None end.
Definition ln (s : bytes) : bytes := s ++ [nl].

(** TestParseMetrics: labels are compared after Update has sorted them. *)
Example conf_ParseMetrics : metrics (
    ln (lit "foo{host=""nyc01"",bar=""definitely"",thing=""forgot""} 42 11111111") ++
    ln (lit "foo{host=""nyc02"",bar=""maybe""} 999 22222222") ++ lit "bar 1234") =
  Some [(lit "foo", [(lit "bar", lit "definitely"); (lit "host", lit "nyc01"); (lit "thing", lit "forgot")], 42, 11111111);
        (lit "foo", [(lit "bar", lit "maybe"); (lit "host", lit "nyc02")], 999, 22222222);
        (lit "bar", [], 1234, 0)].
Proof. vm_compute. reflexivity. Qed.
(** TestParseMetricsBlankLines, TestParseMetricsLastWins, TestParseMetricsEmpty *)
Example conf_ParseMetrics_blank :
  metrics ([nl] ++ ln (lit "foo 111") ++ [nl] ++ ln (lit "bar 222") ++ [nl]) = Some [(lit "foo", [], 111, 0); (lit "bar", [], 222, 0)].
Proof. vm_compute. reflexivity. Qed.
Example conf_ParseMetrics_last_wins :
  metrics (concat (map (fun v => ln (lit "foo " ++ v)) [lit "1"; lit "2"; lit "3"; lit "4"; lit "5"; lit "6"])) = Some [(lit "foo", [], 6, 0)].
Proof. vm_compute. reflexivity. Qed.
Example conf_ParseMetrics_empty : metrics [] = Some [].
Proof. vm_compute. reflexivity. Qed.

(** prometheus/labels_small_test.go TestToBytesEmpty, TestToBytesSingle, TestToBytesMultiple *)
Example conf_LabelsToBytes : map (LabelsToBytes (@isort)) [[]; [(lit "foo", lit "aaa")]; [(lit "foo", lit "aaa"); (lit "bar", lit "bbbb")]] =
  [lit "{}"; lit "{foo=""aaa""}"; lit "{bar=""bbbb"",foo=""aaa""}"].
Proof. vm_compute. reflexivity. Qed.

(** prometheus/labels_small_test.go TestWith (an array of capacity 1, no rounding) *)
Example conf_With : let (h, l0) := new_slice [] [(lit "foo", lit "aaa")] in
  let (h, l1) := With (fun n => n) h l0 (lit "bar") (lit "bbb") in
  let (h, l2) := With (fun n => n) h l0 (lit "bar") (lit "none") in
  let (h, l3) := With (fun n => n) h l2 (lit "che") (lit "sne") in
  map (content h) [l1; l2; l3; l0] =
    [[(lit "foo", lit "aaa"); (lit "bar", lit "bbb")]; [(lit "foo", lit "aaa"); (lit "bar", lit "none")];
     [(lit "foo", lit "aaa"); (lit "bar", lit "none"); (lit "che", lit "sne")]; [(lit "foo", lit "aaa")]].
Proof. vm_compute. reflexivity. Qed.

(** prometheus/metric_small_test.go TestToBytesMinimal, TestToBytesTimestamp, TestToBytesLabels *)
Example conf_MetricToBytes : [MetricToBytes (@isort) (lit "foo") [] 42 0; MetricToBytes (@isort) (lit "foo") [] 42 123456;
    MetricToBytes (@isort) (lit "foo") [(lit "host", lit "nyc01"); (lit "thing", lit "forgot")] 42 123456] =
  [lit "foo 42"; lit "foo 42 123456"; lit "foo{host=""nyc01"",thing=""forgot""} 42 123456"].
Proof. vm_compute. reflexivity. Qed.

(** prometheus/metricset_small_test.go: the metrics are built by parsing their texts, the model having no other way. *)
Fixpoint updates (set : mset) (ls : list bytes) : mset :=
  match ls with
  | [] => set
  | l :: ls' => match ParseMetric l with MOk m => updates (Update (@isort) set m) ls' | _ => [] end
  end.
Definition values_of (set : mset) : list (bytes * Z * Z) := map (fun e => (fst e, m_value (snd e), m_ms (snd e))) set.
(** TestNew, TestAddition, TestUpdate *)
Example conf_set_small : values_of [] = [] /\
  values_of (updates [] [lit "foo 1"; lit "bar 2"]) = [(lit "foo{}", 1, 0); (lit "bar{}", 2, 0)] /\
  values_of (updates [] [lit "foo 1 100"; lit "foo 2 200"]) = [(lit "foo{}", 2, 200)].
Proof. vm_compute. auto. Qed.
(** TestUpdateWithLabels, TestUpdateLabelOrdering *)
Example conf_set_labels :
  values_of (updates [] [lit "temp{host=""nyc02"",core=""0""} 55 100"; lit "temp{host=""nyc02"",core=""1""} 56 100";
    lit "temp{host=""auk01"",core=""0""} 44 100"; lit "temp{host=""auk02"",core=""0""} 45 101";
    lit "temp{host=""nyc02"",core=""0""} 66 150"; lit "temp{host=""auk02"",core=""0""} 98 151"]) =
    [(lit "temp{core=""0"",host=""nyc02""}", 66, 150); (lit "temp{core=""1"",host=""nyc02""}", 56, 100);
     (lit "temp{core=""0"",host=""auk01""}", 44, 100); (lit "temp{core=""0"",host=""auk02""}", 98, 151)] /\
  values_of (updates [] [lit "temp{host=""nyc02"",core=""0""} 55 100"; lit "temp{core=""0"",host=""nyc02""} 66 101"]) =
    [(lit "temp{core=""0"",host=""nyc02""}", 66, 101)].
Proof. vm_compute. auto. Qed.
(** TestUpdateFromSet and monitor/monitor.go: the second set arrives as a message. *)
Example conf_set_from_set :
  match mon_run (@isort) [] [EMsg (ln (lit "uptime{host=""nyc01""} 222 99") ++ lit "temp{host=""nyc02"",core=""0""} 55 100") (fun l => l);
                    EMsg (ln (lit "temp{host=""nyc02"",core=""0""} 66 111") ++ ln (lit "uptime{host=""nyc02""} 1234 222")) (fun l => l)] with
  | Some (set, _) => values_of set = [(lit "uptime{host=""nyc01""}", 222, 99); (lit "temp{core=""0"",host=""nyc02""}", 66, 111); (lit "uptime{host=""nyc02""}", 1234, 222)]
  | None => False
  end.
Proof. vm_compute. reflexivity. Qed.
(** TestToBytes *)
Example conf_set_bytes :
  fst (SetToBytes (@isort) (updates [] [lit "uptime{host=""nyc01""} 1234 101"; lit "temp{host=""nyc02"",core=""0""} 55 100";
    lit "temp{host=""nyc02"",core=""1""} 56 100"; lit "uptime{host=""nyc02""} 4444 102"])) =
  ln (lit "temp{core=""0"",host=""nyc02""} 55 100") ++ ln (lit "temp{core=""1"",host=""nyc02""} 56 100") ++
  ln (lit "uptime{host=""nyc01""} 1234 101") ++ ln (lit "uptime{host=""nyc02""} 4444 102").
Proof. vm_compute. reflexivity. Qed.

(** stats/prometheus_small_test.go *)
Definition conf_ts : Z := 1234567890000000000.
Definition conf_snap : list (bytes * Z) := [(lit "foo", 42); (lit "bar", 99); (lit "qaz", 0)].
Example conf_SnapshotToPrometheus : SnapshotToPrometheus (@isort) conf_snap conf_ts [] =
  ln (lit "bar 99 1234567890000") ++ ln (lit "foo 42 1234567890000") ++ ln (lit "qaz 0 1234567890000") /\
  SnapshotToPrometheus (@isort) conf_snap conf_ts [(lit "host", lit "nyc01"); (lit "level", lit "high")] =
  ln (lit "bar{host=""nyc01"",level=""high""} 99 1234567890000") ++ ln (lit "foo{host=""nyc01"",level=""high""} 42 1234567890000") ++
  ln (lit "qaz{host=""nyc01"",level=""high""} 0 1234567890000").
Proof. vm_compute. auto. Qed.
Example conf_CounterToPrometheus : CounterToPrometheus (@isort) (lit "foo") 99 conf_ts [(lit "host", lit "nyc01")] = lit "foo{host=""nyc01""} 99 1234567890000".
Proof. vm_compute. reflexivity. Qed.
