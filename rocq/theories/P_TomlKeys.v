(** Property C116 (properties.jsonl): every key of a configuration file takes effect, or the file is refused. *)
From Verif Require Import Base Text Convert Rules Config ConfigSpec ConfigLoad Units TomlKeys TomlKeysProofs.
Local Open Scope Z_scope.

(** A file in which no option occurs twice (up to case) is readable exactly when every value has the type of its option. *)
Theorem C116_readable_partial frac t c : unambiguous t -> decode_table frac t c <> None <-> well_typed frac t.
Proof. exact (readable frac t c). Qed.

(** Then every option in it has its value. *)
Theorem C116_effect_partial frac t c c' : unambiguous t -> decode_table frac t c = Some c' ->
  (forall o get s, In (o, get) text_options -> sets t o (TStr s) -> get c' = s) /\
  (forall o get n, In (o, get) int_options -> sets t o (TInt n) -> get c' = n) /\
  (forall o get v s n, In (o, get) size_options -> sets t o v -> textOf v = Some s -> UnmarshalSize s = Some n -> get c' = n) /\
  (forall o get v s d, In (o, get) duration_options -> sets t o v -> textOf v = Some s -> ParseDuration frac s = Some d -> get c' = d) /\
  (forall b, sets t ODebug (TBool b) -> c_debug c' = b) /\
  (forall l, sets t OSubjects (TArr (map TStr l)) -> c_subjects c' = l) /\
  (forall l ps, sets t ORule (TArr (map TTab l)) -> Forall2 (fun r p => uRule (TTab r) = Some p) l ps -> c_rules c' = toml_rules (c_rules c) ps).
Proof.
  intros U E.
  exact (conj (set_text frac t c c' U E) (conj (set_int frac t c c' U E) (conj (set_size frac t c c' U E) (conj (set_duration frac t c c' U E)
    (conj (set_debug frac t c c' U E) (conj (set_subjects frac t c c' U E) (set_rules frac t c c' U E))))))).
Qed.

(** And every option which is not in it keeps its value; a file cannot set the database's user and password. *)
Theorem C116_rest frac t c c' : unambiguous t -> decode_table frac t c = Some c' ->
  (forall o get, In (o, get) text_options -> (forall v, ~ sets t o v) -> get c' = get c) /\
  (forall o get, In (o, get) (int_options ++ size_options ++ duration_options) -> (forall v, ~ sets t o v) -> get c' = get c) /\
  ((forall v, ~ sets t ODebug v) -> c_debug c' = c_debug c) /\ ((forall v, ~ sets t OSubjects v) -> c_subjects c' = c_subjects c) /\
  ((forall v, ~ sets t ORule v) -> c_rules c' = c_rules c) /\ c_db_user c' = c_db_user c /\ c_db_pass c' = c_db_pass c.
Proof. exact (unset_keeps frac t c c'). Qed.

(** The same for a rule: it is readable exactly when its values have the right types, and then it is what they say. *)
Theorem C116_rule_partial t p : unambiguous_rule t -> uRule (TTab t) = Some p <->
  rule_typed t /\
  (forall s, pr_type p = Some s <-> exists k, In (k, TStr s) t /\ rmeans k RType) /\
  (forall s, pr_match p = Some s <-> exists k, In (k, TStr s) t /\ rmeans k RMatch) /\
  (forall l, pr_tags p = Some l <-> exists k, In (k, TArr (map (fun set => TArr (map TStr set)) l)) t /\ rmeans k RTags) /\
  (forall s, pr_subject p = Some s <-> exists k, In (k, TStr s) t /\ rmeans k RSubject).
Proof. intros U. exact (rule_iff t U p). Qed.

(** The order of the keys does not matter. *)
Theorem C116_order_partial frac t t' c : unambiguous t -> Permutation t t' -> decode_table frac t c = decode_table frac t' c.
Proof. exact (any_order frac t t' c). Qed.

(** A value of the wrong type, for any key which means an option: the component does not start. *)
Theorem C116_wrong_type frac t o v : sets t o v -> ~ is_a frac (kind_of o) v ->
  (forall c, decode_table frac t c = None) /\
  (forall common fn u p, LoadTables frac common t fn u p = LoadErr) /\ (forall file fn u p, LoadTables frac (Some t) file fn u p = LoadErr).
Proof.
  intros (k & J & M) N.
  assert (V : valueFor frac o v = false) by (destruct (valueFor frac o v) eqn:V; [apply types in V; destruct (N V)|reflexivity]).
  assert (D : forall c, decode_table frac t c = None) by (intros c; exact (wrong_type frac t c k v o J M V)).
  split; [exact D|]. split.
  - intros common fn u p. unfold LoadTables. destruct (match common with Some t0 => decode_table frac t0 newDefaultConfig | None => Some newDefaultConfig end) as [c1|]; [|reflexivity].
    rewrite (D c1). reflexivity.
  - intros file fn u p. unfold LoadTables. rewrite (D newDefaultConfig). reflexivity.
Qed.

(** A number without a unit is a size in bytes, but no duration. *)
Theorem C116_bare frac n : int64 n -> (is_a frac KSize (TInt n) <-> 0 <= n) /\ (is_a frac KDuration (TInt n) <-> n = 0).
Proof. exact (bare_number frac n). Qed.

(** A float or a date counts as the text the library makes of it. *)
Theorem C116_printed frac t : (is_a frac KSize (TPrinted t) <-> UnmarshalSize t <> None) /\ (is_a frac KDuration (TPrinted t) <-> ParseDuration frac t <> None).
Proof.
  cbn [is_a textOf]. split; split.
  - intros (s & n & E & H). inversion E; subst. congruence.
  - intros H. destruct (UnmarshalSize t) as [n|] eqn:E; [eauto|congruence].
  - intros (s & n & E & H). inversion E; subst. congruence.
  - intros H. destruct (ParseDuration frac t) as [n|] eqn:E; [eauto|congruence].
Qed.

(** The names in README.md, in the order of its sections (queue_group, debug and name: config/config.go:37, 66-69), and in a rule. *)
Definition readme_names : list (opt * bytes) :=
  [(OMode, lit "mode"); (OPort, lit "port"); (ONats, lit "nats_address"); (OSubjects, lit "nats_subject"); (OBatchCount, lit "batch_max_count"); (OBatchAge, lit "batch_max_age");
   (OBatchSize, lit "batch_max_size"); (OReadBuffer, lit "read_buffer_size"); (OSubjectMonitor, lit "nats_subject_monitor"); (OStatsInterval, lit "stats_interval");
   (OProbePort, lit "probe_port"); (OPprofPort, lit "pprof_port"); (ODebug, lit "debug"); (OName, lit "name"); (OSubjectJunk, lit "nats_subject_junkyard");
   (OMaxPending, lit "nats_max_pending_size"); (OMaxTimeDelta, lit "max_time_delta"); (OWorkers, lit "workers"); (ORule, lit "rule"); (OPeriod, lit "downsample_period");
   (OSuffix, lit "downsample_suffix"); (OQueueGroup, lit "queue_group"); (ODbAddress, lit "influxdb_address"); (ODbPort, lit "influxdb_port"); (ODbProtocol, lit "influxdb_protocol");
   (ODbName, lit "influxdb_dbname"); (OWriteTimeout, lit "write_timeout"); (ORetryBatches, lit "writer_retry_batches"); (ORetryInterval, lit "writer_retry_interval");
   (ORetryTimeout, lit "writer_retry_timeout")].
Definition readme_rule_names : list (ropt * bytes) := [(RType, lit "type"); (RMatch, lit "match"); (RTags, lit "tags"); (RSubject, lit "subject")].
Theorem C116_names key :
  (forall o, means key o <-> exists name, In (o, name) readme_names /\ same_but_case name key) /\
  (forall r, rmeans key r <-> exists name, In (r, name) readme_rule_names /\ same_but_case name key).
Proof.
  assert (X : forall o name, In (name, o) option_names <-> In (o, name) readme_names).
  { assert (G : forall o name (l : list (opt * bytes)), existsb (fun f => (if opt_eq_dec (fst f) o then true else false) && beqs (snd f) name) l = true -> In (o, name) l).
    { intros o name l E. apply existsb_exists in E. destruct E as ([o' n'] & J & E). apply andb_true_iff in E. destruct E as [E1 E2]. cbn [fst snd] in *.
      destruct (opt_eq_dec o' o) as [->|]; [|discriminate E1]. apply beqs_eq in E2. subst. exact J. }
    intros o name. split; intros J.
    - apply G. revert name o J. assert (F : forallb (fun g => existsb (fun f => (if opt_eq_dec (fst f) (snd g) then true else false) && beqs (snd f) (fst g)) readme_names) option_names = true) by (vm_compute; reflexivity).
      intros name o J. exact (proj1 (forallb_forall _ _) F (name, o) J).
    - assert (F : forallb (fun g => existsb (fun f => (if opt_eq_dec (fst f) (fst g) then true else false) && beqs (snd f) (snd g)) (map (fun f => (snd f, fst f)) option_names)) readme_names = true) by (vm_compute; reflexivity).
      pose proof (G o name _ (proj1 (forallb_forall _ _) F (o, name) J)) as K. apply in_map_iff in K. destruct K as ([n' o'] & E & K). inversion E; subst. exact K. }
  assert (Y : forall r name, In (name, r) rule_names <-> In (r, name) readme_rule_names).
  { intros r name. unfold rule_names, readme_rule_names. cbn [In]. split; intros [J|[J|[J|[J|[]]]]]; inversion J; subst; auto. }
  split; intros o; split; intros (name & J & S); exists name; (split; [|exact S]); first [apply X; exact J|apply Y; exact J].
Qed.

(** Files like these are what C53 is about: there the options of each file are [options get], if [get] is the file's values. *)
Theorem C116_load_partial frac t get fn u p : unambiguous t -> well_typed frac t -> (forall o v, get o = Some v <-> sets t o v) ->
  LoadTables frac None t fn u p = NewConfigFromFile toml_rules FAbsent (FOk (options frac get)) fn u p /\
  (forall g gget, unambiguous g -> well_typed frac g -> (forall o v, gget o = Some v <-> sets g o v) ->
   LoadTables frac (Some g) t fn u p = NewConfigFromFile toml_rules (FOk (options frac gget)) (FOk (options frac get)) fn u p).
Proof.
  intros U W G.
  assert (X : forall t get, unambiguous t -> (forall o v, get o = Some v <-> sets t o v) -> options frac get = options frac (value_of t)).
  { clear. intros t get U G. apply options_ext. intros o. destruct (get o) as [v|] eqn:E.
    - symmetry. apply (value_of_iff t o v U), G. exact E.
    - symmetry. apply (value_of_none t o U). intros v S. apply G in S. congruence. }
  rewrite (X t get U G). split.
  - exact (load_tables frac None t fn u p Logic.I U (proj2 (typed_iff frac t) W)).
  - intros g gget Ug Wg Gg. rewrite (X g gget Ug Gg). exact (load_tables frac (Some g) t fn u p (conj Ug (proj2 (typed_iff frac g) Wg)) U (proj2 (typed_iff frac t) W)).
Qed.

(** A key which means no option is ignored, whatever its value. *)
Theorem C116_ignored frac a k v b c : (forall o, ~ means k o) -> decode_table frac (a ++ (k, v) :: b) c = decode_table frac (a ++ b) c.
Proof. exact (ignored frac a k v b c). Qed.

(** So the property fails: a file with an unknown key is accepted and the key has no effect. *)
(** (There are no fractional durations in the files below.) *)
Definition whole : Z -> nat -> Z -> Z := fun _ _ _ => 0.
Theorem C116_unknown_refuted :
  ~ (forall t c c' k v, decode_table whole t c = Some c' -> In (k, v) t -> exists o, means k o).
Proof.
  intros H. destruct (H [(lit "batch", TInt 100)] newDefaultConfig newDefaultConfig (lit "batch") (TInt 100) eq_refl (or_introl eq_refl)) as (o & M).
  apply means_iff in M. vm_compute in M. discriminate M.
Qed.
(** In particular all names of options before version 2 (release-notes.md:120-131). *)
Definition old_names : list bytes :=
  [lit "batch_max_mb"; lit "nats_pending_max_mb"; lit "read_buffer_bytes"; lit "batch"; lit "listener_batch_size"; lit "batch_max_secs"; lit "max_time_delta_secs"; lit "write_timeout_secs"].
Theorem C116_old_names_refuted k v frac a b c : In k old_names -> decode_table frac (a ++ (k, v) :: b) c = decode_table frac (a ++ b) c.
Proof.
  intros J. apply ignored. apply means_none. revert k J. apply Forall_forall. repeat constructor.
Qed.

(** And it fails for a file with the same option twice in different cases, which TOML allows: which of them takes effect changes from
    start to start. *)
Theorem C116_twice_refuted :
  exists t t' c c', Permutation t t' /\ decode_table whole t newDefaultConfig = Some c /\ decode_table whole t' newDefaultConfig = Some c' /\ c_port c <> c_port c'.
Proof.
  exists [(lit "port", TInt 1); (lit "Port", TInt 2)], [(lit "Port", TInt 2); (lit "port", TInt 1)].
  do 2 eexists. split; [apply perm_swap|]. split; [vm_compute; reflexivity|]. split; [vm_compute; reflexivity|]. vm_compute. discriminate.
Qed.

Print Assumptions C116_readable_partial.
Print Assumptions C116_effect_partial.
Print Assumptions C116_rest.
Print Assumptions C116_rule_partial.
Print Assumptions C116_order_partial.
Print Assumptions C116_wrong_type.
Print Assumptions C116_bare.
Print Assumptions C116_printed.
Print Assumptions C116_names.
Print Assumptions C116_load_partial.
Print Assumptions C116_ignored.
Print Assumptions C116_unknown_refuted.
Print Assumptions C116_old_names_refuted.
Print Assumptions C116_twice_refuted.

(** ** The files in the repository *)
Definition fn : bytes := lit "f.toml".
Definition start (t : table) : loaded := LoadTables whole None t fn [] [].
Definition strs (l : list bytes) : tval := TArr (map TStr l).
(** tools/filter.toml *)
Definition filter_toml : table :=
  [(lit "mode", TStr (lit "filter")); (lit "nats_address", TStr (lit "nats://localhost:4222")); (lit "nats_subject", strs [lit "spout"]);
   (lit "nats_subject_monitor", TStr (lit "monitor")); (lit "nats_subject_junkyard", TStr (lit "junk")); (lit "debug", TBool true); (lit "pprof_port", TInt 4002);
   (lit "rule", TArr [TTab [(lit "type", TStr (lit "basic")); (lit "match", TStr (lit "cpu")); (lit "subject", TStr (lit "cpu"))];
                      TTab [(lit "type", TStr (lit "regex")); (lit "match", TStr (lit ".+smi_count.+")); (lit "subject", TStr (lit "smi"))]])].
(** tools/listener.toml, with the mode as parameter also tools/listener_http.toml *)
Definition listener_toml (mode : bytes) (port pprof : Z) : table :=
  [(lit "mode", TStr mode); (lit "nats_address", TStr (lit "nats://localhost:4222")); (lit "nats_subject", strs [lit "spout"]);
   (lit "nats_subject_monitor", TStr (lit "monitor")); (lit "port", TInt port); (lit "batch_max_count", TInt 100); (lit "debug", TBool true); (lit "pprof_port", TInt pprof)].
(** tools/writer.toml *)
Definition writer_toml : table :=
  [(lit "mode", TStr (lit "writer")); (lit "nats_address", TStr (lit "nats://localhost:4222")); (lit "nats_subject", strs [lit "cpu"; lit "smi"]);
   (lit "nats_subject_monitor", TStr (lit "monitor")); (lit "influxdb_address", TStr (lit "127.0.0.1")); (lit "influxdb_port", TInt 8086); (lit "influxdb_dbname", TStr (lit "spout"));
   (lit "workers", TInt 10); (lit "batch_max_count", TInt 10); (lit "batch_max_size", TStr (lit "100MB")); (lit "write_timeout", TStr (lit "10s")); (lit "debug", TBool true); (lit "pprof_port", TInt 4003)].
(** tools/monitor.toml *)
Definition monitor_toml : table :=
  [(lit "mode", TStr (lit "monitor")); (lit "nats_address", TStr (lit "nats://localhost:4222")); (lit "nats_subject_monitor", TStr (lit "monitor")); (lit "port", TInt 9331)].
(** example-http-listener.conf *)
Definition example_http : table :=
  [(lit "mode", TStr (lit "listener_http")); (lit "nats_address", TStr (lit "nats://localhost:4222")); (lit "nats_subject", strs [lit "influx-spout"]);
   (lit "nats_subject_monitor", TStr (lit "influx-spout-monitor")); (lit "port", TInt 11001); (lit "batch", TInt 100)].
(** example-udp-listener.conf *)
Definition example_udp : table :=
  [(lit "mode", TStr (lit "listener")); (lit "port", TInt 10001); (lit "nats_address", TStr (lit "nats://localhost:4222")); (lit "nats_subject", strs [lit "cpu"; lit "netif"]);
   (lit "nats_subject_monitor", TStr (lit "influx-spout-monitor")); (lit "influxdb_address", TStr (lit "localhost")); (lit "influxdb_port", TInt 8086);
   (lit "influxdb_dbname", TStr (lit "junk_nats")); (lit "batch", TInt 10)].
Definition got {A} (f : cfg -> A) (l : loaded) : option A := match l with LoadOk c => Some (f c) | LoadErr => None end.

Example the_tools_files_load :
  got (fun c => (c_subjects c, c_pprof_port c, map cr_subject (c_rules c))) (start filter_toml) = Some ([lit "spout"], 4002, [lit "cpu"; lit "smi"]) /\
  got (fun c => (c_port c, c_batch_count c, c_debug c)) (start (listener_toml (lit "listener") 9999 4000)) = Some (9999, 100, true) /\
  got (fun c => (c_port c, c_batch_count c, c_debug c)) (start (listener_toml (lit "listener_http") 9998 4001)) = Some (9998, 100, true) /\
  got (fun c => (c_workers c, c_batch_size c, c_write_timeout c)) (start writer_toml) = Some (10, 100 * 1048576, 10 * 10 ^ 9) /\
  got c_port (start monitor_toml) = Some 9331.
Proof. vm_compute. auto. Qed.
(** example-http-listener.conf asks for batches of 100, under the old name, and gets 10. *)
Example the_http_example : got c_batch_count (start example_http) = Some 10.
Proof. reflexivity. Qed.
(** example-udp-listener.conf is refused: a listener has one subject. *)
Example the_udp_example : start example_udp = LoadErr /\
  exists c, decode_table whole example_udp newDefaultConfig = Some c /\ Validate (dynamic fn [] [] c) <> None.
Proof. split; [vm_compute; reflexivity|]. eexists. split; [vm_compute; reflexivity|]. vm_compute. discriminate. Qed.
(** [[rules]] instead of [[rule]]: the filter starts, without rules. *)
Example a_filter_without_rules : got c_rules (start [(lit "mode", TStr (lit "filter")); (lit "rules", TArr [TTab [(lit "type", TStr (lit "basic"))]])]) = Some [].
Proof. reflexivity. Qed.
(** Other cases of letters are the same option; a quoted number is no number. *)
Example other_cases : got c_port (start [(lit "Mode", TStr (lit "listener")); (lit "PORT", TInt 7)]) = Some 7 /\
  start [(lit "mode", TStr (lit "listener")); (lit "port", TStr (lit "7"))] = LoadErr.
Proof. split; reflexivity. Qed.
(** The hypotheses of the theorems: tools/writer.toml is unambiguous, and all its values have the types of their options. *)
Example the_hypotheses : unambiguous writer_toml /\ well_typed whole writer_toml /\ sets writer_toml OBatchSize (TStr (lit "100MB")).
Proof.
  assert (U : unambiguous writer_toml) by (apply unambiguous_nodup; vm_compute; repeat constructor; cbn; intuition discriminate).
  split; [exact U|]. split.
  - apply (readable whole writer_toml newDefaultConfig U). vm_compute. discriminate.
  - apply (value_of_iff _ _ _ U). vm_compute. reflexivity.
Qed.
