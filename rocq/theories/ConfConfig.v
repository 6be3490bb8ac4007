(** The cases of /repo/config/config_small_test.go run on the model: evidence that the model agrees with the code, not part
    of any proof.  Generated by tools/gen_conf_config.py (TOML decoded by the generator). *)
From Verif Require Import ConfTac Base Config.
Local Open Scope Z_scope.

Definition file_name : bytes := lit "some/dir/something.toml".
Definition load (common : fileread) (p : pfile) (user pass : bytes) : loaded := NewConfigFromFile toml_rules common (FOk p) file_name user pass.
Definition parse (p : pfile) : loaded := load FAbsent p [] [].
Definition has {A} (f : cfg -> A) (l : loaded) : option A := match l with LoadOk c => Some (f c) | LoadErr => None end.

(** TestCorrectConfigFile *)
Example conf_correct : match parse (PFile (Some (lit "thor")) (Some (lit "writer")) (Some (lit "nats://localhost:4222")) (Some [(lit "spout")]) (Some (lit "spout-monitor")) None (Some (lit "localhost")) (Some (lit "https")) (Some 8086) (Some (lit "junk_nats")) (Some 10) (Some 5242880) (Some 60000000000) (Some 10001) (Some 96) (Some 32000000000) (Some 5) (Some 30000000000) (Some 7200000000000) (Some 43210) (Some 104857600) None (Some 789000000000) (Some 5000000000) (Some 6789) (Some 5432) None None None None) with LoadErr => False | LoadOk c =>
  (c_name c, c_mode c, c_port c, c_batch_count c, c_batch_size c, c_batch_age c, c_workers c) = (lit "thor", lit "writer", 10001, 10, 5 * MB, minute, 96) /\
  (c_write_timeout c, c_retry_batches c, c_retry_interval c, c_retry_timeout c) = (32 * second, 5, 30 * second, 120 * minute) /\
  (c_read_buffer c, c_max_pending c, c_max_time_delta c) = (43210, 100 * MB, 789 * second) /\
  (c_db_port c, c_db_name c, c_db_address c, c_db_protocol c) = (8086, lit "junk_nats", lit "localhost", lit "https") /\
  (c_subjects c, c_subject_monitor c, c_nats_address c) = ([lit "spout"], lit "spout-monitor", lit "nats://localhost:4222") /\
  (c_stats_interval c, c_probe_port c, c_pprof_port c) = (5 * second, 6789, 5432) end.
Proof. vm_compute. repeat split. Qed.

(** TestAllDefaults *)
Example conf_defaults : match parse (PFile None (Some (lit "writer")) None None None None None None None None None None None None None None None None None None None None None None None None None None None None) with LoadErr => False | LoadOk c =>
  (c_name c, c_nats_address c, c_subjects c, c_subject_monitor c, c_subject_junk c) =
    (lit "something", lit "nats://localhost:4222", [lit "influx-spout"], lit "influx-spout-monitor", lit "influx-spout-junk") /\
  (c_db_address c, c_db_protocol c, c_db_port c, c_db_user c, c_db_pass c, c_db_name c) = (lit "localhost", lit "http", 8086, [], [], lit "influx-spout-junk") /\
  (c_batch_count c, c_batch_size c, c_batch_age c, c_port c, c_mode c, c_workers c) = (10, 10 * MB, 5 * minute, 0, lit "writer", 8) /\
  (c_write_timeout c, c_retry_batches c, c_retry_interval c, c_retry_timeout c) = (30 * second, 1, 10 * second, minute) /\
  (c_period c, c_suffix c, c_read_buffer c, c_max_pending c) = (0, lit "-archive", 4 * MB, 200 * MB) /\
  (c_max_time_delta c, c_stats_interval c, c_probe_port c, c_pprof_port c, c_debug c, c_rules c) = (10 * minute, 3 * second, 0, 0, false, []) end.
Proof. vm_compute. repeat split. Qed.

(** TestDefaultPortListener, TestDefaultPortHTTPListener, TestDefaultPortMonitor, TestDefaultListenerBatchSize,
    TestDefaultHTTPListenerBatchSize, TestDefaultDownsamplePeriod *)
Example conf_dynamic : has c_port (parse (PFile None (Some (lit "listener")) None None None None None None None None None None None None None None None None None None None None None None None None None None None None)) = Some 10001 /\ has c_port (parse (PFile None (Some (lit "listener_http")) None None None None None None None None None None None None None None None None None None None None None None None None None None None None)) = Some 13337 /\
  has c_port (parse (PFile None (Some (lit "monitor")) None None None None None None None None None None None None None None None None None None None None None None None None None None None None)) = Some 9331 /\ has c_batch_size (parse (PFile None (Some (lit "listener")) None None None None None None None None None None None None None None None None None None None None None None None None None None None None)) = Some MB /\
  has c_batch_size (parse (PFile None (Some (lit "listener_http")) None None None None None None None None None None None None None None None None None None None None None None None None None None None None)) = Some MB /\ has c_period (parse (PFile None (Some (lit "downsampler")) None None None None None None None None None None None None None None None None None None None None None None None None None None None None)) = Some minute.
Proof. vm_compute. repeat split. Qed.

(** TestInfluxAuth, TestNoMode, TestInvalidTOML *)
Example conf_auth : has (fun c => (c_db_user c, c_db_pass c)) (load FAbsent (PFile None (Some (lit "writer")) None None None None None None None None None None None None None None None None None None None None None None None None None None None None) (lit "user") (lit "secret")) = Some (lit "user", lit "secret").
Proof. vm_compute. reflexivity. Qed.
Example conf_no_mode : parse (PFile None None None None None None None None None None None None None None None None None None None None None None None None None None None None None None) = LoadErr /\ NewConfigFromFile toml_rules FAbsent FBad file_name [] [] = LoadErr.
Proof. vm_compute. auto. Qed.

(** TestRulesConfig *)
Example conf_rules : has c_rules (parse (PFile None (Some (lit "listener")) (Some (lit "nats://localhost:4222")) (Some [(lit "spout")]) (Some (lit "spout-monitor")) None (Some (lit "localhost")) None (Some 8086) (Some (lit "junk_nats")) None None None (Some 10001) (Some 96) None None None None None None (Some [PRule (Some (lit "basic")) (Some (lit "hello")) None (Some (lit "hello-subject")); PRule (Some (lit "regex")) (Some (lit "world")) None (Some (lit "world-subject")); PRule (Some (lit "tags")) None (Some [[(lit "foo"); (lit "bar")]; [(lit "aaa"); (lit "zzz")]]) (Some (lit "foo-subject"))]) None None None None None None None None)) = Some [
  CRule (lit "basic") (lit "hello") [] (lit "hello-subject"); CRule (lit "regex") (lit "world") [] (lit "world-subject");
  CRule (lit "tags") [] [[lit "foo"; lit "bar"]; [lit "aaa"; lit "zzz"]] (lit "foo-subject")].
Proof. vm_compute. reflexivity. Qed.

(** TestCommonOverlay, TestInvalidTOMLInCommonConfig, TestErrorOpeningCommonFile, TestOpenError *)
Example conf_overlay : has (fun c => (c_mode c, c_batch_count c, c_db_name c, c_debug c)) (load (FOk (PFile None None None None None None None None None (Some (lit "massive")) (Some 50) None None None None None None None None None None None None None None None None None None None)) (PFile None (Some (lit "listener")) None None None None None None None None (Some 100) None None None None None None None None None None None None None None None (Some true) None None None) [] []) = Some (lit "listener", 100, lit "massive", true) /\
  load FBad (PFile None (Some (lit "listener")) None None None None None None None None (Some 100) None None None None None None None None None None None None None None None (Some true) None None None) [] [] = LoadErr /\ load FUnreadable (PFile None (Some (lit "listener")) None None None None None None None None (Some 100) None None None None None None None None None None None None None None None (Some true) None None None) [] [] = LoadErr /\ NewConfigFromFile toml_rules FAbsent FAbsent file_name [] [] = LoadErr.
Proof. vm_compute. auto. Qed.

(** TestValidateDefaults, TestTextValidateAuth *)
Definition dflt (user pass : bytes) : cfg := decode toml_rules (PFile None (Some (lit "writer")) None None None None None None None None None None None None None None None None None None None None None None None None None None None None) (set_user_pass newDefaultConfig user pass).
Example conf_validate : Validate (dflt [] []) = None /\ Validate (dflt (lit "hello") []) = Some EUser /\ Validate (dflt [] (lit "hello")) = Some EPass.
Proof. vm_compute. auto. Qed.

(** TestValidateProblems: the file is refused, for that reason. *)
Example conf_problems : Forall (fun t => parse (fst t) = LoadErr /\
    Validate (dynamic file_name [] [] (decode toml_rules (fst t) newDefaultConfig)) = Some (snd t)) [
  ((PFile None (Some (lit "frog")) None None None None None None None None None None None None None None None None None None None None None None None None None None None None), EMode);
  ((PFile None (Some (lit "listener")) None None None None None None None None None None None (Some (-1)) None None None None None None None None None None None None None None None None), EListenerPort);
  ((PFile None (Some (lit "listener")) None None None None None None None None None None None (Some 65536) None None None None None None None None None None None None None None None None), EListenerPort);
  ((PFile None (Some (lit "listener_http")) None None None None None None None None None None None (Some (-1)) None None None None None None None None None None None None None None None None), EListenerPort);
  ((PFile None (Some (lit "listener_http")) None None None None None None None None None None None (Some 65536) None None None None None None None None None None None None None None None None), EListenerPort);
  ((PFile None (Some (lit "filter")) None None None None None None None None None None None None None None None None None None None None None None (Some 65536) None None None None None), EProbePort);
  ((PFile None (Some (lit "writer")) None None None None None None None None None None None None None None None None None None None None None None (Some (-1)) None None None None None), EProbePort);
  ((PFile None (Some (lit "filter")) None None None None None None None None None None None None None None None None None None None None None None None (Some 65536) None None None None), EPprofPort);
  ((PFile None (Some (lit "writer")) None None None None None None None None None None None None None None None None None None None None None None None (Some (-1)) None None None None), EPprofPort);
  ((PFile None (Some (lit "listener")) None (Some [(lit "one"); (lit "two")]) None None None None None None None None None None None None None None None None None None None None None None None None None None), EListenerSubject);
  ((PFile None (Some (lit "listener_http")) None (Some [(lit "one"); (lit "two")]) None None None None None None None None None None None None None None None None None None None None None None None None None None), EListenerSubject);
  ((PFile None (Some (lit "listener")) None None None None None None None None None (Some 1048577) None None None None None None None None None None None None None None None None None None), EListenerBatch);
  ((PFile None (Some (lit "listener_http")) None None None None None None None None None (Some 1048577) None None None None None None None None None None None None None None None None None None), EListenerBatch);
  ((PFile None (Some (lit "filter")) None (Some [(lit "one"); (lit "two")]) None None None None None None None None None None None None None None None None None None None None None None None None None None), EFilterSubject);
  ((PFile None (Some (lit "filter")) None None None None None None None None None None None None None None None None None None None (Some [PRule None (Some (lit "needle")) None (Some (lit "foo"))]) None None None None None None None None), ERuleType);
  ((PFile None (Some (lit "filter")) None None None None None None None None None None None None None None None None None None None (Some [PRule (Some (lit "basic")) None None (Some (lit "foo"))]) None None None None None None None None), ERuleMatch);
  ((PFile None (Some (lit "filter")) None None None None None None None None None None None None None None None None None None None (Some [PRule (Some (lit "basic")) (Some (lit "needle")) None None]) None None None None None None None None), ERuleSubject);
  ((PFile None (Some (lit "filter")) None None None None None None None None None None None None None None None None None None None (Some [PRule (Some (lit "basic")) (Some (lit "something")) (Some [[(lit "abc"); (lit "def")]]) (Some (lit "out"))]) None None None None None None None None), ERuleTags);
  ((PFile None (Some (lit "filter")) None None None None None None None None None None None None None None None None None None None (Some [PRule (Some (lit "tags")) (Some (lit "something")) None (Some (lit "out"))]) None None None None None None None None), ETagsMatch);
  ((PFile None (Some (lit "filter")) None None None None None None None None None None None None None None None None None None None (Some [PRule (Some (lit "tags")) None None (Some (lit "out"))]) None None None None None None None None), ETagsMissing);
  ((PFile None (Some (lit "filter")) None None None None None None None None None None None None None None None None None None None (Some [PRule (Some (lit "tags")) None (Some [[(lit "abc"); (lit "def"); (lit "zzz")]]) (Some (lit "out"))]) None None None None None None None None), ETagsPair);
  ((PFile None (Some (lit "writer")) None (Some []) None None None None None None None None None None None None None None None None None None None None None None None None None None), EWriterSubject);
  ((PFile None (Some (lit "writer")) None None None None None (Some (lit "foo")) None None None None None None None None None None None None None None None None None None None None None None), EDbProtocol);
  ((PFile None (Some (lit "writer")) None None None None None None (Some 65536) None None None None None None None None None None None None None None None None None None None None None), EDbPort);
  ((PFile None (Some (lit "writer")) None None None None None None (Some 0) None None None None None None None None None None None None None None None None None None None None None), EDbPort);
  ((PFile None (Some (lit "writer")) None None None None None None None None None None None None None None None None None None None (Some [PRule None (Some (lit "needle")) None None]) None None None None None None None None), ERuleType);
  ((PFile None (Some (lit "writer")) None None None None None None None None None None None None None None None None None None None (Some [PRule (Some (lit "basic")) None None None]) None None None None None None None None), ERuleMatch);
  ((PFile None (Some (lit "writer")) None None None None None None None None None None None None None None None None None None None (Some [PRule (Some (lit "basic")) (Some (lit "needle")) None (Some (lit "matches"))]) None None None None None None None None), EWriterRuleSubject);
  ((PFile None (Some (lit "filter")) None None None None None None None None None None None None None None None None None None None None None None None None None (Some 30000000000) None None), EPeriodMode);
  ((PFile None (Some (lit "downsampler")) None None None None None None None None None None None None None None None None None None None None None None None None None (Some 30000000000) (Some (lit "")) None), ESuffix);
  ((PFile None (Some (lit "downsampler")) None None None None None None None None None None None None None None None None None None None None None None None None None (Some 30000000000) (Some (lit "")) None), ESuffix)].
Proof. table. Qed.
