(** Specification of the configuration: which values are valid, where a value comes from, and what rules mean. *)
From Verif Require Import Base Text Rules Config.
Local Open Scope Z_scope.

(* ------------------------------------------------------------------ *)
(** * Valid configurations *)

(** A filter rule is complete: it has a subject and either (type tags) pairs and nothing to match, or (any other type)
    something to match and no tags. *)
Definition filter_rule_ok (r : crule) : Prop :=
  cr_subject r <> [] /\
  (cr_type r = lit "tags" /\ cr_match r = [] /\ cr_tags r <> [] /\ Forall (fun t => length t = 2%nat) (cr_tags r) \/
   cr_type r <> lit "tags" /\ cr_type r <> [] /\ cr_match r <> [] /\ cr_tags r = []).

(** A writer rule has a type, something to match, and no subject. *)
Definition writer_rule_ok (r : crule) : Prop := cr_type r <> [] /\ cr_match r <> [] /\ cr_subject r = [].

Definition port_ok (low p : Z) : Prop := low <= p <= 65535.

(** What each mode requires. *)
Definition listener_ok (c : cfg) : Prop :=
  port_ok 1 (c_port c) /\ (exists s, c_subjects c = [s]) /\ c_batch_size c <= 1048576.
Definition filter_ok (c : cfg) : Prop := (exists s, c_subjects c = [s]) /\ Forall filter_rule_ok (c_rules c).
Definition downsampler_ok (c : cfg) : Prop := c_period c <> 0 /\ c_suffix c <> [].
Definition writer_ok (c : cfg) : Prop :=
  c_subjects c <> [] /\ port_ok 1 (c_db_port c) /\ (c_db_protocol c = lit "http" \/ c_db_protocol c = lit "https") /\
  (c_db_user c = [] <-> c_db_pass c = []) /\ Forall writer_rule_ok (c_rules c).

Definition valid (c : cfg) : Prop :=
  port_ok 0 (c_probe_port c) /\ port_ok 0 (c_pprof_port c) /\
  (c_mode c <> lit "downsampler" -> c_period c = 0) /\
  ((c_mode c = lit "listener" \/ c_mode c = lit "listener_http") /\ listener_ok c \/
   c_mode c = lit "filter" /\ filter_ok c \/
   c_mode c = lit "downsampler" /\ downsampler_ok c \/
   c_mode c = lit "writer" /\ writer_ok c \/
   c_mode c = lit "monitor").

(** What each error message says about the configuration. *)
Definition is_listener (c : cfg) : Prop := c_mode c = lit "listener" \/ c_mode c = lit "listener_http".
Definition says_error (e : verror) (c : cfg) : Prop :=
  match e with
  | EProbePort => ~ port_ok 0 (c_probe_port c)
  | EPprofPort => ~ port_ok 0 (c_pprof_port c)
  | EPeriodMode => c_mode c <> lit "downsampler" /\ c_period c <> 0
  | EMode => ~ In (c_mode c) [lit "listener"; lit "listener_http"; lit "filter"; lit "downsampler"; lit "writer"; lit "monitor"]
  | EListenerPort => is_listener c /\ ~ port_ok 1 (c_port c)
  | EListenerSubject => is_listener c /\ length (c_subjects c) <> 1%nat
  | EListenerBatch => is_listener c /\ 1048576 < c_batch_size c
  | EFilterSubject => c_mode c = lit "filter" /\ length (c_subjects c) <> 1%nat
  | ERuleType => exists r, In r (c_rules c) /\ cr_type r = []
  | ERuleSubject => c_mode c = lit "filter" /\ exists r, In r (c_rules c) /\ cr_subject r = []
  | ERuleMatch => exists r, In r (c_rules c) /\ cr_match r = []
  | ERuleTags => c_mode c = lit "filter" /\ exists r, In r (c_rules c) /\ cr_type r <> lit "tags" /\ cr_tags r <> []
  | ETagsMatch => c_mode c = lit "filter" /\ exists r, In r (c_rules c) /\ cr_type r = lit "tags" /\ cr_match r <> []
  | ETagsMissing => c_mode c = lit "filter" /\ exists r, In r (c_rules c) /\ cr_type r = lit "tags" /\ cr_tags r = []
  | ETagsPair => c_mode c = lit "filter" /\ exists r t, In r (c_rules c) /\ In t (cr_tags r) /\ length t <> 2%nat
  | EPeriod => c_mode c = lit "downsampler" /\ c_period c = 0
  | ESuffix => c_mode c = lit "downsampler" /\ c_suffix c = []
  | EWriterSubject => c_mode c = lit "writer" /\ c_subjects c = []
  | EDbPort => c_mode c = lit "writer" /\ ~ port_ok 1 (c_db_port c)
  | EDbProtocol => c_mode c = lit "writer" /\ c_db_protocol c <> lit "http" /\ c_db_protocol c <> lit "https"
  | EUser => c_mode c = lit "writer" /\ c_db_user c <> [] /\ c_db_pass c = []
  | EPass => c_mode c = lit "writer" /\ c_db_user c = [] /\ c_db_pass c <> []
  | EWriterRuleSubject => c_mode c = lit "writer" /\ exists r, In r (c_rules c) /\ cr_subject r <> []
  end.

(* ------------------------------------------------------------------ *)
(** * Where a value comes from *)

(** The value of an option: the file's, else the common file's, else the default. *)
Definition setting {A} (file common : option A) (default : A) : A :=
  match file, common with
  | Some v, _ => v
  | None, Some v => v
  | None, None => default
  end.

(** A rule of a file: keys that are not set are empty. *)
Definition rule_of (p : prule) : crule :=
  CRule (setting (pr_type p) None []) (setting (pr_match p) None []) (setting (pr_tags p) None []) (setting (pr_subject p) None []).

(** Decoding rules into an empty list gives the rules of the file. *)
Definition decodes (dec : rules_decoder) : Prop := forall ps, dec [] ps = map rule_of ps.

(** The default port and batch size of a mode. *)
Definition default_port (mode : bytes) : Z :=
  if beqs mode (lit "listener") then 10001 else if beqs mode (lit "listener_http") then 13337
  else if beqs mode (lit "monitor") then 9331 else 0.
Definition default_batch_size (mode : bytes) : Z :=
  if beqs mode (lit "listener") || beqs mode (lit "listener_http") then 1048576 else 10485760.
Definition default_period (mode : bytes) : Z := if beqs mode (lit "downsampler") then 60000000000 else 0.

(** An option for which zero means not set. *)
Definition or_default (v default : Z) : Z := if v =? 0 then default else v.

(** The configuration that the options f of the file and g of the common file stand for. *)
Record stands_for (dec : rules_decoder) (f g : pfile) (fileName user pass : bytes) (c : cfg) : Prop := {
  sf_name : c_name c = match setting (p_name f) (p_name g) [] with [] => pathToConfigName fileName | n => n end;
  sf_mode : c_mode c = setting (p_mode f) (p_mode g) ([]);
  sf_nats_address : c_nats_address c = setting (p_nats_address f) (p_nats_address g) (lit "nats://localhost:4222");
  sf_subjects : c_subjects c = setting (p_subjects f) (p_subjects g) ([lit "influx-spout"]);
  sf_subject_monitor : c_subject_monitor c = setting (p_subject_monitor f) (p_subject_monitor g) (lit "influx-spout-monitor");
  sf_subject_junk : c_subject_junk c = setting (p_subject_junk f) (p_subject_junk g) (lit "influx-spout-junk");
  sf_db_address : c_db_address c = setting (p_db_address f) (p_db_address g) (lit "localhost");
  sf_db_protocol : c_db_protocol c = setting (p_db_protocol f) (p_db_protocol g) (lit "http");
  sf_db_port : c_db_port c = setting (p_db_port f) (p_db_port g) (8086);
  sf_db_user : c_db_user c = if beqs (c_mode c) (lit "writer") then user else [];
  sf_db_pass : c_db_pass c = if beqs (c_mode c) (lit "writer") then pass else [];
  sf_db_name : c_db_name c = setting (p_db_name f) (p_db_name g) (lit "influx-spout-junk");
  sf_batch_count : c_batch_count c = setting (p_batch_count f) (p_batch_count g) (10);
  sf_batch_size : c_batch_size c = or_default (setting (p_batch_size f) (p_batch_size g) 0) (default_batch_size (c_mode c));
  sf_batch_age : c_batch_age c = setting (p_batch_age f) (p_batch_age g) (300000000000);
  sf_port : c_port c = or_default (setting (p_port f) (p_port g) 0) (default_port (c_mode c));
  sf_workers : c_workers c = setting (p_workers f) (p_workers g) (8);
  sf_write_timeout : c_write_timeout c = setting (p_write_timeout f) (p_write_timeout g) (30000000000);
  sf_retry_batches : c_retry_batches c = setting (p_retry_batches f) (p_retry_batches g) (1);
  sf_retry_interval : c_retry_interval c = setting (p_retry_interval f) (p_retry_interval g) (10000000000);
  sf_retry_timeout : c_retry_timeout c = setting (p_retry_timeout f) (p_retry_timeout g) (60000000000);
  sf_read_buffer : c_read_buffer c = setting (p_read_buffer f) (p_read_buffer g) (4194304);
  sf_max_pending : c_max_pending c = setting (p_max_pending f) (p_max_pending g) (209715200);
  sf_rules : c_rules c = match p_rules f, p_rules g with
    | None, None => []
    | Some ps, None | None, Some ps => map rule_of ps
    | Some ps, Some qs => dec (map rule_of qs) ps
    end;
  sf_max_time_delta : c_max_time_delta c = setting (p_max_time_delta f) (p_max_time_delta g) (600000000000);
  sf_stats_interval : c_stats_interval c = setting (p_stats_interval f) (p_stats_interval g) (3000000000);
  sf_probe_port : c_probe_port c = setting (p_probe_port f) (p_probe_port g) (0);
  sf_pprof_port : c_pprof_port c = setting (p_pprof_port f) (p_pprof_port g) (0);
  sf_debug : c_debug c = setting (p_debug f) (p_debug g) (false);
  sf_period : c_period c = or_default (setting (p_period f) (p_period g) 0) (default_period (c_mode c));
  sf_suffix : c_suffix c = setting (p_suffix f) (p_suffix g) (lit "-archive");
  sf_queue_group : c_queue_group c = setting (p_queue_group f) (p_queue_group g) ([])
}.

(** A file that sets nothing. *)
Definition no_options : pfile :=
  PFile None None None None None None None None None None None None None None None None None None None None None None None None None None None None None None.

(** What reading the common file contributes. *)
Definition common_options (common : fileread) (g : pfile) : Prop := common = FOk g \/ common = FAbsent /\ g = no_options.

(* ------------------------------------------------------------------ *)
(** * Rules *)

(** The rule a configuration entry stands for, given what regular expressions mean; none for an unknown type, for an
    expression that does not compile and for a tag with fewer than two texts. *)
Inductive rule_for (compile : bytes -> option (bytes -> bool)) : crule -> rule -> Prop :=
| rf_basic r : cr_type r = lit "basic" -> rule_for compile r (mkRule (MBasic (cr_match r)) (cr_subject r))
| rf_regex r re : cr_type r = lit "regex" -> compile (cr_match r) = Some re ->
    rule_for compile r (mkRule (MRegex re) (cr_subject r))
| rf_negregex r re : cr_type r = lit "negregex" -> compile (cr_match r) = Some re ->
    rule_for compile r (mkRule (MNegRegex re) (cr_subject r))
| rf_tags r ts : cr_type r = lit "tags" -> Forall2 (fun raw kv => exists more, raw = fst kv :: snd kv :: more) (cr_tags r) ts ->
    rule_for compile r (mkRule (MTags ts) (cr_subject r)).

(** An entry that makes the construction panic. *)
Definition explosive (compile : bytes -> option (bytes -> bool)) (r : crule) : Prop :=
  (cr_type r = lit "regex" \/ cr_type r = lit "negregex") /\ compile (cr_match r) = None \/
  cr_type r = lit "tags" /\ exists t, In t (cr_tags r) /\ (length t < 2)%nat.

Definition known_type (r : crule) : Prop := In (cr_type r) [lit "basic"; lit "tags"; lit "regex"; lit "negregex"].
