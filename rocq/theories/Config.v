(** Model of the config package (config.go, duration.go), of the mode dispatch of cmd/influx-spout/main.go and of
    filter/rules.go RuleSetFromConfig.

    Durations are nanoseconds, sizes bytes.  TOML syntax is not modelled: a file that decodes is the record of
    the options it sets (BurntSushi/toml, not part of the repository). *)
From Verif Require Import Base Text Rules.
Local Open Scope Z_scope.

Definition second : Z := 1000000000.
Definition minute : Z := 60 * second.
(** datasize.MB, and config.go:34 MaxNATSMsgSize. *)
Definition MB : Z := 1048576.
Definition MaxNATSMsgSize : Z := MB.

(** config/config.go:73-79 Rule. *)
Record crule := CRule { cr_type : bytes; cr_match : bytes; cr_tags : list (list bytes); cr_subject : bytes }.

(** config/config.go:36-71 Config. *)
Record cfg := Cfg {
  c_name : bytes;
  c_mode : bytes;
  c_nats_address : bytes;
  c_subjects : list bytes;
  c_subject_monitor : bytes;
  c_subject_junk : bytes;
  c_db_address : bytes;
  c_db_protocol : bytes;
  c_db_port : Z;
  c_db_user : bytes;
  c_db_pass : bytes;
  c_db_name : bytes;
  c_batch_count : Z;
  c_batch_size : Z;
  c_batch_age : Z;
  c_port : Z;
  c_workers : Z;
  c_write_timeout : Z;
  c_retry_batches : Z;
  c_retry_interval : Z;
  c_retry_timeout : Z;
  c_read_buffer : Z;
  c_max_pending : Z;
  c_rules : list crule;
  c_max_time_delta : Z;
  c_stats_interval : Z;
  c_probe_port : Z;
  c_pprof_port : Z;
  c_debug : bool;
  c_period : Z;
  c_suffix : bytes;
  c_queue_group : bytes
}.

(** config/config.go:81-107 newDefaultConfig; what is not mentioned there has Go's zero value. *)
Definition newDefaultConfig : cfg := {|
  c_name := [];
  c_mode := [];
  c_nats_address := lit "nats://localhost:4222";
  c_subjects := [lit "influx-spout"];
  c_subject_monitor := lit "influx-spout-monitor";
  c_subject_junk := lit "influx-spout-junk";
  c_db_address := lit "localhost";
  c_db_protocol := lit "http";
  c_db_port := 8086;
  c_db_user := [];
  c_db_pass := [];
  c_db_name := lit "influx-spout-junk";
  c_batch_count := 10;
  c_batch_size := 0;
  c_batch_age := 5 * minute;
  c_port := 0;
  c_workers := 8;
  c_write_timeout := 30 * second;
  c_retry_batches := 1;
  c_retry_interval := 10 * second;
  c_retry_timeout := minute;
  c_read_buffer := 4 * MB;
  c_max_pending := 200 * MB;
  c_rules := [];
  c_max_time_delta := 10 * minute;
  c_stats_interval := 3 * second;
  c_probe_port := 0;
  c_pprof_port := 0;
  c_debug := false;
  c_period := 0;
  c_suffix := lit "-archive";
  c_queue_group := []
|}.

(** A [[rule]] table of a file: the keys it sets. *)
Record prule := PRule { pr_type : option bytes; pr_match : option bytes; pr_tags : option (list (list bytes)); pr_subject : option bytes }.

(** A decoded file: the options it sets.  User and password cannot be set in a file (config.go:47-48). *)
Record pfile := PFile {
  p_name : option (bytes);
  p_mode : option (bytes);
  p_nats_address : option (bytes);
  p_subjects : option (list bytes);
  p_subject_monitor : option (bytes);
  p_subject_junk : option (bytes);
  p_db_address : option (bytes);
  p_db_protocol : option (bytes);
  p_db_port : option (Z);
  p_db_name : option (bytes);
  p_batch_count : option (Z);
  p_batch_size : option (Z);
  p_batch_age : option (Z);
  p_port : option (Z);
  p_workers : option (Z);
  p_write_timeout : option (Z);
  p_retry_batches : option (Z);
  p_retry_interval : option (Z);
  p_retry_timeout : option (Z);
  p_read_buffer : option (Z);
  p_max_pending : option (Z);
  p_rules : option (list prule);
  p_max_time_delta : option (Z);
  p_stats_interval : option (Z);
  p_probe_port : option (Z);
  p_pprof_port : option (Z);
  p_debug : option (bool);
  p_period : option (Z);
  p_suffix : option (bytes);
  p_queue_group : option (bytes)
}.

Definition override {A} (o : option A) (v : A) : A := match o with Some x => x | None => v end.

(** A rule decoded into a zero value. *)
Definition fresh_rule (p : prule) : crule :=
  CRule (override (pr_type p) []) (override (pr_match p) []) (override (pr_tags p) []) (override (pr_subject p) []).

(** How a file's list of rules is decoded into the list already present.  A parameter of the model, because it is the
    TOML library's business. *)
Definition rules_decoder := list crule -> list prule -> list crule.

(** What BurntSushi/toml 0.3.1 does (decode.go unifySlice; from knowledge of the library, its source is not in the
    repository): a list at least as long as the new one is cut and its elements decoded into again, so keys that the
    second file does not set keep the value of the first file's rule at that position. *)
Definition toml_rules : rules_decoder := fun old ps =>
  if Nat.ltb (length old) (length ps) then map fresh_rule ps
  else map (fun op : crule * prule => let (o, p) := op in
         CRule (override (pr_type p) (cr_type o)) (override (pr_match p) (cr_match o))
               (override (pr_tags p) (cr_tags o)) (override (pr_subject p) (cr_subject o)))
       (combine (firstn (length ps) old) ps).

(** toml.DecodeReader into an existing Config (config/config.go:284-296 readConfig). *)
Definition decode (dec : rules_decoder) (p : pfile) (c : cfg) : cfg := {|
  c_name := override (p_name p) (c_name c);
  c_mode := override (p_mode p) (c_mode c);
  c_nats_address := override (p_nats_address p) (c_nats_address c);
  c_subjects := override (p_subjects p) (c_subjects c);
  c_subject_monitor := override (p_subject_monitor p) (c_subject_monitor c);
  c_subject_junk := override (p_subject_junk p) (c_subject_junk c);
  c_db_address := override (p_db_address p) (c_db_address c);
  c_db_protocol := override (p_db_protocol p) (c_db_protocol c);
  c_db_port := override (p_db_port p) (c_db_port c);
  c_db_user := c_db_user c;
  c_db_pass := c_db_pass c;
  c_db_name := override (p_db_name p) (c_db_name c);
  c_batch_count := override (p_batch_count p) (c_batch_count c);
  c_batch_size := override (p_batch_size p) (c_batch_size c);
  c_batch_age := override (p_batch_age p) (c_batch_age c);
  c_port := override (p_port p) (c_port c);
  c_workers := override (p_workers p) (c_workers c);
  c_write_timeout := override (p_write_timeout p) (c_write_timeout c);
  c_retry_batches := override (p_retry_batches p) (c_retry_batches c);
  c_retry_interval := override (p_retry_interval p) (c_retry_interval c);
  c_retry_timeout := override (p_retry_timeout p) (c_retry_timeout c);
  c_read_buffer := override (p_read_buffer p) (c_read_buffer c);
  c_max_pending := override (p_max_pending p) (c_max_pending c);
  c_rules := match p_rules p with Some ps => dec (c_rules c) ps | None => c_rules c end;
  c_max_time_delta := override (p_max_time_delta p) (c_max_time_delta c);
  c_stats_interval := override (p_stats_interval p) (c_stats_interval c);
  c_probe_port := override (p_probe_port p) (c_probe_port c);
  c_pprof_port := override (p_pprof_port p) (c_pprof_port c);
  c_debug := override (p_debug p) (c_debug c);
  c_period := override (p_period p) (c_period c);
  c_suffix := override (p_suffix p) (c_suffix c);
  c_queue_group := override (p_queue_group p) (c_queue_group c)
|}.

(** What readConfig finds (config/config.go:284-296). *)
Inductive fileread :=
| FAbsent            (** os.IsNotExist *)
| FUnreadable        (** any other error of Open *)
| FBad               (** not valid TOML, or a value of the wrong type *)
| FOk (p : pfile).

(** The reasons Validate can give. *)
Inductive verror :=
| EProbePort | EPprofPort | EPeriodMode | EMode
| EListenerPort | EListenerSubject | EListenerBatch
| EFilterSubject | ERuleType | ERuleSubject | ERuleMatch | ERuleTags | ETagsMatch | ETagsMissing | ETagsPair
| EPeriod | ESuffix
| EWriterSubject | EDbPort | EDbProtocol | EUser | EPass | EWriterRuleSubject.

(** config/config.go:140-151 validateListener; [None] is nil. *)
Definition validateListener (c : cfg) : option verror :=
  if (c_port c <? 1) || (65535 <? c_port c) then Some EListenerPort
  else if negb (Nat.eqb (length (c_subjects c)) 1) then Some EListenerSubject
  else if MaxNATSMsgSize <? c_batch_size c then Some EListenerBatch
  else None.

Definition isTags (r : crule) : bool := beqs (cr_type r) (lit "tags").
Definition isEmpty {A} (l : list A) : bool := match l with [] => true | _ => false end.

(** config/config.go:157-183: the body of the loop over a filter's rules. *)
Definition checkFilterRule (r : crule) : option verror :=
  if isEmpty (cr_type r) then Some ERuleType
  else if isEmpty (cr_subject r) then Some ERuleSubject
  else if negb (isTags r) && isEmpty (cr_match r) then Some ERuleMatch
  else if negb (isTags r) && negb (isEmpty (cr_tags r)) then Some ERuleTags
  else if isTags r then
    if negb (isEmpty (cr_match r)) then Some ETagsMatch
    else if isEmpty (cr_tags r) then Some ETagsMissing
    else if existsb (fun t => negb (Nat.eqb (length t) 2)) (cr_tags r) then Some ETagsPair
    else None
  else None.

(** config/config.go:214-224: the body of the loop over a writer's rules. *)
Definition checkWriterRule (r : crule) : option verror :=
  if isEmpty (cr_type r) then Some ERuleType
  else if isEmpty (cr_match r) then Some ERuleMatch
  else if negb (isEmpty (cr_subject r)) then Some EWriterRuleSubject
  else None.

Fixpoint checkRules (check : crule -> option verror) (rs : list crule) : option verror :=
  match rs with
  | [] => None
  | r :: rest => match check r with Some e => Some e | None => checkRules check rest end
  end.

(** config/config.go:153-185 validateFilter. *)
Definition validateFilter (c : cfg) : option verror :=
  if negb (Nat.eqb (length (c_subjects c)) 1) then Some EFilterSubject
  else checkRules checkFilterRule (c_rules c).

(** config/config.go:187-195 validateDownsampler. *)
Definition validateDownsampler (c : cfg) : option verror :=
  if c_period c =? 0 then Some EPeriod
  else if isEmpty (c_suffix c) then Some ESuffix
  else None.

(** config/config.go:197-226 validateWriter. *)
Definition validateWriter (c : cfg) : option verror :=
  if Nat.ltb (length (c_subjects c)) 1 then Some EWriterSubject
  else if (c_db_port c <? 1) || (65535 <? c_db_port c) then Some EDbPort
  else if negb (beqs (c_db_protocol c) (lit "http")) && negb (beqs (c_db_protocol c) (lit "https")) then Some EDbProtocol
  else if negb (isEmpty (c_db_user c)) && isEmpty (c_db_pass c) then Some EUser
  else if isEmpty (c_db_user c) && negb (isEmpty (c_db_pass c)) then Some EPass
  else checkRules checkWriterRule (c_rules c).

(** config/config.go:109-138 Validate. *)
Definition Validate (c : cfg) : option verror :=
  if (c_probe_port c <? 0) || (65535 <? c_probe_port c) then Some EProbePort
  else if (c_pprof_port c <? 0) || (65535 <? c_pprof_port c) then Some EPprofPort
  else if negb (beqs (c_mode c) (lit "downsampler")) && negb (c_period c =? 0) then Some EPeriodMode
  else if beqs (c_mode c) (lit "listener") || beqs (c_mode c) (lit "listener_http") then validateListener c
  else if beqs (c_mode c) (lit "filter") then validateFilter c
  else if beqs (c_mode c) (lit "downsampler") then validateDownsampler c
  else if beqs (c_mode c) (lit "writer") then validateWriter c
  else if beqs (c_mode c) (lit "monitor") then None
  else Some EMode.

(* ------------------------------------------------------------------ *)
(** * File names *)

Definition slash : ascii := "/"%char.
Definition dot : ascii := "."%char.

Fixpoint drop_while (p : ascii -> bool) (s : bytes) : bytes :=
  match s with [] => [] | c :: r => if p c then drop_while p r else s end.
Fixpoint take_while (p : ascii -> bool) (s : bytes) : bytes :=
  match s with [] => [] | c :: r => if p c then c :: take_while p r else [] end.

(** Go's filepath.Base (Unix): strips trailing slashes, then everything up to the last slash. *)
Definition path_base (path : bytes) : bytes :=
  match path with
  | [] => [dot]
  | _ =>
      match rev (take_while (fun c => negb (Ascii.eqb c slash)) (drop_while (Ascii.eqb slash) (rev path))) with
      | [] => [slash]
      | b => b
      end
  end.

(** Go's filepath.Ext: the suffix beginning at the last dot of the last element; scans from the end. *)
Fixpoint ext_scan (revpath acc : bytes) : bytes :=
  match revpath with
  | [] => []
  | c :: r => if Ascii.eqb c slash then [] else if Ascii.eqb c dot then c :: acc else ext_scan r (c :: acc)
  end.
Definition path_ext (path : bytes) : bytes := ext_scan (rev path) [].

(** config/config.go:298-308 pathToConfigName. *)
Definition pathToConfigName (path : bytes) : bytes :=
  let b := path_base path in
  let ext := path_ext b in
  match ext with
  | [] => b
  | _ => firstn (length b - length ext) b
  end.

(* ------------------------------------------------------------------ *)
(** * Loading *)

Inductive loaded :=
| LoadErr
| LoadOk (c : cfg).

(** Assignments to single fields. *)
Definition set_name (c : cfg) (v : bytes) : cfg :=
  {| c_name := v; c_mode := c_mode c; c_nats_address := c_nats_address c; c_subjects := c_subjects c; c_subject_monitor := c_subject_monitor c; c_subject_junk := c_subject_junk c; c_db_address := c_db_address c; c_db_protocol := c_db_protocol c; c_db_port := c_db_port c; c_db_user := c_db_user c; c_db_pass := c_db_pass c; c_db_name := c_db_name c; c_batch_count := c_batch_count c; c_batch_size := c_batch_size c; c_batch_age := c_batch_age c; c_port := c_port c; c_workers := c_workers c; c_write_timeout := c_write_timeout c; c_retry_batches := c_retry_batches c; c_retry_interval := c_retry_interval c; c_retry_timeout := c_retry_timeout c; c_read_buffer := c_read_buffer c; c_max_pending := c_max_pending c; c_rules := c_rules c; c_max_time_delta := c_max_time_delta c; c_stats_interval := c_stats_interval c; c_probe_port := c_probe_port c; c_pprof_port := c_pprof_port c; c_debug := c_debug c; c_period := c_period c; c_suffix := c_suffix c; c_queue_group := c_queue_group c |}.
Definition set_batch_size (c : cfg) (v : Z) : cfg :=
  {| c_name := c_name c; c_mode := c_mode c; c_nats_address := c_nats_address c; c_subjects := c_subjects c; c_subject_monitor := c_subject_monitor c; c_subject_junk := c_subject_junk c; c_db_address := c_db_address c; c_db_protocol := c_db_protocol c; c_db_port := c_db_port c; c_db_user := c_db_user c; c_db_pass := c_db_pass c; c_db_name := c_db_name c; c_batch_count := c_batch_count c; c_batch_size := v; c_batch_age := c_batch_age c; c_port := c_port c; c_workers := c_workers c; c_write_timeout := c_write_timeout c; c_retry_batches := c_retry_batches c; c_retry_interval := c_retry_interval c; c_retry_timeout := c_retry_timeout c; c_read_buffer := c_read_buffer c; c_max_pending := c_max_pending c; c_rules := c_rules c; c_max_time_delta := c_max_time_delta c; c_stats_interval := c_stats_interval c; c_probe_port := c_probe_port c; c_pprof_port := c_pprof_port c; c_debug := c_debug c; c_period := c_period c; c_suffix := c_suffix c; c_queue_group := c_queue_group c |}.
Definition set_port (c : cfg) (v : Z) : cfg :=
  {| c_name := c_name c; c_mode := c_mode c; c_nats_address := c_nats_address c; c_subjects := c_subjects c; c_subject_monitor := c_subject_monitor c; c_subject_junk := c_subject_junk c; c_db_address := c_db_address c; c_db_protocol := c_db_protocol c; c_db_port := c_db_port c; c_db_user := c_db_user c; c_db_pass := c_db_pass c; c_db_name := c_db_name c; c_batch_count := c_batch_count c; c_batch_size := c_batch_size c; c_batch_age := c_batch_age c; c_port := v; c_workers := c_workers c; c_write_timeout := c_write_timeout c; c_retry_batches := c_retry_batches c; c_retry_interval := c_retry_interval c; c_retry_timeout := c_retry_timeout c; c_read_buffer := c_read_buffer c; c_max_pending := c_max_pending c; c_rules := c_rules c; c_max_time_delta := c_max_time_delta c; c_stats_interval := c_stats_interval c; c_probe_port := c_probe_port c; c_pprof_port := c_pprof_port c; c_debug := c_debug c; c_period := c_period c; c_suffix := c_suffix c; c_queue_group := c_queue_group c |}.
Definition set_period (c : cfg) (v : Z) : cfg :=
  {| c_name := c_name c; c_mode := c_mode c; c_nats_address := c_nats_address c; c_subjects := c_subjects c; c_subject_monitor := c_subject_monitor c; c_subject_junk := c_subject_junk c; c_db_address := c_db_address c; c_db_protocol := c_db_protocol c; c_db_port := c_db_port c; c_db_user := c_db_user c; c_db_pass := c_db_pass c; c_db_name := c_db_name c; c_batch_count := c_batch_count c; c_batch_size := c_batch_size c; c_batch_age := c_batch_age c; c_port := c_port c; c_workers := c_workers c; c_write_timeout := c_write_timeout c; c_retry_batches := c_retry_batches c; c_retry_interval := c_retry_interval c; c_retry_timeout := c_retry_timeout c; c_read_buffer := c_read_buffer c; c_max_pending := c_max_pending c; c_rules := c_rules c; c_max_time_delta := c_max_time_delta c; c_stats_interval := c_stats_interval c; c_probe_port := c_probe_port c; c_pprof_port := c_pprof_port c; c_debug := c_debug c; c_period := v; c_suffix := c_suffix c; c_queue_group := c_queue_group c |}.
Definition set_user_pass (c : cfg) (u p : bytes) : cfg :=
  {| c_name := c_name c; c_mode := c_mode c; c_nats_address := c_nats_address c; c_subjects := c_subjects c; c_subject_monitor := c_subject_monitor c; c_subject_junk := c_subject_junk c; c_db_address := c_db_address c; c_db_protocol := c_db_protocol c; c_db_port := c_db_port c; c_db_user := u; c_db_pass := p; c_db_name := c_db_name c; c_batch_count := c_batch_count c; c_batch_size := c_batch_size c; c_batch_age := c_batch_age c; c_port := c_port c; c_workers := c_workers c; c_write_timeout := c_write_timeout c; c_retry_batches := c_retry_batches c; c_retry_interval := c_retry_interval c; c_retry_timeout := c_retry_timeout c; c_read_buffer := c_read_buffer c; c_max_pending := c_max_pending c; c_rules := c_rules c; c_max_time_delta := c_max_time_delta c; c_stats_interval := c_stats_interval c; c_probe_port := c_probe_port c; c_pprof_port := c_pprof_port c; c_debug := c_debug c; c_period := c_period c; c_suffix := c_suffix c; c_queue_group := c_queue_group c |}.

(** config/config.go:244-246: the name. *)
Definition dyn_name (fileName : bytes) (c : cfg) : cfg :=
  if isEmpty (c_name c) then set_name c (pathToConfigName fileName) else c.

(** config/config.go:248-255: the batch size. *)
Definition dyn_batch_size (c : cfg) : cfg :=
  if c_batch_size c =? 0 then
    set_batch_size c (if beqs (c_mode c) (lit "listener") || beqs (c_mode c) (lit "listener_http") then MB else 10 * MB)
  else c.

(** config/config.go:257-266: the port. *)
Definition dyn_port (c : cfg) : cfg :=
  if c_port c =? 0 then
    if beqs (c_mode c) (lit "listener") then set_port c 10001
    else if beqs (c_mode c) (lit "listener_http") then set_port c 13337
    else if beqs (c_mode c) (lit "monitor") then set_port c 9331
    else c
  else c.

(** config/config.go:268-270: the downsampling period. *)
Definition dyn_period (c : cfg) : cfg :=
  if beqs (c_mode c) (lit "downsampler") && (c_period c =? 0) then set_period c minute else c.

(** config/config.go:272-275: the environment variables (an unset variable reads as empty). *)
Definition dyn_env (user pass : bytes) (c : cfg) : cfg :=
  if beqs (c_mode c) (lit "writer") then set_user_pass c user pass else c.

(** config/config.go:244-275. *)
Definition dynamic (fileName user pass : bytes) (c : cfg) : cfg :=
  dyn_env user pass (dyn_period (dyn_port (dyn_batch_size (dyn_name fileName c)))).

(** config/config.go:230-282 NewConfigFromFile.  [common] and [file] are what reading /etc/influx-spout.toml and
    the given file finds. *)
Definition NewConfigFromFile (dec : rules_decoder) (common file : fileread) (fileName user pass : bytes) : loaded :=
  let go (c : cfg) : loaded :=
    match file with
    | FOk p =>
        let c := decode dec p c in
        if isEmpty (c_mode c) then LoadErr
        else
          let c := dynamic fileName user pass c in
          match Validate c with
          | Some _ => LoadErr
          | None => LoadOk c
          end
    | _ => LoadErr
    end in
  match common with
  | FAbsent => go newDefaultConfig
  | FOk p => go (decode dec p newDefaultConfig)
  | _ => LoadErr
  end.

(* ------------------------------------------------------------------ *)
(** * Starting *)

Inductive component := Listener | HTTPListener | Filter | Downsampler | Writer | Monitor.

(** cmd/influx-spout/main.go:99-118: the component of a mode. *)
Definition runMode (mode : bytes) : option component :=
  if beqs mode (lit "listener") then Some Listener
  else if beqs mode (lit "listener_http") then Some HTTPListener
  else if beqs mode (lit "filter") then Some Filter
  else if beqs mode (lit "downsampler") then Some Downsampler
  else if beqs mode (lit "writer") then Some Writer
  else if beqs mode (lit "monitor") then Some Monitor
  else None.

(** The goroutines started for incoming messages; [None]: sync.WaitGroup.Add panics on a negative number
    (writer/writer.go:84 after cmd/influx-spout/main.go:107-111; filter/filter.go:70; downsampler/downsampler.go:83-85). *)
Definition workersStarted (c : cfg) (gomaxprocs : Z) : option Z :=
  match runMode (c_mode c) with
  | Some Filter => Some (Z.max 0 (c_workers c))
  | Some Writer =>
      let n := if c_workers c =? 0 then gomaxprocs * 2 else c_workers c in
      if n <? 0 then None else Some n
  | Some Downsampler => Some (Z.of_nat (length (c_subjects c)))
  | _ => Some 1
  end.

Inductive rsres :=
| RsErr
| RsPanic
| RsOk (rs : list rule).

Section Compile.
  (** regexp.MustCompile panics when the expression does not compile. *)
  Variable compile : bytes -> option (bytes -> bool).

  (** filter/rules.go:101-105: raw[0] and raw[1]; [None] is the index panic. *)
  Fixpoint convertTags (raw : list (list bytes)) : option (list tag) :=
    match raw with
    | [] => Some []
    | (k :: v :: _) :: r => option_map (cons (k, v)) (convertTags r)
    | _ => None
    end.

  (** filter/rules.go:91-116 RuleSetFromConfig. *)
  Fixpoint ruleSetLoop (rs : list crule) (acc : list rule) : rsres :=
    match rs with
    | [] => RsOk acc
    | r :: rest =>
        if beqs (cr_type r) (lit "basic") then ruleSetLoop rest (acc ++ [mkRule (MBasic (cr_match r)) (cr_subject r)])
        else if beqs (cr_type r) (lit "tags") then
          match convertTags (cr_tags r) with
          | None => RsPanic
          | Some ts => ruleSetLoop rest (acc ++ [mkRule (MTags ts) (cr_subject r)])
          end
        else if beqs (cr_type r) (lit "regex") then
          match compile (cr_match r) with
          | None => RsPanic
          | Some re => ruleSetLoop rest (acc ++ [mkRule (MRegex re) (cr_subject r)])
          end
        else if beqs (cr_type r) (lit "negregex") then
          match compile (cr_match r) with
          | None => RsPanic
          | Some re => ruleSetLoop rest (acc ++ [mkRule (MNegRegex re) (cr_subject r)])
          end
        else RsErr
    end.
  Definition RuleSetFromConfig (c : cfg) : rsres := ruleSetLoop (c_rules c) [].
End Compile.
