(** A configuration file as a TOML table: from its keys and values to the options it sets (refines FBad and FOk of Config.v).

    The TOML library (BurntSushi/toml v0.3.1, decode.go unifyStruct, unifySlice, unifyString, unifyInt, unifyBool, unifyText; from
    knowledge of the library, its source is not in the repository) is modelled from the table on; its parser is not. *)
From Verif Require Import Base Text Convert Rules Config Units.
Local Open Scope Z_scope.

(** A value in a file: an integer, a text, a boolean, a float or a date (with the text unifyText makes of it), an array, a table.
    [[rule]] is an array of tables. *)
Inductive tval := TInt (n : Z) | TStr (s : bytes) | TBool (b : bool) | TPrinted (text : bytes) | TArr (l : list tval) | TTab (t : list (bytes * tval)).
(** A table: its keys in the order in which Go's map iteration yields them. *)
Notation table := (list (bytes * tval)).

(** ** Which option a key means *)
(** strings.EqualFold for a name of lower case ASCII letters, digits and underscores: besides the two cases of a letter there are only
    the long s (U+017F) and the Kelvin sign (U+212A). *)
Fixpoint EqualFold (name key : bytes) : bool :=
  match name with
  | [] => match key with [] => true | _ => false end
  | n :: name' =>
      match key with
      | [] => false
      | c :: key' =>
          (Ascii.eqb (lowerc c) n && EqualFold name' key')
          || (Ascii.eqb n "s" && Ascii.eqb c "197" && match key' with d :: key2 => Ascii.eqb d "191" && EqualFold name' key2 | [] => false end)
          || (Ascii.eqb n "k" && Ascii.eqb c "226" && match key' with d :: e :: key3 => Ascii.eqb d "132" && Ascii.eqb e "170" && EqualFold name' key3 | _ => false end)
      end
  end.

(** decode.go unifyStruct: the field with exactly this name, else the first which differs in case only, else none. *)
Definition field {A} (names : list (bytes * A)) (key : bytes) : option A :=
  match find (fun f => beqs (fst f) key) names with
  | Some f => Some (snd f)
  | None => match find (fun f => EqualFold (fst f) key) names with Some f => Some (snd f) | None => None end
  end.

(** config/config.go:36-69 the fields of Config, in their order, without InfluxDBUser and InfluxDBPass (tag "-"). *)
Inductive opt := OName | OMode | ONats | OSubjects | OSubjectMonitor | OSubjectJunk | ODbAddress | ODbProtocol | ODbPort | ODbName | OBatchCount | OBatchSize | OBatchAge | OPort | OWorkers | OWriteTimeout | ORetryBatches | ORetryInterval | ORetryTimeout | OReadBuffer | OMaxPending | ORule | OMaxTimeDelta | OStatsInterval | OProbePort | OPprofPort | ODebug | OPeriod | OSuffix | OQueueGroup.
(** config/config.go:36-69 the toml tags. *)
Definition option_names : list (bytes * opt) :=
  [(lit "name", OName); (lit "mode", OMode); (lit "nats_address", ONats); (lit "nats_subject", OSubjects);
   (lit "nats_subject_monitor", OSubjectMonitor); (lit "nats_subject_junkyard", OSubjectJunk); (lit "influxdb_address", ODbAddress); (lit "influxdb_protocol", ODbProtocol);
   (lit "influxdb_port", ODbPort); (lit "influxdb_dbname", ODbName); (lit "batch_max_count", OBatchCount); (lit "batch_max_size", OBatchSize);
   (lit "batch_max_age", OBatchAge); (lit "port", OPort); (lit "workers", OWorkers); (lit "write_timeout", OWriteTimeout);
   (lit "writer_retry_batches", ORetryBatches); (lit "writer_retry_interval", ORetryInterval); (lit "writer_retry_timeout", ORetryTimeout); (lit "read_buffer_size", OReadBuffer);
   (lit "nats_max_pending_size", OMaxPending); (lit "rule", ORule); (lit "max_time_delta", OMaxTimeDelta); (lit "stats_interval", OStatsInterval);
   (lit "probe_port", OProbePort); (lit "pprof_port", OPprofPort); (lit "debug", ODebug); (lit "downsample_period", OPeriod);
   (lit "downsample_suffix", OSuffix); (lit "queue_group", OQueueGroup)].
(** config/config.go:72-77 Rule. *)
Inductive ropt := RType | RMatch | RTags | RSubject.
Definition rule_names : list (bytes * ropt) := [(lit "type", RType); (lit "match", RMatch); (lit "tags", RTags); (lit "subject", RSubject)].

(** ** Values; [None]: an error, which makes the file unreadable *)
Fixpoint all {A B} (f : A -> option B) (l : list A) : option (list B) :=
  match l with
  | [] => Some []
  | x :: r => match f x, all f r with Some y, Some ys => Some (y :: ys) | _, _ => None end
  end.
(** decode.go unifyString, unifyInt (the parser has refused integers which do not fit in 64 bits), unifyBool, unifySlice. *)
Definition uString (v : tval) : option bytes := match v with TStr s => Some s | _ => None end.
Definition uInt (v : tval) : option Z := match v with TInt n => Some n | _ => None end.
Definition uBool (v : tval) : option bool := match v with TBool b => Some b | _ => None end.
Definition uSlice {B} (f : tval -> option B) (v : tval) : option (list B) := match v with TArr l => all f l | _ => None end.
Definition uStrings : tval -> option (list bytes) := uSlice uString.
(** decode.go unifyText: what UnmarshalText is given. *)
Definition textOf (v : tval) : option bytes :=
  match v with
  | TStr s => Some s
  | TInt n => Some (FormatInt n)
  | TBool b => Some (lit (if b then "true" else "false"))
  | TPrinted t => Some t
  | TArr _ | TTab _ => None
  end.
(** datasize.ByteSize's UnmarshalText. *)
Definition uSize (v : tval) : option Z := match textOf v with Some s => UnmarshalSize s | None => None end.
(** config/duration.go:33-37 UnmarshalText ([frac]: C94). *)
Definition uDuration (frac : Z -> nat -> Z -> Z) (v : tval) : option Z := match textOf v with Some s => ParseDuration frac s | None => None end.

(** decode.go unifyStruct for a Rule: a key which means no field is skipped; of two keys which mean the same field the later stays. *)
Definition rule_key (p : prule) (kv : bytes * tval) : option prule :=
  match field rule_names (fst kv) with
  | None => Some p
  | Some RType => match uString (snd kv) with Some s => Some (PRule (Some s) (pr_match p) (pr_tags p) (pr_subject p)) | None => None end
  | Some RMatch => match uString (snd kv) with Some s => Some (PRule (pr_type p) (Some s) (pr_tags p) (pr_subject p)) | None => None end
  | Some RTags => match uSlice uStrings (snd kv) with Some l => Some (PRule (pr_type p) (pr_match p) (Some l) (pr_subject p)) | None => None end
  | Some RSubject => match uString (snd kv) with Some s => Some (PRule (pr_type p) (pr_match p) (pr_tags p) (Some s)) | None => None end
  end.
Fixpoint rule_keys (p : prule) (t : table) : option prule :=
  match t with [] => Some p | kv :: r => match rule_key p kv with Some p' => rule_keys p' r | None => None end end.
Definition uRule (v : tval) : option prule := match v with TTab t => rule_keys (PRule None None None None) t | _ => None end.
Definition uRules : tval -> option (list prule) := uSlice uRule.

Section Decode.
  (** The fractions of durations like 1.5s (C94). *)
  Variable frac : Z -> nat -> Z -> Z.

  Definition some_of_type {A} (o : option A) : bool := match o with Some _ => true | None => false end.
  (** The types of the fields of Config: is [v] a value for [o]? *)
  Definition valueFor (o : opt) (v : tval) : bool :=
    match o with
    | OName => some_of_type (uString v)
    | OMode => some_of_type (uString v)
    | ONats => some_of_type (uString v)
    | OSubjects => some_of_type (uStrings v)
    | OSubjectMonitor => some_of_type (uString v)
    | OSubjectJunk => some_of_type (uString v)
    | ODbAddress => some_of_type (uString v)
    | ODbProtocol => some_of_type (uString v)
    | ODbPort => some_of_type (uInt v)
    | ODbName => some_of_type (uString v)
    | OBatchCount => some_of_type (uInt v)
    | OBatchSize => some_of_type (uSize v)
    | OBatchAge => some_of_type (uDuration frac v)
    | OPort => some_of_type (uInt v)
    | OWorkers => some_of_type (uInt v)
    | OWriteTimeout => some_of_type (uDuration frac v)
    | ORetryBatches => some_of_type (uInt v)
    | ORetryInterval => some_of_type (uDuration frac v)
    | ORetryTimeout => some_of_type (uDuration frac v)
    | OReadBuffer => some_of_type (uSize v)
    | OMaxPending => some_of_type (uSize v)
    | ORule => some_of_type (uRules v)
    | OMaxTimeDelta => some_of_type (uDuration frac v)
    | OStatsInterval => some_of_type (uDuration frac v)
    | OProbePort => some_of_type (uInt v)
    | OPprofPort => some_of_type (uInt v)
    | ODebug => some_of_type (uBool v)
    | OPeriod => some_of_type (uDuration frac v)
    | OSuffix => some_of_type (uString v)
    | OQueueGroup => some_of_type (uString v)
    end.
  Definition at_option {A} (u : tval -> option A) (get : opt -> option tval) (o : opt) : option A := match get o with Some v => u v | None => None end.
  (** The options a file sets, given the value it has for each. *)
  Definition options (get : opt -> option tval) : pfile :=
    {| p_name := at_option uString get OName; p_mode := at_option uString get OMode; p_nats_address := at_option uString get ONats; p_subjects := at_option uStrings get OSubjects; p_subject_monitor := at_option uString get OSubjectMonitor; p_subject_junk := at_option uString get OSubjectJunk; p_db_address := at_option uString get ODbAddress; p_db_protocol := at_option uString get ODbProtocol; p_db_port := at_option uInt get ODbPort; p_db_name := at_option uString get ODbName; p_batch_count := at_option uInt get OBatchCount; p_batch_size := at_option uSize get OBatchSize; p_batch_age := at_option (uDuration frac) get OBatchAge; p_port := at_option uInt get OPort; p_workers := at_option uInt get OWorkers; p_write_timeout := at_option (uDuration frac) get OWriteTimeout; p_retry_batches := at_option uInt get ORetryBatches; p_retry_interval := at_option (uDuration frac) get ORetryInterval; p_retry_timeout := at_option (uDuration frac) get ORetryTimeout; p_read_buffer := at_option uSize get OReadBuffer; p_max_pending := at_option uSize get OMaxPending; p_rules := at_option uRules get ORule; p_max_time_delta := at_option (uDuration frac) get OMaxTimeDelta; p_stats_interval := at_option (uDuration frac) get OStatsInterval; p_probe_port := at_option uInt get OProbePort; p_pprof_port := at_option uInt get OPprofPort; p_debug := at_option uBool get ODebug; p_period := at_option (uDuration frac) get OPeriod; p_suffix := at_option uString get OSuffix; p_queue_group := at_option uString get OQueueGroup |}.
  Definition opt_eq_dec (a b : opt) : {a = b} + {a <> b}. Proof. decide equality. Defined.
  Definition only (o : opt) (v : tval) : opt -> option tval := fun o' => if opt_eq_dec o o' then Some v else None.

  (** decode.go unifyStruct for a Config: each key in turn is decoded into its field. *)
  Definition decode_key (c : cfg) (kv : bytes * tval) : option cfg :=
    match field option_names (fst kv) with
    | None => Some c
    | Some o => if valueFor o (snd kv) then Some (decode toml_rules (options (only o (snd kv))) c) else None
    end.
  Fixpoint decode_table (t : table) (c : cfg) : option cfg :=
    match t with
    | [] => Some c
    | kv :: r => match decode_key c kv with Some c' => decode_table r c' | None => None end
    end.

  (** config/config.go:284-296 readConfig, with the file as a table ([None]: there is none). *)
  Definition readConfig (f : option table) (c : cfg) : option cfg := match f with Some t => decode_table t c | None => None end.
  (** config/config.go:230-282 NewConfigFromFile, with tables. *)
  Definition LoadTables (common : option table) (file : table) (fileName user pass : bytes) : loaded :=
    match (match common with Some t => decode_table t newDefaultConfig | None => Some newDefaultConfig end) with
    | None => LoadErr
    | Some c1 =>
        match decode_table file c1 with
        | None => LoadErr
        | Some c =>
            if isEmpty (c_mode c) then LoadErr
            else let c := dynamic fileName user pass c in match Validate c with Some _ => LoadErr | None => LoadOk c end
        end
    end.

  (** ** Specification *)
  (** [key] is [name], up to the case of letters. *)
  Inductive same_but_case : bytes -> bytes -> Prop :=
  | sc_nil : same_but_case [] []
  | sc_same c n k : same_but_case n k -> same_but_case (c :: n) (c :: k)
  | sc_upper c d n k : (97 <= bval c <= 122)%N -> (bval d = bval c - 32)%N -> same_but_case n k -> same_but_case (c :: n) (d :: k)
  | sc_long_s n k : same_but_case n k -> same_but_case ("s"%char :: n) ("197"%char :: "191"%char :: k)
  | sc_kelvin n k : same_but_case n k -> same_but_case ("k"%char :: n) ("226"%char :: "132"%char :: "170"%char :: k).
  (** [key] means the option [o]. *)
  Definition means (key : bytes) (o : opt) : Prop := exists name, In (name, o) option_names /\ same_but_case name key.
  (** No option is set by two keys of a file. *)
  Definition unambiguous (t : table) : Prop := forall a k v b k' v' c o, t = a ++ (k, v) :: b ++ (k', v') :: c -> means k o -> ~ means k' o.
End Decode.
(** The file has [v] for the option [o]. *)
Definition sets (t : table) (o : opt) (v : tval) : Prop := exists k, In (k, v) t /\ means k o.
(** What an option's value may be, in the words of README.md. *)
Inductive kind := KText | KInt | KBool | KTexts | KSize | KDuration | KRules.
Definition kind_of (o : opt) : kind :=
  match o with
  | OName | OMode | ONats | OSubjectMonitor | OSubjectJunk | ODbAddress | ODbProtocol | ODbName | OSuffix | OQueueGroup => KText
  | ODbPort | OBatchCount | OPort | OWorkers | ORetryBatches | OProbePort | OPprofPort => KInt
  | ODebug => KBool
  | OSubjects => KTexts
  | OBatchSize | OReadBuffer | OMaxPending => KSize
  | OBatchAge | OWriteTimeout | ORetryInterval | ORetryTimeout | OMaxTimeDelta | OStatsInterval | OPeriod => KDuration
  | ORule => KRules
  end.
Definition is_a (frac : Z -> nat -> Z -> Z) (d : kind) (v : tval) : Prop :=
  match d with
  | KText => exists s, v = TStr s
  | KInt => exists n, v = TInt n
  | KBool => exists b, v = TBool b
  | KTexts => exists l, v = TArr (map TStr l)
  | KSize => exists s n, textOf v = Some s /\ UnmarshalSize s = Some n
  | KDuration => exists s d, textOf v = Some s /\ ParseDuration frac s = Some d
  | KRules => exists l, v = TArr (map TTab l) /\ Forall (fun t => uRule (TTab t) <> None) l
  end.
(** Every value has the type of its option. *)
Definition well_typed (frac : Z -> nat -> Z -> Z) (t : table) : Prop := forall o v, sets t o v -> is_a frac (kind_of o) v.
(** The fields of a Config, by type (config/config.go:36-69). *)
Definition text_options : list (opt * (cfg -> bytes)) :=
  [(OName, c_name); (OMode, c_mode); (ONats, c_nats_address); (OSubjectMonitor, c_subject_monitor); (OSubjectJunk, c_subject_junk); (ODbAddress, c_db_address); (ODbProtocol, c_db_protocol); (ODbName, c_db_name); (OSuffix, c_suffix); (OQueueGroup, c_queue_group)].
Definition int_options : list (opt * (cfg -> Z)) :=
  [(ODbPort, c_db_port); (OBatchCount, c_batch_count); (OPort, c_port); (OWorkers, c_workers); (ORetryBatches, c_retry_batches); (OProbePort, c_probe_port); (OPprofPort, c_pprof_port)].
Definition size_options : list (opt * (cfg -> Z)) := [(OBatchSize, c_batch_size); (OReadBuffer, c_read_buffer); (OMaxPending, c_max_pending)].
Definition duration_options : list (opt * (cfg -> Z)) :=
  [(OBatchAge, c_batch_age); (OWriteTimeout, c_write_timeout); (ORetryInterval, c_retry_interval); (ORetryTimeout, c_retry_timeout); (OMaxTimeDelta, c_max_time_delta); (OStatsInterval, c_stats_interval); (OPeriod, c_period)].
(** [key] means the option [r] of a rule; no option of a rule is set by two keys of its table; its values have the right types. *)
Definition rmeans (key : bytes) (r : ropt) : Prop := exists name, In (name, r) rule_names /\ same_but_case name key.
Definition unambiguous_rule (t : table) : Prop := forall a k v b k' v' c r, t = a ++ (k, v) :: b ++ (k', v') :: c -> rmeans k r -> ~ rmeans k' r.
Definition rule_text (r : ropt) (v : tval) : Prop :=
  match r with RTags => exists l, v = TArr (map (fun set => TArr (map TStr set)) l) | _ => exists s, v = TStr s end.
Definition rule_typed (t : table) : Prop := forall k v r, In (k, v) t -> rmeans k r -> rule_text r v.
