(** Property theorems C51-C54, C63-C65: loading and validating a configuration, building the rules, starting a
    component, and what its probes answer.

    [NewConfigFromFile dec common file fileName user pass]: [common] and [file] are what reading
    /etc/influx-spout.toml and the named file finds, [user] and [pass] the environment variables. *)
From Verif Require Import Base Text Rules Config ConfigSpec ConfigProofs ConfigLoad ConfigRules Probes ProbesProofs.
Local Open Scope Z_scope.

(* ------------------------------------------------------------------ *)
(** * Files used in the examples *)

Definition with_mode (m : bytes) : pfile :=
  PFile None (Some m) None None None None None None None None None None None None None None None None None None None None None None None None None None None None.
Definition with_rules (m : bytes) (rs : list prule) : pfile :=
  PFile None (Some m) None None None None None None None None None None None None None None None None None None None (Some rs) None None None None None None None None.
Definition with_workers (m : bytes) (w : Z) : pfile :=
  PFile None (Some m) None None None None None None None None None None None None (Some w) None None None None None None None None None None None None None None None.
Definition with_period (m : bytes) (d : Z) : pfile :=
  PFile None (Some m) None None None None None None None None None None None None None None None None None None None None None None None None None (Some d) None None.
Definition with_batch_size (m : bytes) (d : Z) : pfile :=
  PFile None (Some m) None None None None None None None None None (Some d) None None None None None None None None None None None None None None None None None None.

Definition load (common : fileread) (f : pfile) : loaded :=
  NewConfigFromFile toml_rules common (FOk f) (lit "/etc/spout/edge.toml") [] [].
Definition basic_rule (m s : bytes) : prule := PRule (Some (lit "basic")) (Some m) None (Some s).
Definition regex_rule (m s : bytes) : prule := PRule (Some (lit "regex")) (Some m) None (Some s).
Definition tags_rule (ts : list (list bytes)) (s : bytes) : prule := PRule (Some (lit "tags")) None (Some ts) (Some s).
(** A regular expression engine that knows one expression. *)
Definition engine (e : bytes) : option (bytes -> bool) := if beqs e (lit "cpu.*") then Some (fun _ => true) else None.

(* ------------------------------------------------------------------ *)
(** * C51: validation *)

Definition edge_rules : list prule := [basic_rule (lit "cpu") (lit "hot"); tags_rule [[lit "env"; lit "prod"]] (lit "prod")].
Example edge_filter : exists c, load FAbsent (with_rules (lit "filter") edge_rules) = LoadOk c /\
  Validate c = None /\ c_name c = lit "edge" /\ length (c_rules c) = 2%nat /\ c_workers c = 8.
Proof. eexists. split; [vm_compute; reflexivity|]. repeat split; reflexivity. Qed.

(** A configuration is accepted exactly when it is valid. *)
Theorem C51_valid_iff : forall c, Validate c = None <-> valid c.
Proof. exact Validate_iff. Qed.
Print Assumptions C51_valid_iff.

(** The reason for a rejection is true of the configuration. *)
Theorem C51_reason : forall c e, Validate c = Some e -> says_error e c.
Proof. exact Validate_says. Qed.
Print Assumptions C51_reason.

(* ------------------------------------------------------------------ *)
(** * C52: building the rules *)

Example edge_ruleset : exists c rs, load FAbsent (with_rules (lit "filter") edge_rules) = LoadOk c /\
  RuleSetFromConfig engine c = RsOk rs /\ rs = [mkRule (MBasic (lit "cpu")) (lit "hot"); mkRule (MTags [(lit "env", lit "prod")]) (lit "prod")].
Proof. do 2 eexists. split; [vm_compute; reflexivity|]. split; [vm_compute; reflexivity|reflexivity]. Qed.

(** The rule set is built exactly when every entry stands for a rule, and consists of these rules in order. *)
Theorem C52_rules : forall compile c rs, RuleSetFromConfig compile c = RsOk rs <-> Forall2 (rule_for compile) (c_rules c) rs.
Proof. exact rs_ok. Qed.
Print Assumptions C52_rules.

(** It panics exactly when an expression that does not compile, or a tag with fewer than two texts, is reached. *)
Theorem C52_panics : forall compile c, RuleSetFromConfig compile c = RsPanic <->
  exists a r b, c_rules c = a ++ r :: b /\ explosive compile r /\ Forall (fun r => known_type r /\ ~ explosive compile r) a.
Proof. exact rs_panic. Qed.
Print Assumptions C52_panics.

(** In a validated filter only an expression that does not compile can panic. *)
Theorem C52_filter_partial : forall compile c, valid c -> c_mode c = lit "filter" -> RuleSetFromConfig compile c = RsPanic ->
  exists r, In r (c_rules c) /\ (cr_type r = lit "regex" \/ cr_type r = lit "negregex") /\ compile (cr_match r) = None.
Proof. exact filter_panic. Qed.
Print Assumptions C52_filter_partial.

(** "No accepted configuration panics" is false: a filter with a malformed expression ... *)
Theorem C52_filter_refuted : ~ (forall c, Validate c = None -> c_mode c = lit "filter" -> RuleSetFromConfig engine c <> RsPanic).
Proof.
  intros H. destruct (load FAbsent (with_rules (lit "filter") [regex_rule (lit "cpu(") (lit "hot")])) as [|c] eqn:E; [discriminate E|].
  apply (H c); vm_compute in E; inversion E; subst; vm_compute; reflexivity.
Qed.
Print Assumptions C52_filter_refuted.

(** ... and a writer with a tag that is not a pair: a rule the filter's validation would reject. *)
Theorem C52_writer_refuted : ~ (forall c, Validate c = None -> c_mode c = lit "writer" -> RuleSetFromConfig (fun _ => Some (fun _ => true)) c <> RsPanic).
Proof.
  intros H. destruct (load FAbsent (with_rules (lit "writer") [PRule (Some (lit "tags")) (Some (lit "x")) (Some [[lit "env"]]) None])) as [|c] eqn:E; [discriminate E|].
  apply (H c); vm_compute in E; inversion E; subst; vm_compute; reflexivity.
Qed.
Print Assumptions C52_writer_refuted.

(* ------------------------------------------------------------------ *)
(** * C53: where values come from *)

(** A common file sets the workers, the file the mode; the rest are defaults. *)
Example precedence : exists c, NewConfigFromFile toml_rules (FOk (with_workers (lit "filter") 3)) (FOk (with_mode (lit "listener"))) (lit "conf/in.x.toml") [] [] = LoadOk c /\
  c_mode c = lit "listener" /\ c_workers c = 3 /\ c_port c = 10001 /\ c_batch_size c = 1048576 /\ c_name c = lit "in.x".
Proof. eexists. split; [vm_compute; reflexivity|]. repeat split; reflexivity. Qed.

(** Loading succeeds exactly when the file can be read and the common file can be read or does not exist, a mode is set
    and the resulting values are valid; the result has for every option the file's value, else the common file's, else
    the default. *)
Theorem C53_load : forall dec common file fileName user pass c, decodes dec ->
  NewConfigFromFile dec common file fileName user pass = LoadOk c <->
  exists f g, common_options common g /\ file = FOk f /\ stands_for dec f g fileName user pass c /\ c_mode c <> [] /\ valid c.
Proof. exact load_iff. Qed.
Print Assumptions C53_load.

(** The values of the options determine the configuration. *)
Theorem C53_determined : forall dec f g fileName user pass c c',
  stands_for dec f g fileName user pass c -> stands_for dec f g fileName user pass c' -> c = c'.
Proof. exact stands_for_unique. Qed.
Print Assumptions C53_determined.

(** The TOML library decodes rules into an empty list as expected (the hypothesis of C53_load). *)
Theorem C53_decodes : decodes toml_rules.
Proof. exact toml_decodes. Qed.
Print Assumptions C53_decodes.

(** The file's rules replace those of the common file when there are more of them ... *)
Theorem C53_rules_partial : forall old ps, (length old < length ps)%nat -> toml_rules old ps = map rule_of ps.
Proof. exact toml_long. Qed.
Print Assumptions C53_rules_partial.

(** ... but not in general: the keys a rule does not set are taken from the rule at the same place of the common file.
    The file's tags rule inherits a 'match', and is rejected although it is complete. *)
Theorem C53_rules_refuted :
  ~ (forall ps qs c, load (FOk (with_rules (lit "filter") qs)) (with_rules (lit "filter") ps) = LoadOk c -> c_rules c = map rule_of ps) /\
  (exists ps qs, load FAbsent (with_rules (lit "filter") ps) <> LoadErr /\ load FAbsent (with_rules (lit "filter") qs) <> LoadErr /\
     load (FOk (with_rules (lit "filter") qs)) (with_rules (lit "filter") ps) = LoadErr).
Proof.
  split.
  - intros H. specialize (H [PRule (Some (lit "regex")) (Some (lit "a")) None None] [basic_rule (lit "cpu") (lit "hot")]).
    destruct (load (FOk (with_rules (lit "filter") [basic_rule (lit "cpu") (lit "hot")])) (with_rules (lit "filter") [PRule (Some (lit "regex")) (Some (lit "a")) None None])) as [|c] eqn:E; [vm_compute in E; discriminate E|].
    specialize (H c eq_refl). vm_compute in E. inversion E; subst. vm_compute in H. discriminate H.
  - exists [tags_rule [[lit "env"; lit "prod"]] (lit "prod")], [basic_rule (lit "cpu") (lit "hot")].
    split; [vm_compute; discriminate|]. split; [vm_compute; discriminate|]. vm_compute. reflexivity.
Qed.
Print Assumptions C53_rules_refuted.

(* ------------------------------------------------------------------ *)
(** * C63: an accepted configuration gives a working component *)

(** Every accepted mode is one the program can run. *)
Theorem C63_mode : forall c, valid c -> runMode (c_mode c) <> None.
Proof. exact run_known. Qed.
Print Assumptions C63_mode.

(** How many goroutines serve incoming messages: the start panics exactly for a writer with a negative number of
    workers, and nobody serves them exactly in a filter with at most zero workers and a downsampler without subjects. *)
Theorem C63_workers_partial : forall c procs, valid c -> 1 <= procs ->
  (workersStarted c procs = None <-> c_mode c = lit "writer" /\ c_workers c < 0) /\
  (workersStarted c procs = Some 0 <-> c_mode c = lit "filter" /\ c_workers c <= 0 \/ c_mode c = lit "downsampler" /\ c_subjects c = []).
Proof. exact workers_iff. Qed.
Print Assumptions C63_workers_partial.

(** Such configurations are accepted: "an accepted configuration gives a component that processes messages" is false;
    so is "the period of an accepted downsampler is positive". *)
Theorem C63_refuted :
  (exists c, load FAbsent (with_workers (lit "filter") 0) = LoadOk c /\ workersStarted c 4 = Some 0) /\
  (exists c, load FAbsent (with_workers (lit "writer") (-1)) = LoadOk c /\ workersStarted c 4 = None) /\
  (exists c, load FAbsent (with_period (lit "downsampler") (-1000000000)) = LoadOk c /\ c_period c = -1000000000).
Proof. split; [|split]; eexists; (split; [vm_compute; reflexivity|reflexivity]). Qed.
Print Assumptions C63_refuted.

(** A writer whose workers are not set uses two per processor. *)
Example writer_default_workers : exists c, load FAbsent (with_workers (lit "writer") 0) = LoadOk c /\ workersStarted c 4 = Some 8.
Proof. eexists. split; [vm_compute; reflexivity|reflexivity]. Qed.

(* ------------------------------------------------------------------ *)
(** * C64: the name of a component *)

(** Without a name option the component is named after the file, without directory and extension. *)
Theorem C64_name : forall dir stem ext, ~ In slash stem -> ~ In slash ext -> ~ In dot ext ->
  (dir = [] \/ exists d, dir = d ++ [slash]) -> pathToConfigName (dir ++ stem ++ dot :: ext) = stem.
Proof. exact name_with_ext. Qed.
Print Assumptions C64_name.
Theorem C64_name_no_extension : forall dir file, file <> [] -> ~ In slash file -> ~ In dot file ->
  (dir = [] \/ exists d, dir = d ++ [slash]) -> pathToConfigName (dir ++ file) = file.
Proof. exact name_without_ext. Qed.
Print Assumptions C64_name_no_extension.
Example names : pathToConfigName (lit "/etc/spout/edge.v2.toml") = lit "edge.v2" /\ pathToConfigName (lit "spout") = lit "spout".
Proof. split; reflexivity. Qed.

(* ------------------------------------------------------------------ *)
(** * C65: batch sizes *)

(** The batch size is positive and, in a listener, at most what a NATS message can hold. *)
Theorem C65_batch_size : forall dec common file fileName user pass c, decodes dec ->
  NewConfigFromFile dec common file fileName user pass = LoadOk c ->
  (forall g, (common = FOk g \/ file = FOk g) -> forall z, p_batch_size g = Some z -> 0 <= z) ->
  1 <= c_batch_size c /\ (is_listener c -> c_batch_size c <= 1048576).
Proof. exact load_batch_size. Qed.
Print Assumptions C65_batch_size.
Example batch_sizes :
  (exists c, load FAbsent (with_batch_size (lit "writer") 0) = LoadOk c /\ c_batch_size c = 10485760) /\
  load FAbsent (with_batch_size (lit "listener_http") 1048577) = LoadErr /\
  (exists c, load FAbsent (with_batch_size (lit "listener_http") 1048576) = LoadOk c /\ c_batch_size c = 1048576).
Proof. split; [|split]; try (eexists; split; [vm_compute; reflexivity|reflexivity]). vm_compute. reflexivity. Qed.

(* ------------------------------------------------------------------ *)
(** * C54: probes

    [life c s ks] is what can be observed of a component: the steps it made and the replies to probe requests, for the
    scheduler's decisions [ks]; [s] says whether starting succeeds. *)

Definition M : pick := Step Main.
Definition S : pick := Step Spawned.
Example filter_life : life Config.Filter StartsOk [M; Request Readyz; M; Request Readyz; M; Request Readyz; M; M; Request Readyz; Request Healthz; M; Request Healthz; M; M; Request Readyz] =
  [Did Main IListen; Reply Readyz 503; Did Main (IReady true); Reply Readyz 200; Did Main IReturned; Reply Readyz 200;
   Did Main IStop; Did Main (IReady false); Reply Readyz 503; Reply Healthz 200; Did Main (IAlive false); Reply Healthz 503; Did Main IWait; Did Main IClose].
Proof. reflexivity. Qed.
Example listener_life : life Config.Listener StartsOk [M; M; M; Request Readyz; S; Request Readyz; M; M; Request Readyz] =
  [Did Main IListen; Did Main ISpawn; Did Main IReturned; Reply Readyz 503; Did Spawned (IReady true); Reply Readyz 200;
   Did Main IStop; Did Main (IReady false); Reply Readyz 503].
Proof. reflexivity. Qed.

(** Ready is only answered by a component whose start succeeds, after it declared itself ready. *)
Theorem C54_ready_means : forall c s ks a b, life c s ks = a ++ Reply Readyz 200 :: b ->
  s = StartsOk /\ (In (Did Main (IReady true)) a \/ In (Did Spawned (IReady true)) a).
Proof. exact ready_means. Qed.
Print Assumptions C54_ready_means.

(** Filter, downsampler, writer: from Start's return to Stop every probe is answered 200. *)
Theorem C54_up : forall c ks a p code b, direct c -> life c StartsOk ks = a ++ Reply p code :: b ->
  In (Did Main IReturned) a -> ~ In (Did Main IStop) a -> code = 200.
Proof. exact direct_up. Qed.
Print Assumptions C54_up.

(** Once Stop has cleared the readiness, 503. *)
Theorem C54_down : forall c s ks a code b, direct c -> life c s ks = a ++ Reply Readyz code :: b ->
  In (Did Main (IReady false)) a -> code = 503.
Proof. exact direct_down. Qed.
Print Assumptions C54_down.

(** All components: from the report of the listening goroutine to Stop every probe is answered 200 ... *)
Theorem C54_spawned_up : forall c ks a1 a2 p code b,
  life c StartsOk ks = a1 ++ Did Spawned (IReady true) :: a2 ++ Reply p code :: b ->
  ~ In (Did Main IStop) a1 -> ~ In (Did Main IStop) a2 -> code = 200.
Proof. exact spawned_up. Qed.
Print Assumptions C54_spawned_up.

(** ... and 503 once Stop cleared it, provided the goroutine had reported before. *)
Theorem C54_spawned_down_partial : forall c ks a1 a2 code b,
  life c StartsOk ks = a1 ++ Did Spawned (IReady true) :: a2 ++ Reply Readyz code :: b ->
  In (Did Main (IReady false)) a2 -> code = 503.
Proof. exact spawned_down. Qed.
Print Assumptions C54_spawned_down_partial.

(** Without the proviso it is false: the goroutine reports ready after Stop cleared it, and the probe answers 200 to
    the end. *)
Theorem C54_late_ready_refuted : forall c, c = Config.Listener \/ c = Config.HTTPListener \/ c = Config.Monitor ->
  exists ks a b, life c StartsOk ks = a ++ Reply Readyz 200 :: b /\ In (Did Main (IReady false)) a.
Proof.
  intros c H. exists [M; M; M; M; M; S; M; M; Request Readyz; M],
    [Did Main IListen; Did Main ISpawn; Did Main IReturned; Did Main IStop; Did Main (IReady false); Did Spawned (IReady true); Did Main (IAlive false); Did Main IWait], [Did Main IClose].
  split; [|cbn; auto 10]. destruct H as [->|[->| ->]]; reflexivity.
Qed.
Print Assumptions C54_late_ready_refuted.

(** The UDP listener's Stop waits for its goroutine: nothing is reported any more once it has.  The HTTP servers' goroutines
    are not waited for and may report even after Stop has returned (to a closed probe server). *)
Theorem C54_waited : forall ks s a i b, life Config.Listener s ks = a ++ Did Spawned i :: b -> ~ In (Did Main IWait) a.
Proof.
  intros ks s a i b E Hw. rewrite app_cons_last in E. destruct (life_prefix _ _ _ _ _ E) as (k & Ek).
  exact (listener_waited k s a i Ek Hw).
Qed.
Print Assumptions C54_waited.
Theorem C54_unwaited : forall c, c = Config.HTTPListener \/ c = Config.Monitor ->
  exists ks a, life c StartsOk ks = a ++ [Did Spawned (IReady true)] /\ In (Did Main IClose) a.
Proof.
  intros c H. exists [M; M; M; M; M; M; M; M; S],
    [Did Main IListen; Did Main ISpawn; Did Main IReturned; Did Main IStop; Did Main (IReady false); Did Main (IAlive false); Did Main IWait; Did Main IClose].
  split; [|cbn; auto 10]. destruct H as [->| ->]; reflexivity.
Qed.
Print Assumptions C54_unwaited.

(** Alive from the first reply on until Stop clears it, for every component and also when starting fails. *)
Theorem C54_alive : forall c s ks a code b, life c s ks = a ++ Reply Healthz code :: b ->
  (code = 200 /\ ~ In (Did Main (IAlive false)) a) \/ (code = 503 /\ In (Did Main (IAlive false)) a).
Proof. exact healthz. Qed.
Print Assumptions C54_alive.

(** Nothing is answered once the probe server is closed. *)
Theorem C54_closed : forall c s ks a p code b, life c s ks = a ++ Reply p code :: b -> ~ In (Did Main IClose) a.
Proof. exact closed. Qed.
Print Assumptions C54_closed.

(** A failed start has closed the probe server, except a listener's ... *)
Theorem C54_failed_partial : forall c s ks, In (Did Main IFailed) (life c s ks) ->
  In (Did Main IClose) (life c s ks) \/ (c = Config.Listener /\ s = FailsEarly) \/ c = Config.HTTPListener.
Proof. exact failed_closed. Qed.
Print Assumptions C54_failed_partial.

(** ... which keeps answering that it is alive (and keeps the port occupied). *)
Theorem C54_failed_refuted : forall c, c = Config.Listener \/ c = Config.HTTPListener ->
  exists ks a b, life c FailsEarly ks = a ++ Reply Healthz 200 :: b /\ In (Did Main IFailed) a.
Proof.
  intros c H. exists [M; M; Request Healthz], [Did Main IListen; Did Main IFailed], [].
  split; [|cbn; auto]. destruct H as [->| ->]; reflexivity.
Qed.
Print Assumptions C54_failed_refuted.
