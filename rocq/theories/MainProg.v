(** Model of the program: cmd/influx-spout/main.go, from the command line to the running component. *)
From Verif Require Import Base Rules Config ConfigSpec ConfigProofs ConfigLoad ConfigRules StartStop Pending.
Local Open Scope Z_scope.

(** How a run of the program begins: a usage message and exit status 1 (main.go:53-75), log.Fatalf and exit status 1 (44-46),
    a panic and exit status 2, or the component runs: which, with how many workers and what configuration, and whether
    the profiling server was started (87-95; if its port cannot be used this is only logged). *)
Inductive prog :=
| UsageExit
| LoadFatal
| StartFatal
| PanicExit
| Runs (comp : component) (workers : Z) (c : cfg) (pprof : bool).

Definition exit_status (p : prog) : option Z :=
  match p with UsageExit | LoadFatal | StartFatal => Some 1 | PanicExit => Some 2 | Runs _ _ _ _ => None end.

(** Whether the component builds a rule set (filter/filter.go:57, writer/writer.go:73). *)
Definition builds_rules (comp : component) : bool := match comp with Config.Filter | Config.Writer => true | _ => false end.

(** What the start's calls do: the rule set and the limits as the configuration says, the others as [fails] says. *)
Definition outcome_of (compile : bytes -> option (bytes -> bool)) (c : cfg) (fails : call -> bool) : call -> bool :=
  fun k => match k with
           | CRules => match RuleSetFromConfig compile c with RsErr => true | _ => false end
           | _ => with_limits (c_max_pending c) fails k
           end.

(** cmd/influx-spout/main.go:97-121 with the Start functions.  The rule set comes first, so its panic cannot be avoided by an
    earlier failure; a negative number of workers panics after the connection was made (writer/writer.go:78-84). *)
Definition start_mode (compile : bytes -> option (bytes -> bool)) (procs : Z) (fails : call -> bool) (c : cfg) : prog :=
  match runMode (c_mode c) with
  | None => StartFatal
  | Some comp =>
      match (if builds_rules comp then RuleSetFromConfig compile c else RsOk []) with
      | RsPanic => PanicExit
      | _ =>
          let f := outcome_of compile c fails in
          match workersStarted c procs with
          | None => if f CRules || f CConnect then StartFatal else PanicExit
          | Some n =>
              match start comp (Z.to_nat n) (length (c_subjects c)) f with
              | SOk _ => Runs comp n c (0 <? c_pprof_port c)
              | SFailed _ => StartFatal
              | SPanicked => PanicExit
              end
          end
      end
  end.

(** cmd/influx-spout/main.go:39-59 main and getConfigFileName, 82-122 runComponent.  [args]: the command line after the program's
    name; [files]: what reading a file finds; [procs]: GOMAXPROCS; [fails]: which calls on the network fail. *)
Definition program (dec : rules_decoder) (compile : bytes -> option (bytes -> bool)) (files : bytes -> fileread) (user pass : bytes)
    (procs : Z) (fails : call -> bool) (args : list bytes) : prog :=
  match args with
  | [fn] =>
      match NewConfigFromFile dec (files (lit "/etc/influx-spout.toml")) (files fn) fn user pass with
      | LoadErr => LoadFatal
      | LoadOk c => start_mode compile procs fails c
      end
  | _ => UsageExit
  end.

(* ------------------------------------------------------------------ *)
(** * Specification *)

Definition names : list (bytes * component) :=
  [(lit "listener", Config.Listener); (lit "listener_http", Config.HTTPListener); (lit "filter", Config.Filter);
   (lit "downsampler", Config.Downsampler); (lit "writer", Config.Writer); (lit "monitor", Config.Monitor)].

(** The number of goroutines a component processes messages with. *)
Definition worker_count (comp : component) (c : cfg) (procs n : Z) : Prop :=
  match comp with
  | Config.Filter => n = Z.max 0 (c_workers c)
  | Config.Downsampler => n = Z.of_nat (length (c_subjects c))
  | Config.Writer => n = (if c_workers c =? 0 then 2 * procs else c_workers c) /\ 0 <= c_workers c
  | _ => n = 1
  end.

(** The configuration file, with the common one, gives this configuration. *)
Definition configured (dec : rules_decoder) (files : bytes -> fileread) (user pass fn : bytes) (c : cfg) : Prop :=
  exists f g, common_options (files (lit "/etc/influx-spout.toml")) g /\ files fn = FOk f /\ stands_for dec f g fn user pass c /\ c_mode c <> [] /\ valid c.

(** Nothing on the network fails that the start needs: everything but building rules and setting limits. *)
Definition network_ok (fails : call -> bool) (comp : component) (n : Z) (c : cfg) : Prop :=
  forall k, In k (needs comp (Z.to_nat n) (length (c_subjects c))) -> k <> CRules -> (forall i, k <> CLimits i) -> fails k = false.

(** Rules that can be built, when they are needed. *)
Definition rules_ok (compile : bytes -> option (bytes -> bool)) (comp : component) (c : cfg) : Prop :=
  comp = Config.Filter \/ comp = Config.Writer -> exists rs, Forall2 (rule_for compile) (c_rules c) rs.

(** A limit that is not zero, when it is set for some subject. *)
Definition pending_ok (comp : component) (c : cfg) : Prop :=
  comp = Config.Filter \/ ((comp = Config.Downsampler \/ comp = Config.Writer) /\ c_subjects c <> []) -> c_max_pending c <> 0.

(* ------------------------------------------------------------------ *)
(** * Proofs *)

Lemma mode_names m comp : runMode m = Some comp <-> In (m, comp) names.
Proof.
  unfold runMode, names. split.
  - repeat (match goal with |- context [beqs m ?x] => destruct (beqs m x) eqn:? end; [match goal with H : beqs _ _ = true |- _ => apply beqs_eq in H; subst m end; intros E; injection E as <-; cbn; tauto|]).
    discriminate.
  - cbn [In]. intros H. repeat destruct H as [H|H]; try (injection H as <- <-; reflexivity). destruct H.
Qed.

Lemma workers_count comp c procs n : runMode (c_mode c) = Some comp -> 0 <= procs ->
  (workersStarted c procs = Some n <-> worker_count comp c procs n).
Proof.
  intros R P. unfold workersStarted, worker_count. rewrite R. destruct comp; try (split; [intros E; injection E as <-; reflexivity|intros ->; reflexivity]).
  cbv zeta. destruct (Z.eqb_spec (c_workers c) 0) as [E|E].
  - destruct (Z.ltb_spec (procs * 2) 0); [lia|]. rewrite E. split; [intros X; injection X as <-; lia|intros [-> _]; f_equal; lia].
  - destruct (Z.ltb_spec (c_workers c) 0); [split; [discriminate|lia]|]. split; [intros X; injection X as <-; lia|intros [-> _]; reflexivity].
Qed.

Lemma no_start_panic comp w n f : start comp w n f <> SPanicked.
Proof.
  intros E. destruct comp.
  - pose proof (listener_start w n f) as X. rewrite E in X. exact X.
  - pose proof (http_listener_start w n f) as X. rewrite E in X. exact X.
  - pose proof (failed_start_clean Config.Filter w n f) as X. rewrite E in X. apply X; discriminate.
  - pose proof (failed_start_clean Config.Downsampler w n f) as X. rewrite E in X. apply X; discriminate.
  - pose proof (failed_start_clean Config.Writer w n f) as X. rewrite E in X. apply X; discriminate.
  - pose proof (failed_start_clean Config.Monitor w n f) as X. rewrite E in X. apply X; discriminate.
Qed.

Lemma limit_zero size : 0 <= size < two64 -> limit_rejected (pending_limit size) = false <-> size <> 0.
Proof.
  intros B. unfold limit_rejected, pending_limit. pose proof (wrap64_zero size B) as W. destruct (Z.eqb_spec (wrap64 size) 0); split; intros; try discriminate; try tauto; reflexivity.
Qed.

Lemma needs_ok compile fails comp n c : 0 <= c_max_pending c < two64 -> builds_rules comp = false \/ (exists rs, RuleSetFromConfig compile c = RsOk rs) \/ RuleSetFromConfig compile c = RsErr ->
  valid c -> runMode (c_mode c) = Some comp ->
  (Forall (fun k => outcome_of compile c fails k = false) (needs comp (Z.to_nat n) (length (c_subjects c))) <->
   network_ok fails comp n c /\ rules_ok compile comp c /\ pending_ok comp c).
Proof.
  intros B RR V RM. rewrite Forall_forall. unfold network_ok, rules_ok, pending_ok. split.
  - intros H. split; [|split].
    + intros k Hk N1 N2. specialize (H k Hk). unfold outcome_of, with_limits in H. destruct k; try exact H; [destruct (N1 eq_refl)|destruct (N2 i eq_refl)].
    + intros Hc. assert (Hi : In CRules (needs comp (Z.to_nat n) (length (c_subjects c)))) by (destruct Hc as [-> | ->]; left; reflexivity).
      specialize (H _ Hi). cbn [outcome_of] in H. destruct RR as [RR|[(rs & RR)|RR]].
      * destruct Hc as [-> | ->]; discriminate RR.
      * exists rs. apply rs_ok. exact RR.
      * rewrite RR in H. discriminate H.
    + intros Hc. apply limit_zero; [exact B|].
      assert (Hi : In (CLimits 0) (needs comp (Z.to_nat n) (length (c_subjects c)))).
      { destruct Hc as [->|[Hc Hs]]; [cbn [needs]; rewrite in_app_iff; left; cbn; tauto|].
        assert (1 <= length (c_subjects c))%nat by (destruct (c_subjects c); [congruence|cbn; lia]).
        apply limits_needed; [unfold limited; tauto|assumption]. }
      specialize (H _ Hi). exact H.
  - intros (N & Ru & Pe) k Hk. unfold outcome_of, with_limits. destruct k as [| | | |i| | | |]; try (apply N; [exact Hk|discriminate|intros; discriminate]).
    + assert (Hc : comp = Config.Filter \/ comp = Config.Writer).
      { destruct comp; auto; exfalso; cbn [needs] in Hk; repeat rewrite in_app_iff in Hk; cbn [In] in Hk; repeat (destruct Hk as [Hk|Hk]; try discriminate Hk); try (apply in_map_iff in Hk; destruct Hk as (? & X & _); discriminate X); try destruct Hk. }
      destruct (Ru Hc) as (rs & F). apply rs_ok in F. rewrite F. reflexivity.
    + apply limit_zero; [exact B|]. apply Pe.
      destruct comp; auto; try (exfalso; cbn [needs In] in Hk; repeat (destruct Hk as [Hk|Hk]; try discriminate Hk); destruct Hk; fail); right.
      * split; [auto|]. intros E. rewrite E in Hk. cbn [length seq map needs app In] in Hk. repeat (destruct Hk as [Hk|Hk]; try discriminate Hk). destruct Hk.
      * split; [auto|]. intros E. rewrite E in Hk. cbn [length seq map needs app In] in Hk. repeat (destruct Hk as [Hk|Hk]; try discriminate Hk). destruct Hk.
Qed.

Section Program.
  Variables (dec : rules_decoder) (compile : bytes -> option (bytes -> bool)) (files : bytes -> fileread) (user pass : bytes) (procs : Z) (fails : call -> bool).
  Hypothesis Hdec : decodes dec.
  Hypothesis Hprocs : 0 <= procs.

  Lemma load_configured fn c : NewConfigFromFile dec (files (lit "/etc/influx-spout.toml")) (files fn) fn user pass = LoadOk c <-> configured dec files user pass fn c.
  Proof. apply load_iff. exact Hdec. Qed.

  Lemma start_runs c comp n b : valid c -> 0 <= c_max_pending c < two64 ->
    (start_mode compile procs fails c = Runs comp n c b <->
     In (c_mode c, comp) names /\ worker_count comp c procs n /\ rules_ok compile comp c /\ pending_ok comp c /\ network_ok fails comp n c /\ (b = true <-> 0 < c_pprof_port c)).
  Proof.
    intros V B. rewrite <- mode_names. unfold start_mode. destruct (runMode (c_mode c)) as [comp'|] eqn:R; [|split; [discriminate|intros [X _]; discriminate X]].
    assert (Pb : forall x, (0 <? c_pprof_port c) = x <-> (x = true <-> 0 < c_pprof_port c)) by (intros x; destruct (Z.ltb_spec 0 (c_pprof_port c)); destruct x; split; intros; try tauto; try lia; try discriminate; intuition; try lia; try discriminate).
    split.
    - intros H. assert (RR : builds_rules comp' = false \/ (exists rs, RuleSetFromConfig compile c = RsOk rs) \/ RuleSetFromConfig compile c = RsErr).
      { destruct (builds_rules comp'); [|auto]. right. destruct (RuleSetFromConfig compile c) as [| |rs]; [auto|discriminate H|eauto]. }
      assert (H' : (match workersStarted c procs with
          | None => if outcome_of compile c fails CRules || outcome_of compile c fails CConnect then StartFatal else PanicExit
          | Some n => match start comp' (Z.to_nat n) (length (c_subjects c)) (outcome_of compile c fails) with
              | SOk _ => Runs comp' n c (0 <? c_pprof_port c) | SFailed _ => StartFatal | SPanicked => PanicExit end
          end) = Runs comp n c b) by (destruct (if builds_rules comp' then RuleSetFromConfig compile c else RsOk []); [exact H|discriminate H|exact H]).
      clear H. destruct (workersStarted c procs) as [n'|] eqn:W; [|destruct (_ || _); discriminate H'].
      destruct (start comp' (Z.to_nat n') (length (c_subjects c)) (outcome_of compile c fails)) as [h| |] eqn:S1; try discriminate H'.
      pose proof (f_equal (fun x => match x with Runs a b c d => (a, (b, d)) | _ => (Config.Filter, (0, true)) end) H') as X. cbn in X. injection X as E1 E2 E3. subst comp' n'.
      assert (N : exists h, start comp (Z.to_nat n) (length (c_subjects c)) (outcome_of compile c fails) = SOk h) by eauto. rewrite start_ok in N.
      apply (needs_ok compile fails comp n c B RR V R) in N. apply (workers_count comp c procs n R Hprocs) in W. apply Pb in E3. tauto.
    - intros (E & W & Ru & Pe & Ne & Eb). injection E as <-. apply Pb in Eb.
      assert (RR : builds_rules comp' = false \/ (exists rs, RuleSetFromConfig compile c = RsOk rs)).
      { destruct (builds_rules comp') eqn:Br; [|auto]. right. destruct Ru as (rs & F); [destruct comp'; try discriminate Br; auto|]. exists rs. apply rs_ok. exact F. }
      assert (N : Forall (fun k => outcome_of compile c fails k = false) (needs comp' (Z.to_nat n) (length (c_subjects c)))).
      { apply needs_ok; [exact B|tauto|exact V|exact R|tauto]. }
      apply start_ok in N. destruct N as (h & N). apply (workers_count comp' c procs n R Hprocs) in W. rewrite W, N, Eb.
      destruct RR as [-> | (rs & RR)]; [reflexivity|]. rewrite RR. destruct (builds_rules comp'); reflexivity.
  Qed.

  (** The crash: rules that panic, or a writer with a negative number of workers that gets as far as starting them. *)
  Lemma start_panics c : valid c ->
    (start_mode compile procs fails c = PanicExit <->
     ((c_mode c = lit "filter" \/ c_mode c = lit "writer") /\
        exists a r b, c_rules c = a ++ r :: b /\ explosive compile r /\ Forall (fun r => known_type r /\ ~ explosive compile r) a) \/
     (c_mode c = lit "writer" /\ c_workers c < 0 /\ (exists rs, Forall2 (rule_for compile) (c_rules c) rs) /\ fails CConnect = false)).
  Proof.
    intros V. unfold start_mode. destruct (runMode (c_mode c)) as [comp|] eqn:R; [|destruct (run_known c V R)].
    pose proof R as Rn. apply mode_names in Rn.
    assert (Br : builds_rules comp = true <-> (c_mode c = lit "filter" \/ c_mode c = lit "writer")).
    { cbn [names In] in Rn. destruct Rn as [X|[X|[X|[X|[X|[X|[]]]]]]]; injection X as <- <-; cbn [builds_rules]; split; intros Y; try reflexivity; try discriminate Y; auto; destruct Y as [Y|Y]; discriminate Y. }
    assert (Bw : c_mode c = lit "writer" -> comp = Config.Writer) by (intros E; rewrite E in R; injection R as <-; reflexivity).
    assert (Wn : workersStarted c procs = None <-> c_mode c = lit "writer" /\ c_workers c < 0).
    { unfold workersStarted. rewrite R. split.
      - destruct comp; try discriminate. cbv zeta. destruct (Z.eqb_spec (c_workers c) 0) as [E|E]; destruct (Z.ltb_spec (if false then 0 else c_workers c) 0); intros X.
        + lia.
        + destruct (Z.ltb_spec (procs * 2) 0); [lia|discriminate X].
        + split; [|assumption]. cbn [names In] in Rn. destruct Rn as [Y|[Y|[Y|[Y|[Y|[Y|[]]]]]]]; try discriminate Y. injection Y as <-. reflexivity.
        + destruct (Z.ltb_spec (c_workers c) 0); [lia|discriminate X].
      - intros [E L]. rewrite (Bw E). cbv zeta. destruct (Z.eqb_spec (c_workers c) 0); [lia|]. destruct (Z.ltb_spec (c_workers c) 0); [reflexivity|lia]. }
    assert (Body : (match workersStarted c procs with
          | None => if outcome_of compile c fails CRules || outcome_of compile c fails CConnect then StartFatal else PanicExit
          | Some n => match start comp (Z.to_nat n) (length (c_subjects c)) (outcome_of compile c fails) with
              | SOk _ => Runs comp n c (0 <? c_pprof_port c) | SFailed _ => StartFatal | SPanicked => PanicExit end
          end) = PanicExit <-> c_mode c = lit "writer" /\ c_workers c < 0 /\ RuleSetFromConfig compile c <> RsErr /\ fails CConnect = false).
    { destruct (workersStarted c procs) as [n|] eqn:W.
      - split; [|intros (E & L & _); assert (X : Some n = None) by (apply Wn; auto); discriminate X].
        destruct (start comp (Z.to_nat n) (length (c_subjects c)) (outcome_of compile c fails)) eqn:S1; try discriminate. exfalso. exact (no_start_panic _ _ _ _ S1).
      - destruct Wn as [Wn _]. destruct (Wn eq_refl) as [E L]. cbn [outcome_of with_limits].
        destruct (RuleSetFromConfig compile c); cbn [orb]; [split; [discriminate|intros (_ & _ & X & _); congruence]| |];
          (destruct (fails CConnect); split; [discriminate|intros (_ & _ & _ & X); discriminate X| |reflexivity]); intros _; (split; [exact E|]); (split; [exact L|]); (split; [discriminate|reflexivity]). }
    rewrite <- rs_panic. destruct (builds_rules comp) eqn:Bc.
    - assert (Mf : c_mode c = lit "filter" \/ c_mode c = lit "writer") by (apply Br; reflexivity).
      destruct (RuleSetFromConfig compile c) as [| |rs] eqn:Rs.
      + rewrite Body. split; [intros (_ & _ & X & _); congruence|]. intros [[_ X]|(_ & _ & (rs & F) & _)]; [discriminate X|]. apply rs_ok in F. congruence.
      + split; [intros _; left; split; [exact Mf|reflexivity]|reflexivity].
      + rewrite Body. split.
        * intros (E & L & _ & Cn). right. split; [exact E|]. split; [exact L|]. split; [exists rs; apply rs_ok; exact Rs|exact Cn].
        * intros [[_ X]|(E & L & _ & Cn)]; [discriminate X|]. split; [exact E|]. split; [exact L|]. split; [discriminate|exact Cn].
    - rewrite Body. assert (Nw : ~ (c_mode c = lit "filter" \/ c_mode c = lit "writer")) by (rewrite <- Br; discriminate). tauto.
  Qed.

  Lemma program_runs args comp n c b : 0 <= c_max_pending c < two64 ->
    (program dec compile files user pass procs fails args = Runs comp n c b <->
     exists fn, args = [fn] /\ configured dec files user pass fn c /\ In (c_mode c, comp) names /\ worker_count comp c procs n /\
       rules_ok compile comp c /\ pending_ok comp c /\ network_ok fails comp n c /\ (b = true <-> 0 < c_pprof_port c)).
  Proof.
    intros B. unfold program. destruct args as [|fn [|a args]]; [split; [discriminate|intros (fn & X & _); discriminate X]| |split; [discriminate|intros (x & X & _); discriminate X]].
    destruct (NewConfigFromFile dec (files (lit "/etc/influx-spout.toml")) (files fn) fn user pass) as [|c'] eqn:L.
    - split; [discriminate|]. intros (fn' & E & Cf & _). injection E as <-. apply load_configured in Cf. congruence.
    - pose proof L as L'. apply load_configured in L'. pose proof L' as (f0 & g0 & _ & _ & _ & _ & V). split.
      + intros H. assert (c' = c).
        { unfold start_mode in H. destruct (runMode (c_mode c')) as [comp'|]; [|discriminate H]. destruct (if builds_rules comp' then _ else _); try discriminate H;
            (destruct (workersStarted c' procs); [|destruct (_ || _); discriminate H]); (destruct (start _ _ _ _); try discriminate H);
            exact (f_equal (fun x => match x with Runs _ _ x _ => x | _ => c' end) H). }
        subst c'. exists fn. split; [reflexivity|]. split; [exact L'|]. apply start_runs; auto.
      + intros (fn' & E & Cf & H). injection E as <-. apply load_configured in Cf. rewrite L in Cf. injection Cf as ->. apply start_runs; auto.
  Qed.

  Lemma program_panics args : program dec compile files user pass procs fails args = PanicExit <->
    exists fn c, args = [fn] /\ configured dec files user pass fn c /\
     (((c_mode c = lit "filter" \/ c_mode c = lit "writer") /\
        exists a r b, c_rules c = a ++ r :: b /\ explosive compile r /\ Forall (fun r => known_type r /\ ~ explosive compile r) a) \/
      (c_mode c = lit "writer" /\ c_workers c < 0 /\ (exists rs, Forall2 (rule_for compile) (c_rules c) rs) /\ fails CConnect = false)).
  Proof.
    unfold program. destruct args as [|fn [|a args]]; [split; [discriminate|intros (fn & c & X & _); discriminate X]| |split; [discriminate|intros (x & c & X & _); discriminate X]].
    destruct (NewConfigFromFile dec (files (lit "/etc/influx-spout.toml")) (files fn) fn user pass) as [|c'] eqn:L.
    - split; [discriminate|]. intros (fn' & c & E & Cf & _). injection E as <-. apply load_configured in Cf. congruence.
    - pose proof L as L'. apply load_configured in L'. pose proof L' as (f0 & g0 & _ & _ & _ & _ & V). rewrite (start_panics c' V). split.
      + intros H. exists fn, c'. auto.
      + intros (fn' & c & E & Cf & H). injection E as <-. apply load_configured in Cf. rewrite L in Cf. injection Cf as ->. exact H.
  Qed.
End Program.
