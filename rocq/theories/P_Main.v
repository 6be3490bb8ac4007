(** C90: the program. *)
From Verif Require Import Base Rules Config ConfigSpec ConfigLoad ConfigRules StartStop Pending P_Config MainProg.
Local Open Scope Z_scope.

(** The program runs exactly when it is given one file name, the configuration can be loaded (C53) and nothing the start needs fails; it runs the component
    its mode names, with the configured workers (a writer without a number: two per processor). *)
Theorem C90_runs : forall dec compile files user pass procs fails, decodes dec -> 0 <= procs ->
  forall args comp n c pprof, 0 <= c_max_pending c < two64 ->
  (program dec compile files user pass procs fails args = Runs comp n c pprof <->
   exists fn, args = [fn] /\ configured dec files user pass fn c /\ In (c_mode c, comp) names /\ worker_count comp c procs n /\
     rules_ok compile comp c /\ pending_ok comp c /\ network_ok fails comp n c /\ (pprof = true <-> 0 < c_pprof_port c)).
Proof. exact program_runs. Qed.
Print Assumptions C90_runs.

(** It crashes exactly for a filter or writer with a rule that cannot be built (C52) and for a writer with a negative number of workers that
    reaches NATS. *)
Theorem C90_crashes : forall dec compile files user pass procs fails, decodes dec -> 0 <= procs ->
  forall args, program dec compile files user pass procs fails args = PanicExit <->
    exists fn c, args = [fn] /\ configured dec files user pass fn c /\
     (((c_mode c = lit "filter" \/ c_mode c = lit "writer") /\
        exists a r b, c_rules c = a ++ r :: b /\ explosive compile r /\ Forall (fun r => known_type r /\ ~ explosive compile r) a) \/
      (c_mode c = lit "writer" /\ c_workers c < 0 /\ (exists rs, Forall2 (rule_for compile) (c_rules c) rs) /\ fails CConnect = false)).
Proof. exact program_panics. Qed.
Print Assumptions C90_crashes.

(** In all other cases it ends with status 1; it never ends as if nothing had happened. *)
Theorem C90_otherwise : forall dec compile files user pass procs fails args,
  let p := program dec compile files user pass procs fails args in
  (exists comp n c pprof, p = Runs comp n c pprof) \/ p = PanicExit \/ exit_status p = Some 1.
Proof.
  intros. cbv zeta. destruct (program dec compile files user pass procs fails args) as [| | | |comp n c b]; auto. left. exists comp, n, c, b. reflexivity.
Qed.
Print Assumptions C90_otherwise.

(** Cases. *)
Definition disk (p : pfile) (fn : bytes) : fileread := if beqs fn (lit "w.toml") then FOk p else FAbsent.
Definition no_failure (_ : call) : bool := false.
Definition run_with (p : pfile) (fails : call -> bool) (args : list bytes) : prog := program toml_rules engine (disk p) [] [] 4 fails args.
Example C90_writer : exists c, run_with (with_workers (lit "writer") 0) no_failure [lit "w.toml"] = Runs Config.Writer 8 c false /\ c_name c = lit "w".
Proof. eexists. split; [vm_compute; reflexivity|reflexivity]. Qed.
Example C90_negative : run_with (with_workers (lit "writer") (-1)) no_failure [lit "w.toml"] = PanicExit.
Proof. vm_compute. reflexivity. Qed.
Example C90_unreachable : run_with (with_workers (lit "writer") (-1)) (fun k => match k with CConnect => true | _ => false end) [lit "w.toml"] = StartFatal.
Proof. vm_compute. reflexivity. Qed.
Example C90_no_file : run_with (with_mode (lit "monitor")) no_failure [lit "x.toml"] = LoadFatal /\ run_with (with_mode (lit "monitor")) no_failure [] = UsageExit.
Proof. split; vm_compute; reflexivity. Qed.
Example C90_bad_regex : run_with (with_rules (lit "filter") [regex_rule (lit "cpu(") (lit "hot")]) no_failure [lit "w.toml"] = PanicExit.
Proof. vm_compute. reflexivity. Qed.
