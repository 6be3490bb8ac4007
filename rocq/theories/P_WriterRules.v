(** Property C95 (properties.jsonl): a writer's rules are configured as those of a filter. *)
From Verif Require Import Base Text Rules RulesProofs Config ConfigSpec ConfigProofs ConfigRules Writer WriterSpec WriterRules P_Config.
Local Open Scope Z_scope.

(** Rules a filter accepts are, without their subjects, rules of a writer with the same meaning: a line is kept by the
    writer exactly when some rule of the filter takes it. *)
Theorem C95_same_meaning compile cf cw rsf : c_rules cw = map without_subject (c_rules cf) ->
  RuleSetFromConfig compile cf = RsOk rsf ->
  exists rsw, RuleSetFromConfig compile cw = RsOk rsw /\
    (forall line, Lookup rsw line = Lookup rsf line) /\ (forall line, kept rsw line = true <-> Lookup rsf line <> None).
Proof.
  intros E R. destruct (writer_rules_same compile cf cw rsf E R) as (rsw & R' & L). exists rsw. split; [exact R'|]. split; [exact L|].
  intros line. unfold kept. rewrite L. destruct (Lookup rsf line); split; congruence.
Qed.

(** The writer accepts a filter's rules without their subjects exactly when there is no tags rule among them. *)
Theorem C95_accepted_partial cf cw : c_mode cf = lit "filter" -> Validate cf = None -> c_mode cw = lit "writer" -> Validate cw = None ->
  (Validate (set_rules (map without_subject (c_rules cf)) cw) = None <-> Forall (fun r => cr_type r <> lit "tags") (c_rules cf)).
Proof. intros Mf Vf Mw Vw. apply accept_iff; try assumption; apply Validate_iff; assumption. Qed.

(** "Rule configuration is the same" is false: a tags rule every filter accepts is refused by every writer ... *)
Theorem C95_refuted : exists r s, filter_rule_ok (with_subject s r) /\ cr_subject r = [] /\
  forall c rs, c_mode c = lit "writer" -> In r rs -> Validate (set_rules rs c) <> None.
Proof.
  exists (CRule (lit "tags") [] [[lit "env"; lit "prod"]] []), (lit "prod"). split; [|split; [reflexivity|]].
  - split; [discriminate|]. left. split; [reflexivity|]. split; [reflexivity|]. split; [discriminate|repeat constructor].
  - intros c rs M Hi H. apply Validate_iff in H. destruct H as (_ & _ & _ & [[[E|E] _]|[[E _]|[[E _]|[[_ W]|E]]]]); try (cbn [set_rules c_mode] in E; rewrite E in M; discriminate M).
    destruct W as (_ & _ & _ & _ & F). rewrite Forall_forall in F. destruct (F _ Hi) as (_ & X & _). apply X. reflexivity.
Qed.

(** ... and the other way: a filter accepts a writer's rules with a subject added exactly when none is a tags rule and
    none carries tags. *)
Theorem C95_back_partial cf cw s : c_mode cf = lit "filter" -> Validate cf = None -> c_mode cw = lit "writer" -> Validate cw = None -> s <> [] ->
  (Validate (set_rules (map (with_subject s) (c_rules cw)) cf) = None <->
   Forall (fun r => cr_type r <> lit "tags" /\ cr_tags r = []) (c_rules cw)).
Proof. intros Mf Vf Mw Vw. apply back_iff; try assumption; apply Validate_iff; assumption. Qed.

Print Assumptions C95_same_meaning.
Print Assumptions C95_accepted_partial.
Print Assumptions C95_refuted.
Print Assumptions C95_back_partial.

(** A filter with a basic and an expression rule, and the writer with the same rules. *)
Example C95_case : exists cf cw rsf, load FAbsent (with_rules (lit "filter") [basic_rule (lit "cpu") (lit "hot"); regex_rule (lit "cpu.*") (lit "x")]) = LoadOk cf /\
  load FAbsent (with_rules (lit "writer") [PRule (Some (lit "basic")) (Some (lit "cpu")) None None; PRule (Some (lit "regex")) (Some (lit "cpu.*")) None None]) = LoadOk cw /\
  c_rules cw = map without_subject (c_rules cf) /\ RuleSetFromConfig engine cf = RsOk rsf /\ length rsf = 2%nat /\ c_mode cf = lit "filter" /\ c_mode cw = lit "writer" /\ Validate cf = None /\ Validate cw = None.
Proof. do 3 eexists. split; [vm_compute; reflexivity|]. split; [vm_compute; reflexivity|]. split; [reflexivity|]. split; [vm_compute; reflexivity|]. repeat split. Qed.

(** The files of C95_refuted: a tags rule loads in a filter, and not in a writer. *)
Example C95_case_tags : load FAbsent (with_rules (lit "filter") [tags_rule [[lit "env"; lit "prod"]] (lit "prod")]) <> LoadErr /\
  load FAbsent (with_rules (lit "writer") []) <> LoadErr /\
  load FAbsent (with_rules (lit "writer") [PRule (Some (lit "tags")) None (Some [[lit "env"; lit "prod"]]) None]) = LoadErr /\
  load FAbsent (with_rules (lit "writer") [PRule (Some (lit "tags")) (Some (lit "unused")) (Some [[lit "env"; lit "prod"]]) None]) <> LoadErr.
Proof. split; [vm_compute; discriminate|]. split; [vm_compute; discriminate|]. split; [vm_compute; reflexivity|vm_compute; discriminate]. Qed.
