(** A writer's rules compared with those of a filter (README.md:500-503: the configuration is the same, but the subject
    is omitted). *)
From Verif Require Import Base Text Rules RulesProofs Config ConfigSpec ConfigProofs ConfigRules Writer WriterSpec.
Local Open Scope Z_scope.

(** ** Specification *)

(** The same configuration (config/config.go:36-71) with other rules. *)
Definition set_rules (rs : list crule) (c : cfg) : cfg :=
  Cfg (c_name c) (c_mode c) (c_nats_address c) (c_subjects c) (c_subject_monitor c) (c_subject_junk c) (c_db_address c) (c_db_protocol c) (c_db_port c) (c_db_user c) (c_db_pass c) (c_db_name c) (c_batch_count c) (c_batch_size c) (c_batch_age c) (c_port c) (c_workers c) (c_write_timeout c) (c_retry_batches c) (c_retry_interval c) (c_retry_timeout c) (c_read_buffer c) (c_max_pending c) rs (c_max_time_delta c) (c_stats_interval c) (c_probe_port c) (c_pprof_port c) (c_debug c) (c_period c) (c_suffix c) (c_queue_group c).

(** The same entry (config/config.go:73-79) without the subject. *)
Definition without_subject (r : crule) : crule := CRule (cr_type r) (cr_match r) (cr_tags r) [].
(** The same entry with a subject. *)
Definition with_subject (s : bytes) (r : crule) : crule := CRule (cr_type r) (cr_match r) (cr_tags r) s.

(** ** Proofs *)
Lemma writer_valid c rs : c_mode c = lit "writer" -> valid c -> valid (set_rules rs c) <-> Forall writer_rule_ok rs.
Proof.
  intros M (P1 & P2 & P3 & V).
  assert (W : writer_ok c).
  { destruct V as [[[E|E] _]|[[E _]|[[E _]|[[_ W]|E]]]]; [| | | |exact W|]; rewrite E in M; discriminate M. }
  destruct W as (W1 & W2 & W3 & W4 & _). split.
  - intros (_ & _ & _ & [[[E|E] _]|[[E _]|[[E _]|[[_ W]|E]]]]); [| | | |apply W|]; cbn [set_rules c_mode] in E; rewrite E in M; discriminate M.
  - intros F. split; [exact P1|]. split; [exact P2|]. split; [exact P3|]. right. right. right. left. split; [exact M|].
    split; [exact W1|]. split; [exact W2|]. split; [exact W3|]. split; [exact W4|exact F].
Qed.

Lemma filter_rules c : c_mode c = lit "filter" -> valid c -> Forall filter_rule_ok (c_rules c).
Proof.
  intros M (_ & _ & _ & [[[E|E] _]|[[_ [_ F]]|[[E _]|[[E _]|E]]]]); [| |exact F| | |]; rewrite E in M; discriminate M.
Qed.

Lemma rule_accepted r : filter_rule_ok r -> writer_rule_ok (without_subject r) <-> cr_type r <> lit "tags".
Proof.
  intros (_ & [(T & Mt & _)|(T & N & Mt & _)]); unfold writer_rule_ok; cbn [without_subject cr_type cr_match cr_subject].
  - split; [intros (_ & X & _); contradiction|intros X; contradiction].
  - split; [intros _; exact T|intros _; auto].
Qed.

Lemma accept_iff cf cw : c_mode cf = lit "filter" -> valid cf -> c_mode cw = lit "writer" -> valid cw ->
  (Validate (set_rules (map without_subject (c_rules cf)) cw) = None <-> Forall (fun r => cr_type r <> lit "tags") (c_rules cf)).
Proof.
  intros Mf Vf Mw Vw. rewrite Validate_iff, (writer_valid _ _ Mw Vw). pose proof (filter_rules _ Mf Vf) as F. rewrite Forall_map.
  induction F as [|r rs H F IH]; [split; constructor|]. split; intros X; inversion X; subst; (constructor; [apply rule_accepted in H; tauto|tauto]).
Qed.

(** The other direction: a writer's rules with subjects added. *)
Lemma filter_valid c rs : c_mode c = lit "filter" -> valid c -> valid (set_rules rs c) <-> Forall filter_rule_ok rs.
Proof.
  intros M (P1 & P2 & P3 & V).
  assert (W : exists s, c_subjects c = [s]).
  { destruct V as [[[E|E] _]|[[_ [W _]]|[[E _]|[[E _]|E]]]]; [| |exact W| | |]; rewrite E in M; discriminate M. }
  split.
  - intros (_ & _ & _ & [[[E|E] _]|[[_ [_ W']]|[[E _]|[[E _]|E]]]]); [| |exact W'| | |]; cbn [set_rules c_mode] in E; rewrite E in M; discriminate M.
  - intros F. split; [exact P1|]. split; [exact P2|]. split; [exact P3|]. right. left. split; [exact M|]. split; [exact W|exact F].
Qed.

Lemma back_iff cf cw s : c_mode cf = lit "filter" -> valid cf -> c_mode cw = lit "writer" -> valid cw -> s <> [] ->
  (Validate (set_rules (map (with_subject s) (c_rules cw)) cf) = None <->
   Forall (fun r => cr_type r <> lit "tags" /\ cr_tags r = []) (c_rules cw)).
Proof.
  intros Mf Vf Mw (_ & _ & _ & [[[E|E] _]|[[E _]|[[E _]|[[_ W]|E]]]]) Ad; try (rewrite E in Mw; discriminate Mw).
  rewrite Validate_iff, (filter_valid _ _ Mf Vf).
  destruct W as (_ & _ & _ & _ & F). rewrite Forall_map. induction F as [|r rs (T & Mt & Sb) F IH]; [split; constructor|].
  split; intros X; inversion X as [|? ? X1 X2]; subst; constructor; try tauto; unfold filter_rule_ok in *; cbn [with_subject cr_type cr_match cr_tags cr_subject] in *.
  - destruct X1 as (_ & [(_ & Y & _)|(Y & _ & _ & Z0)]); [contradiction|auto].
  - split; [exact Ad|]. right. tauto.
Qed.

(** Lookups do not depend on subjects. *)
Lemma lookup_subjects rs rs' : map r_match rs = map r_match rs' -> forall line, Lookup rs line = Lookup rs' line.
Proof.
  intros E line. unfold Lookup, LookupParsed. destruct (newParsedLine line) as [pl|]; [|reflexivity]. generalize 0%nat as i. revert rs' E.
  induction rs as [|r rs IH]; intros [|r' rs'] E i; try discriminate E; [reflexivity|]. cbn [map] in E. injection E as E1 E2.
  cbn [lookup_from]. unfold rule_matches. rewrite E1. rewrite (IH _ E2). reflexivity.
Qed.

Lemma same_matchers compile cs rs : Forall2 (rule_for compile) cs rs ->
  Forall2 (rule_for compile) (map without_subject cs) (map (fun r => mkRule (r_match r) []) rs).
Proof.
  induction 1 as [|c r cs rs H F IH]; [constructor|]. cbn [map]. constructor; [|exact IH].
  inversion H as [x T|x re T C|x re T C|x ts T C]; subst; cbn [r_match].
  - apply (rf_basic compile (without_subject c)). exact T.
  - apply (rf_regex compile (without_subject c)); assumption.
  - apply (rf_negregex compile (without_subject c)); assumption.
  - apply (rf_tags compile (without_subject c)); assumption.
Qed.

Lemma writer_rules_same compile cf cw rsf : c_rules cw = map without_subject (c_rules cf) ->
  RuleSetFromConfig compile cf = RsOk rsf ->
  exists rsw, RuleSetFromConfig compile cw = RsOk rsw /\ forall line, Lookup rsw line = Lookup rsf line.
Proof.
  intros E R. apply rs_ok in R. exists (map (fun r => mkRule (r_match r) []) rsf). split.
  - apply rs_ok. rewrite E. apply same_matchers. exact R.
  - apply lookup_subjects. rewrite map_map. reflexivity.
Qed.
