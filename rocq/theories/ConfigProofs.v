From Verif Require Import Base Text Rules Config ConfigSpec.
Local Open Scope Z_scope.

Lemma isEmpty_true {A} (l : list A) : isEmpty l = true <-> l = [].
Proof. destruct l; simpl; split; congruence. Qed.
Lemma isEmpty_false {A} (l : list A) : isEmpty l = false <-> l <> [].
Proof. destruct l; simpl; split; congruence. Qed.

Lemma beqs_false a b : beqs a b = false <-> a <> b.
Proof. split; [apply beqs_neq|]. intros H. destruct (beqs a b) eqn:E; auto. apply beqs_eq in E. congruence. Qed.

Lemma len1 {A} (l : list A) : length l = 1%nat <-> exists s, l = [s].
Proof.
  split; [|intros (s & ->); reflexivity]. destruct l as [|x [|y r]]; simpl; try discriminate. intros _. eauto.
Qed.

(** ** Rules of a configuration *)

Lemma checkRules_none check rs : checkRules check rs = None <-> Forall (fun r => check r = None) rs.
Proof.
  induction rs as [|r rs IH]; cbn [checkRules]; [split; auto|]. destruct (check r) eqn:E.
  - split; [discriminate|]. intros H. inversion H; congruence.
  - rewrite IH. split; [constructor; auto|]. intros H; inversion H; auto.
Qed.

Lemma checkRules_some check rs e : checkRules check rs = Some e -> exists r, In r rs /\ check r = Some e.
Proof.
  induction rs as [|r rs IH]; cbn [checkRules]; [discriminate|]. destruct (check r) eqn:E; intros H.
  - exists r. split; [left; auto|congruence].
  - destruct (IH H) as (r' & H1 & H2). exists r'. split; [right; auto|auto].
Qed.

Lemma pairs_ok tags : existsb (fun t : list bytes => negb (Nat.eqb (length t) 2)) tags = false <->
  Forall (fun t => length t = 2%nat) tags.
Proof.
  induction tags as [|t r IH]; cbn [existsb]; [split; auto|]. rewrite orb_false_iff, IH, negb_false_iff, Nat.eqb_eq.
  split; [intros [H1 H2]; constructor; auto|intros H; inversion H; auto].
Qed.

Lemma filter_rule_iff r : checkFilterRule r = None <-> filter_rule_ok r.
Proof.
  unfold checkFilterRule, filter_rule_ok, isTags.
  destruct (isEmpty (cr_type r)) eqn:E1; [apply isEmpty_true in E1; rewrite E1; split; [discriminate|intros (_ & [[H _]|(_ & H & _)]); [discriminate|congruence]]|].
  apply isEmpty_false in E1.
  destruct (isEmpty (cr_subject r)) eqn:E2; [apply isEmpty_true in E2; split; [discriminate|intros [H _]; congruence]|].
  apply isEmpty_false in E2.
  destruct (beqs (cr_type r) (lit "tags")) eqn:T; cbn [negb andb].
  - apply beqs_eq in T. destruct (isEmpty (cr_match r)) eqn:E3; cbn [negb].
    + apply isEmpty_true in E3. destruct (isEmpty (cr_tags r)) eqn:E4.
      * apply isEmpty_true in E4. split; [discriminate|]. intros (_ & [(_ & _ & H & _)|[H _]]); congruence.
      * apply isEmpty_false in E4. destruct (existsb _ (cr_tags r)) eqn:E5.
        -- split; [discriminate|]. intros (_ & [(_ & _ & _ & H)|[H _]]); [|congruence].
           apply pairs_ok in H. congruence.
        -- apply pairs_ok in E5. split; [intros _; split; [auto|left; split; [auto|split; [auto|split; auto]]]|reflexivity].
    + apply isEmpty_false in E3. split; [discriminate|]. intros (_ & [(_ & H & _)|[H _]]); congruence.
  - apply beqs_neq in T. destruct (isEmpty (cr_match r)) eqn:E3.
    + apply isEmpty_true in E3. split; [discriminate|]. intros (_ & [(H & _)|(_ & _ & H & _)]); congruence.
    + apply isEmpty_false in E3. destruct (isEmpty (cr_tags r)) eqn:E4; cbn [negb].
      * apply isEmpty_true in E4. split; [intros _; split; [auto|right; split; [auto|split; [auto|split; auto]]]|reflexivity].
      * apply isEmpty_false in E4. split; [discriminate|]. intros (_ & [(H & _)|(_ & _ & _ & H)]); congruence.
Qed.

Lemma writer_rule_iff r : checkWriterRule r = None <-> writer_rule_ok r.
Proof.
  unfold checkWriterRule, writer_rule_ok. destruct (cr_type r); cbn; [split; [discriminate|intros [H _]; congruence]|].
  destruct (cr_match r); cbn; [split; [discriminate|intros (_ & H & _); congruence]|].
  destruct (cr_subject r); cbn; split; try discriminate; auto.
  - intros _. repeat split; discriminate.
  - intros (_ & _ & H). discriminate.
Qed.

Lemma Forall_iff {A} (P Q : A -> Prop) l : (forall x, P x <-> Q x) -> Forall P l <-> Forall Q l.
Proof. intros H. split; apply Forall_impl; intros; apply H; auto. Qed.

(** ** Validate *)

Lemma listener_iff c : validateListener c = None <-> listener_ok c.
Proof.
  unfold validateListener, listener_ok, port_ok, MaxNATSMsgSize, MB.
  destruct ((c_port c <? 1) || (65535 <? c_port c)) eqn:E1; [split; [discriminate|intros ((? & ?) & _); lia]|].
  destruct (Nat.eqb_spec (length (c_subjects c)) 1) as [E2|E2]; cbn [negb].
  - destruct (Z.ltb_spec 1048576 (c_batch_size c)); [split; [discriminate|intros (_ & _ & ?); lia]|].
    split; auto. intros _. split; [lia|]. split; [apply len1; auto|lia].
  - split; [discriminate|]. intros (_ & H & _). apply len1 in H. congruence.
Qed.

Lemma filter_iff c : validateFilter c = None <-> filter_ok c.
Proof.
  unfold validateFilter, filter_ok. destruct (Nat.eqb_spec (length (c_subjects c)) 1) as [E2|E2]; cbn [negb].
  - rewrite checkRules_none, (Forall_iff _ _ _ filter_rule_iff). split; [|tauto]. intros H. split; auto. apply len1; auto.
  - split; [discriminate|]. intros (H & _). apply len1 in H. congruence.
Qed.

Lemma downsampler_iff c : validateDownsampler c = None <-> downsampler_ok c.
Proof.
  unfold validateDownsampler, downsampler_ok. destruct (Z.eqb_spec (c_period c) 0); [split; [discriminate|intros [? _]; congruence]|].
  destruct (isEmpty (c_suffix c)) eqn:E; [apply isEmpty_true in E|apply isEmpty_false in E]; split; auto; try discriminate.
  intros [_ H]; congruence.
Qed.

Lemma writer_iff c : validateWriter c = None <-> writer_ok c.
Proof.
  unfold validateWriter, writer_ok, port_ok.
  destruct (Nat.ltb_spec (length (c_subjects c)) 1) as [E1|E1].
  { split; [discriminate|]. intros (H & _). destruct (c_subjects c); [congruence|simpl in E1; lia]. }
  assert (S0 : c_subjects c <> []) by (intros X; rewrite X in E1; simpl in E1; lia).
  destruct ((c_db_port c <? 1) || (65535 <? c_db_port c)) eqn:E2; [split; [discriminate|intros (_ & ? & _); lia]|].
  destruct (beqs (c_db_protocol c) (lit "http")) eqn:P1; destruct (beqs (c_db_protocol c) (lit "https")) eqn:P2; cbn [negb andb];
    rewrite ?beqs_eq in P1; rewrite ?beqs_eq in P2; rewrite ?beqs_false in P1; rewrite ?beqs_false in P2;
    [|  | |split; [discriminate|intros (_ & _ & H & _); tauto]].
  all: destruct (isEmpty (c_db_user c)) eqn:U; destruct (isEmpty (c_db_pass c)) eqn:V; cbn [negb andb];
    rewrite ?isEmpty_true in U; rewrite ?isEmpty_true in V; rewrite ?isEmpty_false in U; rewrite ?isEmpty_false in V;
    try (split; [discriminate|intros (_ & _ & _ & H & _); tauto]);
    rewrite checkRules_none, (Forall_iff _ _ _ writer_rule_iff); split; [|tauto| |tauto]; intros H; (split; [auto|]);
    (split; [lia|]); (split; [tauto|]); (split; [tauto|auto]).
Qed.

Lemma Validate_iff c : Validate c = None <-> valid c.
Proof.
  unfold Validate, valid.
  destruct ((c_probe_port c <? 0) || (65535 <? c_probe_port c)) eqn:E1; [unfold port_ok; split; [discriminate|intros (? & _); lia]|].
  destruct ((c_pprof_port c <? 0) || (65535 <? c_pprof_port c)) eqn:E2; [unfold port_ok; split; [discriminate|intros (_ & ? & _); lia]|].
  assert (P1 : port_ok 0 (c_probe_port c)) by (unfold port_ok; lia).
  assert (P2 : port_ok 0 (c_pprof_port c)) by (unfold port_ok; lia).
  destruct (negb (beqs (c_mode c) (lit "downsampler")) && negb (c_period c =? 0)) eqn:E3.
  { apply andb_true_iff in E3. destruct E3 as [D Z0]. apply negb_true_iff in D, Z0. apply beqs_neq in D. apply Z.eqb_neq in Z0.
    split; [discriminate|]. intros (_ & _ & H & _). exfalso. apply Z0. auto. }
  assert (P3 : c_mode c <> lit "downsampler" -> c_period c = 0).
  { intros H. apply andb_false_iff in E3. destruct E3 as [X|X]; apply negb_false_iff in X.
    - apply beqs_eq in X. congruence.
    - apply Z.eqb_eq in X. auto. }
  clear E1 E2 E3.
  destruct (beqs (c_mode c) (lit "listener")) eqn:M1.
  { apply beqs_eq in M1. cbn [orb]. rewrite listener_iff. split; [tauto|].
    rewrite M1. intros (_ & _ & _ & [H|[[H _]|[[H _]|[[H _]|H]]]]); try discriminate. tauto. }
  destruct (beqs (c_mode c) (lit "listener_http")) eqn:M2.
  { apply beqs_eq in M2. cbn [orb]. rewrite listener_iff. split; [tauto|].
    rewrite M2. intros (_ & _ & _ & [H|[[H _]|[[H _]|[[H _]|H]]]]); try discriminate. tauto. }
  cbn [orb]. apply beqs_neq in M1, M2.
  destruct (beqs (c_mode c) (lit "filter")) eqn:M3.
  { apply beqs_eq in M3. rewrite filter_iff. split; [tauto|].
    intros (_ & _ & _ & [[[H|H] _]|[[_ H]|[[H _]|[[H _]|H]]]]); try congruence; rewrite M3 in H; discriminate. }
  apply beqs_neq in M3.
  destruct (beqs (c_mode c) (lit "downsampler")) eqn:M4.
  { apply beqs_eq in M4. rewrite downsampler_iff. split; [tauto|].
    intros (_ & _ & _ & [[[H|H] _]|[[H _]|[[_ H]|[[H _]|H]]]]); try congruence; rewrite M4 in H; discriminate. }
  apply beqs_neq in M4.
  destruct (beqs (c_mode c) (lit "writer")) eqn:M5.
  { apply beqs_eq in M5. rewrite writer_iff. split; [tauto|].
    intros (_ & _ & _ & [[[H|H] _]|[[H _]|[[H _]|[[_ H]|H]]]]); try congruence; rewrite M5 in H; discriminate. }
  apply beqs_neq in M5.
  destruct (beqs (c_mode c) (lit "monitor")) eqn:M6.
  { apply beqs_eq in M6. split; auto. intros _. split; [exact P1|]. split; [exact P2|]. split; [exact P3|]. right; right; right; right. exact M6. }
  apply beqs_neq in M6. split; [discriminate|]. tauto.
Qed.

Lemma checkFilterRule_says c r e : c_mode c = lit "filter" -> In r (c_rules c) -> checkFilterRule r = Some e -> says_error e c.
Proof.
  intros M Hr. unfold checkFilterRule, isTags.
  destruct (isEmpty (cr_type r)) eqn:E1; [apply isEmpty_true in E1; intros H; inversion H; subst; cbn; eauto|].
  destruct (isEmpty (cr_subject r)) eqn:E2; [apply isEmpty_true in E2; intros H; inversion H; subst; cbn; eauto|].
  destruct (beqs (cr_type r) (lit "tags")) eqn:T; cbn [negb andb].
  - apply beqs_eq in T. destruct (isEmpty (cr_match r)) eqn:E3; cbn [negb].
    + destruct (isEmpty (cr_tags r)) eqn:E4; [apply isEmpty_true in E4; intros H; inversion H; subst; cbn; eauto|].
      destruct (existsb _ (cr_tags r)) eqn:E5; intros H; inversion H; subst. cbn [says_error]. split; auto.
      apply existsb_exists in E5. destruct E5 as (t & Ht & E5). apply negb_true_iff, Nat.eqb_neq in E5. eauto.
    + apply isEmpty_false in E3. intros H; inversion H; subst; cbn [says_error]. split; auto. exists r. auto.
  - apply beqs_neq in T. destruct (isEmpty (cr_match r)) eqn:E3; [apply isEmpty_true in E3; intros H; inversion H; subst; cbn; eauto|].
    destruct (isEmpty (cr_tags r)) eqn:E4; cbn [negb]; intros H; inversion H; subst. apply isEmpty_false in E4.
    cbn [says_error]. split; auto. exists r. auto.
Qed.

Lemma checkWriterRule_says c r e : c_mode c = lit "writer" -> In r (c_rules c) -> checkWriterRule r = Some e -> says_error e c.
Proof.
  intros M Hr. unfold checkWriterRule.
  destruct (isEmpty (cr_type r)) eqn:E1; [apply isEmpty_true in E1; intros H; inversion H; subst; cbn; eauto|].
  destruct (isEmpty (cr_match r)) eqn:E2; [apply isEmpty_true in E2; intros H; inversion H; subst; cbn; eauto|].
  destruct (isEmpty (cr_subject r)) eqn:E3; cbn [negb]; intros H; inversion H; subst. apply isEmpty_false in E3.
  cbn [says_error]. split; auto. exists r. auto.
Qed.

Lemma Validate_says c e : Validate c = Some e -> says_error e c.
Proof.
  unfold Validate.
  destruct ((c_probe_port c <? 0) || (65535 <? c_probe_port c)) eqn:E1; [intros H; inversion H; subst; cbn [says_error]; unfold port_ok; lia|].
  destruct ((c_pprof_port c <? 0) || (65535 <? c_pprof_port c)) eqn:E2; [intros H; inversion H; subst; cbn [says_error]; unfold port_ok; lia|].
  destruct (negb (beqs (c_mode c) (lit "downsampler")) && negb (c_period c =? 0)) eqn:E3.
  { apply andb_true_iff in E3. destruct E3 as [D Z0]. apply negb_true_iff in D, Z0. apply beqs_neq in D. apply Z.eqb_neq in Z0.
    intros H; inversion H; subst. cbn [says_error]. auto. }
  clear E1 E2 E3.
  destruct (beqs (c_mode c) (lit "listener") || beqs (c_mode c) (lit "listener_http")) eqn:M1.
  { assert (L : is_listener c) by (apply orb_true_iff in M1; destruct M1 as [M|M]; apply beqs_eq in M; [left|right]; auto).
    unfold validateListener. destruct ((c_port c <? 1) || (65535 <? c_port c)) eqn:E1; [intros H; inversion H; subst; cbn [says_error]; unfold port_ok; split; [auto|lia]|].
    destruct (Nat.eqb_spec (length (c_subjects c)) 1) as [E2|E2]; cbn [negb]; [|intros H; inversion H; subst; cbn [says_error]; auto].
    unfold MaxNATSMsgSize, MB. destruct (Z.ltb_spec 1048576 (c_batch_size c)); intros H0; inversion H0; subst. cbn [says_error]. auto. }
  apply orb_false_iff in M1. destruct M1 as [M1 M2]. apply beqs_neq in M1, M2.
  destruct (beqs (c_mode c) (lit "filter")) eqn:M3.
  { apply beqs_eq in M3. unfold validateFilter.
    destruct (Nat.eqb_spec (length (c_subjects c)) 1) as [E2|E2]; cbn [negb]; [|intros H; inversion H; subst; cbn [says_error]; auto].
    intros H. apply checkRules_some in H. destruct H as (r & Hr & H). eapply checkFilterRule_says; eauto. }
  apply beqs_neq in M3.
  destruct (beqs (c_mode c) (lit "downsampler")) eqn:M4.
  { apply beqs_eq in M4. unfold validateDownsampler. destruct (Z.eqb_spec (c_period c) 0); [intros H; inversion H; subst; cbn [says_error]; auto|].
    destruct (isEmpty (c_suffix c)) eqn:E; intros H; inversion H; subst. apply isEmpty_true in E. cbn [says_error]; auto. }
  apply beqs_neq in M4.
  destruct (beqs (c_mode c) (lit "writer")) eqn:M5.
  { apply beqs_eq in M5. unfold validateWriter.
    destruct (Nat.ltb_spec (length (c_subjects c)) 1) as [E1|E1].
    { intros H; inversion H; subst. cbn [says_error]. split; auto. destruct (c_subjects c); auto. simpl in E1; lia. }
    destruct ((c_db_port c <? 1) || (65535 <? c_db_port c)) eqn:E2; [intros H; inversion H; subst; cbn [says_error]; unfold port_ok; split; [auto|lia]|].
    destruct (negb (beqs (c_db_protocol c) (lit "http")) && negb (beqs (c_db_protocol c) (lit "https"))) eqn:P.
    { apply andb_true_iff in P. rewrite !negb_true_iff, !beqs_false in P. intros H; inversion H; subst. cbn [says_error]. auto. }
    destruct (isEmpty (c_db_user c)) eqn:U; destruct (isEmpty (c_db_pass c)) eqn:V; cbn [negb andb];
      rewrite ?isEmpty_true in U; rewrite ?isEmpty_true in V; rewrite ?isEmpty_false in U; rewrite ?isEmpty_false in V;
      intros H; try (inversion H; subst; cbn [says_error]; auto; fail);
      apply checkRules_some in H; destruct H as (r & Hr & H); eapply checkWriterRule_says; eauto. }
  apply beqs_neq in M5.
  destruct (beqs (c_mode c) (lit "monitor")) eqn:M6; [discriminate|]. apply beqs_neq in M6.
  intros H; inversion H; subst. cbn [says_error In]. intuition congruence.
Qed.
