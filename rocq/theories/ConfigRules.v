From Verif Require Import Base Text Rules Config ConfigSpec ConfigProofs.
Local Open Scope nat_scope.

(** ** Names *)

Lemma take_while_app p a b c : (forall x, In x a -> p x = true) -> p c = false -> take_while p (a ++ c :: b) = a.
Proof.
  induction a as [|x a IH]; intros H1 H2; cbn [app take_while]; [rewrite H2; auto|].
  rewrite (H1 x) by (left; auto). f_equal. apply IH; auto. intros y Hy. apply H1. right; auto.
Qed.

Lemma take_while_all p a : (forall x, In x a -> p x = true) -> take_while p a = a.
Proof.
  induction a as [|x a IH]; intros H1; cbn [take_while]; auto. rewrite (H1 x) by (left; auto). f_equal.
  apply IH; auto. intros y Hy. apply H1. right; auto.
Qed.

Lemma base_file dir file : file <> [] -> ~ In slash file -> (dir = [] \/ exists d, dir = d ++ [slash]) ->
  path_base (dir ++ file) = file.
Proof.
  intros NE NS HD. unfold path_base. destruct (dir ++ file) eqn:E; [apply app_eq_nil in E; tauto|]. rewrite <- E. clear E.
  rewrite rev_app_distr.
  assert (R : forall x, In x (rev file) -> x <> slash) by (intros x Hx ->; apply NS; apply in_rev; auto).
  assert (T : take_while (fun c => negb (Ascii.eqb c slash)) (drop_while (Ascii.eqb slash) (rev file ++ rev dir)) = rev file).
  { assert (Dw : drop_while (Ascii.eqb slash) (rev file ++ rev dir) = rev file ++ rev dir).
    { destruct (rev file) as [|x r] eqn:Er.
      - apply (f_equal (@rev ascii)) in Er. rewrite rev_involutive in Er. simpl in Er. congruence.
      - cbn [app drop_while]. destruct (Ascii.eqb slash x) eqn:B; auto. apply Ascii.eqb_eq in B. exfalso. apply (R x); [left; auto|congruence]. }
    rewrite Dw. assert (Q : forall x, In x (rev file) -> negb (Ascii.eqb x slash) = true).
    { intros x Hx. apply negb_true_iff. apply Ascii.eqb_neq. auto. }
    destruct HD as [->|(d & ->)].
    - cbn [rev]. rewrite app_nil_r. apply take_while_all. auto.
    - rewrite rev_app_distr. cbn [rev app]. apply take_while_app; auto. }
  rewrite T, rev_involutive. destruct file; congruence.
Qed.

Lemma ext_none : forall s acc, ~ In dot s -> ext_scan s acc = [].
Proof.
  induction s as [|c s IH]; intros acc N; cbn [ext_scan]; auto. destruct (Ascii.eqb c slash); auto.
  destruct (Ascii.eqb c dot) eqn:B; [apply Ascii.eqb_eq in B; subst; exfalso; apply N; left; auto|]. apply IH. intros H; apply N; right; auto.
Qed.

Lemma ext_found : forall s rest acc, ~ In dot s -> ~ In slash s -> ext_scan (s ++ dot :: rest) acc = dot :: rev s ++ acc.
Proof.
  induction s as [|c s IH]; intros rest acc N1 N2; cbn [app ext_scan].
  - reflexivity.
  - destruct (Ascii.eqb c slash) eqn:B1; [apply Ascii.eqb_eq in B1; subst; exfalso; apply N2; left; auto|].
    destruct (Ascii.eqb c dot) eqn:B; [apply Ascii.eqb_eq in B; subst; exfalso; apply N1; left; auto|].
    rewrite IH; [|intros H; apply N1; right; auto|intros H; apply N2; right; auto]. cbn [rev]. rewrite <- app_assoc. reflexivity.
Qed.

Lemma name_without_ext dir file : file <> [] -> ~ In slash file -> ~ In dot file -> (dir = [] \/ exists d, dir = d ++ [slash]) ->
  pathToConfigName (dir ++ file) = file.
Proof.
  intros H1 H2 H3 H4. unfold pathToConfigName. rewrite base_file by auto. unfold path_ext. rewrite ext_none; auto.
  intros H. apply H3. apply in_rev; auto.
Qed.

Lemma name_with_ext dir stem ext : ~ In slash stem -> ~ In slash ext -> ~ In dot ext -> (dir = [] \/ exists d, dir = d ++ [slash]) ->
  pathToConfigName (dir ++ stem ++ dot :: ext) = stem.
Proof.
  intros H1 H2 H3 H4. unfold pathToConfigName. rewrite base_file; auto.
  - unfold path_ext. rewrite rev_app_distr. cbn [rev]. rewrite <- app_assoc. cbn [app].
    rewrite ext_found by (intros H; apply in_rev in H; auto). rewrite rev_involutive, app_nil_r.
    rewrite !app_length. cbn [length]. replace (length stem + S (length ext) - S (length ext)) with (length stem) by lia.
    rewrite firstn_app, firstn_all, Nat.sub_diag. cbn [firstn]. apply app_nil_r.
  - destruct stem; discriminate.
  - intros H. apply in_app_iff in H. destruct H as [H|[H|H]]; auto. discriminate.
Qed.

(** ** Rules *)

Section Compile.
  Variable compile : bytes -> option (bytes -> bool).

  Lemma convertTags_some raw : forall ts, convertTags raw = Some ts <->
    Forall2 (fun (raw : list bytes) (kv : tag) => exists more, raw = fst kv :: snd kv :: more) raw ts.
  Proof.
    induction raw as [|r raw IH]; intros ts; cbn [convertTags].
    - split; [intros H; inversion H; constructor|intros H; inversion H; reflexivity].
    - split.
      + destruct r as [|k [|v more]]; try discriminate. destruct (convertTags raw) as [ts'|] eqn:E; [|discriminate].
        cbn [option_map]. intros H; inversion H; subst. constructor; [exists more; reflexivity|apply IH; auto].
      + intros H. inversion H as [|r0 kv rs kvs (more & Hm) F]; subst. destruct kv as [k v]. cbn [fst snd].
        apply IH in F. rewrite F. reflexivity.
  Qed.

  Lemma convertTags_none raw : convertTags raw = None <-> exists t, In t raw /\ length t < 2.
  Proof.
    induction raw as [|r raw IH]; cbn [convertTags].
    - split; [discriminate|]. intros (t & [] & _).
    - split.
      + destruct r as [|k [|v more]]; intros H.
        * exists []. split; [left; auto|simpl; lia].
        * exists [k]. split; [left; auto|simpl; lia].
        * destruct (convertTags raw); [discriminate|]. destruct (proj1 IH eq_refl) as (t & Ht & L). exists t. split; [right; auto|auto].
      + intros (t & [->|Ht] & L).
        * destruct t as [|k [|v more]]; auto. simpl in L. lia.
        * assert (E : convertTags raw = None) by (apply IH; eauto). rewrite E. destruct r as [|k [|v more]]; reflexivity.
  Qed.

  (** What one entry does. *)
  Inductive outcome := OErr | OPanic | ORule (r : rule).
  Definition one (r : crule) : outcome :=
    if beqs (cr_type r) (lit "basic") then ORule (mkRule (MBasic (cr_match r)) (cr_subject r))
    else if beqs (cr_type r) (lit "tags") then
      match convertTags (cr_tags r) with None => OPanic | Some ts => ORule (mkRule (MTags ts) (cr_subject r)) end
    else if beqs (cr_type r) (lit "regex") then
      match compile (cr_match r) with None => OPanic | Some re => ORule (mkRule (MRegex re) (cr_subject r)) end
    else if beqs (cr_type r) (lit "negregex") then
      match compile (cr_match r) with None => OPanic | Some re => ORule (mkRule (MNegRegex re) (cr_subject r)) end
    else OErr.

  Lemma loop_one r rest acc : ruleSetLoop compile (r :: rest) acc =
    match one r with OErr => RsErr | OPanic => RsPanic | ORule x => ruleSetLoop compile rest (acc ++ [x]) end.
  Proof.
    cbn [ruleSetLoop]. unfold one. destruct (beqs (cr_type r) (lit "basic")); auto.
    destruct (beqs (cr_type r) (lit "tags")); [destruct (convertTags (cr_tags r)); auto|].
    destruct (beqs (cr_type r) (lit "regex")); [destruct (compile (cr_match r)); auto|].
    destruct (beqs (cr_type r) (lit "negregex")); [destruct (compile (cr_match r)); auto|]. reflexivity.
  Qed.

  Ltac types r :=
    unfold one;
    destruct (beqs (cr_type r) (lit "basic")) eqn:T1; [apply beqs_eq in T1|apply beqs_neq in T1;
    destruct (beqs (cr_type r) (lit "tags")) eqn:T2; [apply beqs_eq in T2|apply beqs_neq in T2;
    destruct (beqs (cr_type r) (lit "regex")) eqn:T3; [apply beqs_eq in T3|apply beqs_neq in T3;
    destruct (beqs (cr_type r) (lit "negregex")) eqn:T4; [apply beqs_eq in T4|apply beqs_neq in T4]]]].

  Lemma one_rule r x : one r = ORule x <-> rule_for compile r x.
  Proof.
    split.
    - types r.
      + intros H; inversion H. constructor; auto.
      + destruct (convertTags (cr_tags r)) eqn:E; intros H; inversion H. apply rf_tags; auto. apply convertTags_some; auto.
      + destruct (compile (cr_match r)) eqn:E; intros H; inversion H. apply rf_regex; auto.
      + destruct (compile (cr_match r)) eqn:E; intros H; inversion H. apply rf_negregex; auto.
      + discriminate.
    - intros H. destruct H as [r T|r re T E|r re T E|r ts T E]; unfold one; rewrite T; cbn [beqs lit]; cbv [beqs lit list_ascii_of_string]; cbn -[convertTags].
      + reflexivity.
      + rewrite E. reflexivity.
      + rewrite E. reflexivity.
      + apply convertTags_some in E. rewrite E. reflexivity.
  Qed.

  Lemma one_panic r : one r = OPanic <-> explosive compile r.
  Proof.
    unfold explosive. types r.
    - rewrite T1. split; [discriminate|]. intros [[[H|H] _]|[H _]]; discriminate.
    - rewrite T2. destruct (convertTags (cr_tags r)) eqn:E.
      + split; [discriminate|]. intros [[[H|H] _]|[_ H]]; try discriminate. apply convertTags_none in H. congruence.
      + split; auto. intros _. right. split; auto. apply convertTags_none; auto.
    - rewrite T3. destruct (compile (cr_match r)) eqn:E.
      + split; [discriminate|]. intros [[_ H]|[H _]]; discriminate.
      + split; auto.
    - rewrite T4. destruct (compile (cr_match r)) eqn:E.
      + split; [discriminate|]. intros [[_ H]|[H _]]; discriminate.
      + split; auto.
    - split; [discriminate|]. intros [[[H|H] _]|[H _]]; congruence.
  Qed.

  Lemma one_err r : one r = OErr <-> ~ known_type r.
  Proof.
    unfold known_type. types r; cbn [In].
    - split; [discriminate|]. intros H. exfalso. apply H. auto.
    - destruct (convertTags (cr_tags r)); (split; [discriminate|]); intros H; exfalso; apply H; auto.
    - destruct (compile (cr_match r)); (split; [discriminate|]); intros H; exfalso; apply H; auto.
    - destruct (compile (cr_match r)); (split; [discriminate|]); intros H; exfalso; apply H; auto.
    - split; auto. intros _ [H|[H|[H|[H|[]]]]]; congruence.
  Qed.

  Lemma rs_ok_from : forall crs acc rs, ruleSetLoop compile crs acc = RsOk rs <->
    exists new, rs = acc ++ new /\ Forall2 (rule_for compile) crs new.
  Proof.
    induction crs as [|r crs IH]; intros acc rs.
    - cbn [ruleSetLoop]. split.
      + intros H; inversion H; subst. exists []. split; [symmetry; apply app_nil_r|constructor].
      + intros (new & -> & F). inversion F; subst. rewrite app_nil_r. reflexivity.
    - rewrite loop_one. destruct (one r) as [| |x] eqn:E.
      + split; [discriminate|]. intros (new & _ & F). inversion F; subst. apply one_rule in H1. congruence.
      + split; [discriminate|]. intros (new & _ & F). inversion F; subst. apply one_rule in H1. congruence.
      + rewrite IH. split.
        * intros (new & -> & F). exists (x :: new). rewrite <- app_assoc. split; auto. constructor; auto. apply one_rule; auto.
        * intros (new & -> & F). inversion F as [|a b c d Ha Hb]; subst. apply one_rule in Ha. rewrite E in Ha. inversion Ha; subst.
          exists d. rewrite <- app_assoc. auto.
  Qed.

  Lemma rs_ok c rs : RuleSetFromConfig compile c = RsOk rs <-> Forall2 (rule_for compile) (c_rules c) rs.
  Proof.
    unfold RuleSetFromConfig. rewrite rs_ok_from. split; [intros (new & -> & F); auto|]. intros F. exists rs. auto.
  Qed.

  Lemma rs_panic_from : forall crs acc, ruleSetLoop compile crs acc = RsPanic <->
    exists a r b, crs = a ++ r :: b /\ explosive compile r /\ Forall (fun r => known_type r /\ ~ explosive compile r) a.
  Proof.
    induction crs as [|r crs IH]; intros acc.
    - cbn [ruleSetLoop]. split; [discriminate|]. intros ([|? ?] & r & b & H & _); discriminate.
    - rewrite loop_one. destruct (one r) as [| |x] eqn:E.
      + split; [discriminate|]. intros (a & r' & b & H & X & F). apply one_err in E. destruct a as [|r0 a]; inversion H; subst.
        * exfalso. apply one_panic in X. apply one_err in E. congruence.
        * inversion F as [|y l [K _] F']; subst. contradiction.
      + split; auto. intros _. exists [], r, crs. split; auto. split; [apply one_panic; auto|constructor].
      + assert (K : known_type r /\ ~ explosive compile r).
        { split; [|rewrite <- one_panic; congruence].
          destruct (beqs (cr_type r) (lit "basic")) eqn:T1; [apply beqs_eq in T1; left; auto|].
          destruct (beqs (cr_type r) (lit "tags")) eqn:T2; [apply beqs_eq in T2; right; left; auto|].
          destruct (beqs (cr_type r) (lit "regex")) eqn:T3; [apply beqs_eq in T3; right; right; left; auto|].
          destruct (beqs (cr_type r) (lit "negregex")) eqn:T4; [apply beqs_eq in T4; right; right; right; left; auto|].
          unfold one in E. rewrite T1, T2, T3, T4 in E. discriminate. }
        rewrite IH. split.
        * intros (a & r' & b & -> & X & F). exists (r :: a), r', b. split; auto.
        * intros (a & r' & b & H & X & F). destruct a as [|r0 a]; inversion H; subst; [tauto|]. inversion F; subst. exists a, r', b. auto.
  Qed.

  Lemma rs_panic c : RuleSetFromConfig compile c = RsPanic <->
    exists a r b, c_rules c = a ++ r :: b /\ explosive compile r /\ Forall (fun r => known_type r /\ ~ explosive compile r) a.
  Proof. apply rs_panic_from. Qed.

  (** A validated filter can panic only on an expression that does not compile. *)
  Lemma filter_panic c : valid c -> c_mode c = lit "filter" -> RuleSetFromConfig compile c = RsPanic ->
    exists r, In r (c_rules c) /\ (cr_type r = lit "regex" \/ cr_type r = lit "negregex") /\ compile (cr_match r) = None.
  Proof.
    intros (_ & _ & _ & V) M H. apply rs_panic in H. destruct H as (a & r & b & E & X & _).
    assert (Hr : In r (c_rules c)) by (rewrite E; apply in_app_iff; right; left; auto).
    exists r. split; auto. destruct X as [X|(T & t & Ht & L)]; auto. exfalso.
    assert (F : filter_ok c).
    { destruct V as [[[X|X] _]|[[_ X]|[[X _]|[[X _]|X]]]]; auto; rewrite M in X; discriminate. }
    destruct F as [_ F]. rewrite Forall_forall in F. destruct (F r Hr) as (_ & [(_ & _ & _ & P)|[P _]]); [|congruence].
    rewrite Forall_forall in P. rewrite (P t Ht) in L. lia.
  Qed.
End Compile.
