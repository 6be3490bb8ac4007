(** ParseTags and AddLine accept exactly the grammars of GrammarSpec. *)
From Verif Require Import Base Text TextSpec TextProofs Avg AvgSpec AvgProofs GrammarSpec.

Lemma unesc_loop : forall t, unesc t = unescape_loop t /\ forall a, unesc (a :: t) = unescape_loop (a :: t).
Proof.
  induction t as [|b t [IH1 IH2]]; [split; [reflexivity|intros; reflexivity]|]. split; [apply IH2|].
  intros a. cbn [unesc unescape_loop]. change (memb [comma; dq; sp; eqs] b) with (unescapable b).
  destruct (Ascii.eqb a bsl && unescapable b).
  - f_equal. exact IH1.
  - f_equal. exact (IH2 b).
Qed.
Lemma unesc_Unescape t : Unescape t = unesc t.
Proof. rewrite Unescape_loop. symmetry. apply unesc_loop. Qed.

(** ** Tokens *)

Lemma part_inner ds t : part true ds t <-> t <> [] /\ forall p d q, t = p ++ d :: q -> p <> [] -> In d ds -> ends_in bsl p.
Proof.
  unfold part. split; intros [N H]; split; auto; intros p d q E.
  - intros Np I. destruct (H p d q E I) as [[_ ->]|]; [congruence|auto].
  - intros I. destruct p as [|x p]; [left; auto|right]. eapply H; eauto. discriminate.
Qed.

Lemma token_part ds s tok rest : TokenEscaped ds s = (tok, rest) -> tok <> [] ->
  s = tok ++ rest /\ part_before true ds tok rest /\ (rest = [] \/ exists d r, rest = d :: r /\ In d ds).
Proof.
  intros H N. pose proof (TokenEscaped_split _ _ _ _ H) as E. pose proof (TokenEscaped_rest _ _ _ _ H) as R.
  pose proof (TokenEscaped_inner _ _ _ _ H) as Inn. split; [auto|]. split.
  - split; [apply part_inner; split; auto|]. split.
    + intros Nr. destruct R as [->|(d & r & -> & _ & X)]; [congruence|auto].
    + intros -> d -> I. rewrite app_nil_r in E. subst s. rewrite TokenEscaped_single in H.
      apply memb_In in I. rewrite I in H. discriminate.
  - destruct R as [->|(d & r & -> & I & _)]; [auto|right; eauto].
Qed.

Lemma part_token ds tok rest : part_before true ds tok rest -> (rest = [] \/ exists d r, rest = d :: r /\ In d ds) ->
  TokenEscaped ds (tok ++ rest) = (tok, rest).
Proof.
  intros (P & A & B) R. apply part_inner in P. destruct P as [N Inn]. destruct R as [->|(d & r & -> & I)].
  - rewrite app_nil_r. destruct (TokenEscaped ds tok) as [t r] eqn:E.
    pose proof (TokenEscaped_split _ _ _ _ E) as Es. destruct (TokenEscaped_rest _ _ _ _ E) as [->|(d & r' & -> & I & X)].
    + rewrite app_nil_r in Es. subst. auto.
    + exfalso. destruct t as [|x t].
      * cbn [app] in Es. destruct r' as [|y r'].
        -- apply (B eq_refl d); auto.
        -- apply (TokenEscaped_nonempty _ _ _ _ E); auto. rewrite <- Es. simpl. lia.
      * apply X. eapply Inn; eauto. discriminate.
  - apply TokenEscaped_unique; auto. apply A. discriminate.
Qed.

Lemma Token_E ds s : Token ds s = let (t, r) := TokenEscaped ds s in (unesc t, r).
Proof. rewrite Token_spec. destruct (TokenEscaped ds s) as [t r]. cbn [fst snd]. rewrite unesc_Unescape. auto. Qed.

Lemma unesc_ne t : t <> [] -> unesc t <> [].
Proof. destruct t as [|a [|b t]]; try congruence; [discriminate|]. cbn [unesc]. destruct (_ && _); discriminate. Qed.

Lemma TokenEscaped_nil ds s : fst (TokenEscaped ds s) = [] -> s = [] \/ exists d, s = [d] /\ In d ds.
Proof.
  intros H. destruct s as [|a [|b s]]; [auto| |].
  - rewrite TokenEscaped_single in H. destruct (memb ds a) eqn:E; [|discriminate]. right. exists a. split; auto. apply memb_In; auto.
  - destruct (TokenEscaped ds (a :: b :: s)) as [t r] eqn:E. cbn [fst] in H. subst. exfalso.
    apply (TokenEscaped_nonempty _ _ _ _ E); auto. simpl. lia.
Qed.

(** ** ParseTags *)

Lemma loop_sound m : forall fuel s acc tags r, (s = [] \/ exists d s', s = d :: s' /\ In d [comma; sp]) ->
  parse_tags_loop fuel m s acc = POk m tags r -> exists ts, tags = rev acc ++ ts /\ tags_text true s ts r.
Proof.
  induction fuel as [|f IH]; intros s acc tags r Hs H; [discriminate|]. cbn [parse_tags_loop] in H.
  destruct s as [|c s1].
  { inversion H; subst. exists []. rewrite app_nil_r. split; auto. constructor. }
  destruct (Ascii.eqb_spec c sp) as [->|Nc].
  { inversion H; subst. exists []. rewrite app_nil_r. split; auto. constructor. }
  assert (c = comma).
  { destruct Hs as [?|(d & s' & E & I)]; [discriminate|]. inversion E; subst. destruct I as [<-|[<-|[]]]; congruence. }
  subst c. change (lit "= ,") with [eqs; sp; comma] in H. rewrite Token_E in H.
  destruct (TokenEscaped [eqs; sp; comma] s1) as [k s2] eqn:E1. destruct s2 as [|d s3]; [discriminate|].
  destruct (Ascii.eqb_spec d eqs) as [->|]; [|discriminate]. cbn [negb] in H.
  change (lit ", ") with [comma; sp] in H. rewrite Token_E in H.
  destruct (TokenEscaped [comma; sp] s3) as [v s4] eqn:E2.
  assert (Nv : v <> []) by (intros ->; discriminate).
  assert (Nk : k <> []).
  { intros ->. pose proof (TokenEscaped_nil [eqs; sp; comma] s1) as X. rewrite E1 in X. cbn [fst] in X.
    pose proof (TokenEscaped_split _ _ _ _ E1) as Es. destruct (X eq_refl) as [->|(d & -> & _)]; [discriminate|].
    inversion Es; subst. cbn in E2. inversion E2; subst. congruence. }
  destruct (token_part _ _ _ _ E1 Nk) as (-> & (Pk & Ak & _) & _).
  destruct (token_part _ _ _ _ E2 Nv) as (-> & Pv & Rv).
  destruct (unesc v) as [|x xs] eqn:Ev; [exfalso; apply (unesc_ne v Nv Ev)|]. rewrite <- Ev in H.
  apply IH in H; [|exact Rv]. destruct H as (ts & -> & T).
  exists ((unesc k, unesc v) :: ts). split; [cbn [rev]; rewrite <- app_assoc; reflexivity|].
  apply tags_more; auto. apply Ak. discriminate.
Qed.

Lemma tags_text_start lead s tags r : tags_text lead s tags r -> s = [] \/ exists d s', s = d :: s' /\ In d [comma; sp].
Proof. intros H. inversion H; subst; [auto|right; do 2 eexists; split; [reflexivity|simpl; auto]..]. Qed.

Lemma loop_complete m s ts r : tags_text true s ts r -> forall fuel acc, length s < fuel ->
  parse_tags_loop fuel m s acc = POk m (rev acc ++ ts) r.
Proof.
  induction 1 as [|r|k v s tags r Pk Nk Pv T IH]; intros [|f] acc L; try lia; cbn [parse_tags_loop].
  - rewrite app_nil_r. auto.
  - rewrite Ascii.eqb_refl, app_nil_r. auto.
  - change (Ascii.eqb comma sp) with false. cbv iota.
    change (lit "= ,") with [eqs; sp; comma]. rewrite Token_E, part_token; cycle 1.
    { split; [auto|]. split; [auto|]. discriminate. }
    { right. do 2 eexists. split; [reflexivity|simpl; auto]. }
    rewrite Ascii.eqb_refl. cbn [negb]. change (lit ", ") with [comma; sp].
    rewrite Token_E, (part_token [comma; sp] v s Pv (tags_text_start _ _ _ _ T)).
    destruct (unesc v) as [|x xs] eqn:Ev; [exfalso; eapply unesc_ne; [|exact Ev]; apply Pv|]. rewrite <- Ev.
    rewrite IH; [cbn [rev]; rewrite <- app_assoc; reflexivity|].
    cbn [length] in L. rewrite app_length in L. cbn [length] in L. rewrite app_length in L. lia.
Qed.

Lemma loop_name m : forall fuel s acc m' tags r, parse_tags_loop fuel m s acc = POk m' tags r -> m' = m.
Proof.
  induction fuel as [|f IH]; intros s acc m' tags r H; [discriminate|]. cbn [parse_tags_loop] in H.
  destruct s as [|c s1]; [inversion H; auto|]. destruct (Ascii.eqb c sp); [inversion H; auto|].
  destruct (Token (lit "= ,") s1) as [k [|d s3]]; [discriminate|]. destruct (negb (Ascii.eqb d eqs)); [discriminate|].
  destruct (Token (lit ", ") s3) as [v s4]. destruct v; [discriminate|]. eauto.
Qed.

(** The parser accepts exactly the grammar (and the two texts of at most one byte). *)
Lemma parse_iff line m tags r : ParseTags line = POk m tags r <->
  line_text true line m tags r \/ ((line = [] \/ line = [sp]) /\ m = [] /\ tags = [] /\ r = []).
Proof.
  unfold ParseTags. change (lit ", ") with [comma; sp]. rewrite Token_E.
  destruct (TokenEscaped [comma; sp] line) as [t s] eqn:E. split.
  - intros H. destruct t as [|x t0] eqn:Et.
    + right. pose proof (TokenEscaped_nil [comma; sp] line) as X. rewrite E in X. cbn [fst] in X.
      pose proof (TokenEscaped_split _ _ _ _ E) as Es. cbn [app] in Es. subst s.
      destruct (X eq_refl) as [->|(d & -> & I)].
      * cbn in H. inversion H. auto.
      * destruct I as [<-|[<-|[]]]; cbn in H; inversion H; auto.
    + left. assert (Nt : t <> []) by (subst; discriminate). rewrite <- Et in *. clear Et.
      destruct (token_part _ _ _ _ E Nt) as (-> & P & R). exists t, s. split; [auto|].
      assert (Em : m = unesc t).
      { destruct s; [inversion H; auto|]. eapply loop_name; eauto. }
      subst m. split; [auto|]. split; [auto|]. destruct s as [|c s]; [inversion H; constructor|].
      apply loop_sound in H; [|exact R]. destruct H as (ts & -> & T). exact T.
  - intros [(t' & s' & -> & -> & P & T)|([->| ->] & -> & -> & ->)].
    + rewrite (part_token _ _ _ P (tags_text_start _ _ _ _ T)) in E. inversion E; subst t' s'.
      destruct s as [|c s].
      * inversion T; subst. auto.
      * rewrite (loop_complete _ _ _ _ T) by lia. auto.
    + cbn in E. inversion E; subst. auto.
    + cbn in E. inversion E; subst. auto.
Qed.

Lemma parse_err_iff line : ParseTags line = PErr <->
  line <> [] /\ line <> [sp] /\ ~ exists m tags r, line_text true line m tags r.
Proof.
  split.
  - intros H. repeat split.
    + intros ->. discriminate.
    + intros ->. discriminate.
    + intros (m & tags & r & T). rewrite (proj2 (parse_iff line m tags r) (or_introl T)) in H. discriminate.
  - intros (N1 & N2 & N3). destruct (ParseTags line) as [m tags r| |] eqn:E; auto.
    + exfalso. apply parse_iff in E. destruct E as [T|([|] & _)]; try contradiction. apply N3. eauto.
    + exfalso. exact (ParseTags_no_fuel line E).
Qed.

(** ** The strict grammar *)

Lemma part_weaken ds t : part false ds t -> part true ds t.
Proof. intros [N H]; split; auto. intros p d q E I. destruct (H p d q E I) as [[? _]|]; [discriminate|auto]. Qed.
Lemma part_before_weaken ds t s : part_before false ds t s -> part_before true ds t s.
Proof. intros (P & A & B). split; [apply part_weaken; auto|auto]. Qed.
Lemma tags_weaken s tags r : tags_text false s tags r -> tags_text true s tags r.
Proof. induction 1; constructor; auto using part_weaken, part_before_weaken. Qed.
Lemma line_weaken line m tags r : line_text false line m tags r -> line_text true line m tags r.
Proof. intros (t & s & E & Em & P & T). exists t, s. auto using part_before_weaken, tags_weaken. Qed.

(** A part that does not begin with a delimiter is strict. *)
Lemma part_strict ds t : part true ds t -> (forall d t', t = d :: t' -> ~ In d ds) -> part false ds t.
Proof.
  intros [N H] F. split; auto. intros p d q E I. destruct (H p d q E I) as [[_ ->]|]; [|auto].
  exfalso. eapply F; eauto.
Qed.

(** Without a comma or equals sign right before a delimiter, and not starting with one, a line accepted is strict. *)
Lemma tags_strict s tags r : tags_text true s tags r ->
  (forall p a d q, s = p ++ a :: d :: q -> In a [comma; eqs] -> ~ In d [comma; sp; eqs]) -> tags_text false s tags r.
Proof.
  induction 1 as [|r|k v s tags r Pk Nk (Pv & Av & Bv) T IH]; intros F; try constructor; auto.
  - apply part_strict; auto. intros d k' -> I. apply (F [] comma d (k' ++ eqs :: v ++ s)); [reflexivity|simpl; auto|].
    simpl in *; tauto.
  - split; [|auto]. apply part_strict; auto. intros d v' -> I.
    apply (F (comma :: k) eqs d (v' ++ s)); [cbn; rewrite <- ?app_assoc; reflexivity|simpl; auto|simpl in *; tauto].
  - apply IH. intros p a d q E I. apply (F (comma :: k ++ eqs :: v ++ p) a d q); [|auto].
    rewrite E. cbn [app]. repeat (rewrite <- app_assoc; cbn [app]). auto.
Qed.

Lemma line_strict line m tags r : line_text true line m tags r ->
  (forall d q, line = d :: q -> ~ In d [comma; sp]) ->
  (forall p a d q, line = p ++ a :: d :: q -> In a [comma; eqs] -> ~ In d [comma; sp; eqs]) -> line_text false line m tags r.
Proof.
  intros (t & s & -> & -> & (P & A & B) & T) F1 F2. exists t, s. split; [auto|]. split; [auto|]. split.
  - split; [|auto]. apply part_strict; auto. intros d t' -> I. eapply F1; [reflexivity|auto].
  - apply tags_strict; auto. intros p a d q E. apply (F2 (t ++ p) a d q). rewrite E, <- app_assoc. auto.
Qed.

(** ** Field sections *)

Lemma quoted_scan_sound : forall rest prev acc e v r, quoted_scan prev rest acc e = QOk v r ->
  exists body, rest = body ++ dq :: r /\ (forall p q, body = p ++ dq :: q -> ends_in bsl (prev :: p)) /\
    ~ ends_in bsl (prev :: body) /\
    v = if e || memb body dq then Unescape (rev acc ++ body) else rev acc ++ body.
Proof.
  induction rest as [|c rest IH]; intros prev acc e v r H; [discriminate|]. cbn [quoted_scan] in H.
  destruct (Ascii.eqb_spec c dq) as [->|Nc].
  - destruct (Ascii.eqb_spec prev bsl) as [->|Np].
    + apply IH in H. destruct H as (body & -> & A & B & V). exists (dq :: body). split; [reflexivity|]. split; [|split].
      * intros [|x p] q E; [apply ends_in_single; auto|]. cbn [app] in E. inversion E; subst. rewrite ends_in_cons2. eapply A; eauto.
      * rewrite ends_in_cons2. auto.
      * rewrite V. cbn [rev]. rewrite <- app_assoc. cbn [app orb]. unfold memb. cbn [existsb]. rewrite Ascii.eqb_refl. cbn [orb].
        rewrite orb_true_r. auto.
    + inversion H; subst. exists []. split; [reflexivity|]. split; [intros [|? ?] ? E; discriminate|]. split.
      * rewrite ends_in_single. auto.
      * rewrite app_nil_r. unfold memb. cbn [existsb]. rewrite orb_false_r. auto.
  - apply IH in H. destruct H as (body & -> & A & B & V). exists (c :: body). split; [reflexivity|]. split; [|split].
    + intros [|x p] q E; cbn [app] in E; inversion E; subst; [congruence|]. rewrite ends_in_cons2. eapply A; eauto.
    + rewrite ends_in_cons2. auto.
    + rewrite V. cbn [rev]. rewrite <- app_assoc. cbn [app]. unfold memb. cbn [existsb].
      apply Ascii.eqb_neq in Nc. rewrite (Ascii.eqb_sym dq c), Nc. auto.
Qed.

Lemma ends_in_dq p : ends_in bsl (dq :: p) <-> ends_in bsl p.
Proof.
  destruct p as [|x p]; [|apply ends_in_cons2]. rewrite ends_in_single. split; [discriminate|]. intros H; apply ends_in_nil in H; tauto.
Qed.

Lemma quoted_iff s v r : QuotedString s = QOk v r <->
  exists body, s = dq :: body ++ dq :: r /\ (forall p q, body = p ++ dq :: q -> ends_in bsl p) /\ ~ ends_in bsl body /\
    v = if memb body dq then unesc body else body.
Proof.
  split.
  - intros H. unfold QuotedString in H. destruct s as [|c [|c' s]]; try discriminate.
    destruct (Ascii.eqb_spec c dq) as [->|]; [|discriminate]. apply quoted_scan_sound in H.
    destruct H as (body & -> & A & B & V). exists body. split; [auto|]. split; [|split].
    + intros p q E. apply ends_in_dq. eauto.
    + rewrite <- ends_in_dq. auto.
    + rewrite V. cbn [rev app orb]. rewrite unesc_Unescape. auto.
  - intros (body & -> & A & B & ->). unfold QuotedString.
    destruct (body ++ dq :: r) as [|c' s] eqn:E; [destruct body; discriminate|]. rewrite Ascii.eqb_refl, <- E.
    rewrite quoted_scan_pass by (intros p q Ep; apply ends_in_dq; eauto).
    cbn [quoted_scan]. rewrite Ascii.eqb_refl.
    destruct (Ascii.eqb_spec (last (dq :: body) dq) bsl) as [Eb|_].
    + exfalso. apply B. apply ends_in_dq. apply last_ends. auto.
    + cbn [orb]. rewrite app_nil_r, rev_involutive, unesc_Unescape. auto.
Qed.

Lemma parse_loop_sound : forall fuel raw l, length raw < fuel -> parse_loop fuel raw = (l, []) -> fields_text true true raw l.
Proof.
  induction fuel as [|f IH]; intros raw l L H; [lia|]. cbn [parse_loop] in H.
  destruct raw as [|c raw1]; [inversion H; constructor|]. change (lit "=") with [eqs] in H.
  destruct (TokenEscaped [eqs] raw1) as [n raw2] eqn:E1. destruct raw2 as [|d raw3]; [discriminate|].
  destruct (Ascii.eqb_spec d eqs) as [->|]; [|discriminate]. cbn [negb] in H.
  destruct raw3 as [|x raw3']; [discriminate|].
  assert (Nn : n <> []).
  { intros ->. pose proof (TokenEscaped_nil [eqs] raw1) as X. rewrite E1 in X. cbn [fst] in X.
    pose proof (TokenEscaped_split _ _ _ _ E1) as Es. destruct (X eq_refl) as [->|(d & -> & _)]; discriminate. }
  destruct (token_part _ _ _ _ E1 Nn) as (-> & (Pn & An & _) & _).
  assert (Bn : ~ ends_in bsl n) by (apply An; discriminate).
  cbn [length] in L. rewrite app_length in L. cbn [length] in L.
  destruct (Ascii.eqb_spec x dq) as [->|Nx].
  - destruct (QuotedString (dq :: raw3')) as [v raw4| | |] eqn:EQ; try discriminate.
    apply quoted_iff in EQ. destruct EQ as (body & E & A & B & ->). inversion E; subst raw3'.
    destruct (parse_loop f raw4) as [l' e'] eqn:EP. inversion H; subst. 
    apply fields_quoted; auto. apply IH; auto. rewrite app_length in L. cbn [length] in L. lia.
  - change (lit ",") with [comma] in H. rewrite Token_E in H.
    destruct (TokenEscaped [comma] (x :: raw3')) as [v raw4] eqn:E2.
    destruct (parse_loop f raw4) as [l' e'] eqn:EP. inversion H; subst.
    destruct (list_eq_dec ascii_dec v []) as [->|Nv].
    + exfalso. pose proof (TokenEscaped_nil [comma] (x :: raw3')) as X. rewrite E2 in X. cbn [fst] in X.
      destruct (X eq_refl) as [|(d & Ed & [<-|[]])]; [discriminate|]. inversion Ed; subst.
      cbn in E2. inversion E2; subst. destruct f as [|f]; [cbn in L; lia|]. cbn in EP. discriminate.
    + destruct (token_part _ _ _ _ E2 Nv) as (Es & Pv & Rv). 
      assert (L4 : length raw4 < f).
      { apply f_equal with (f := @length ascii) in Es. cbn [length] in Es. rewrite app_length in Es.
        destruct v; [congruence|]. cbn [length] in Es. lia. }
      rewrite Es. apply fields_plain; auto.
      * intros r ->. inversion Es; congruence.
      * destruct Rv as [->|(d & r & -> & [<-|[]])]; eauto.
Qed.

Lemma parse_loop_complete raw l : fields_text true true raw l -> forall fuel, length raw < fuel -> parse_loop fuel raw = (l, []).
Proof.
  induction 1 as [|c n body s l _ Pn Bn A B T IH|c n v s l _ Pn Bn Pv Nq Sv T IH]; intros [|f] L; try lia; cbn [parse_loop]; auto.
  - change (lit "=") with [eqs]. rewrite part_token; cycle 1.
    { split; [auto|]. split; [auto|]. discriminate. }
    { right. do 2 eexists. split; [reflexivity|simpl; auto]. }
    rewrite !Ascii.eqb_refl. cbn [negb].
    rewrite (proj2 (quoted_iff _ _ _) (ex_intro _ body (conj eq_refl (conj A (conj B eq_refl))))).
    rewrite IH; auto. cbn [length] in L. rewrite app_length in L. cbn [length] in L. rewrite app_length in L. cbn [length] in L. lia.
  - change (lit "=") with [eqs]. rewrite part_token; cycle 1.
    { split; [auto|]. split; [auto|]. discriminate. }
    { right. do 2 eexists. split; [reflexivity|simpl; auto]. }
    rewrite Ascii.eqb_refl. cbn [negb].
    destruct (v ++ s) as [|x vs] eqn:E.
    { exfalso. destruct Pv as [[N _] _]. destruct v; [congruence|discriminate]. }
    assert (Nx : Ascii.eqb x dq = false).
    { apply Ascii.eqb_neq. intros ->. destruct v as [|y v]; [destruct Pv as [[N _] _]; congruence|].
      inversion E; subst. eapply Nq; reflexivity. }
    rewrite Nx, <- E. change (lit ",") with [comma]. rewrite Token_E, part_token; [|auto|].
    + rewrite IH; auto. rewrite <- E in L. cbn [length] in L. rewrite app_length in L. cbn [length] in L. rewrite app_length in L. lia.
    + destruct Sv as [->|[r ->]]; [auto|right; do 2 eexists; split; [reflexivity|simpl; auto]].
Qed.

Lemma parse_fields_iff raw l : parse_fields raw = (l, []) <-> fields_text true true raw l.
Proof.
  unfold parse_fields. split; [apply parse_loop_sound; lia|]. intros H. apply parse_loop_complete; auto.
Qed.

Section Add.
  Variable fo : floatOps.

  Lemma put_all_type_errors l : forall fp, Forall (fun e => e = EWrongType) (snd (put_all fo fp l)).
  Proof.
    induction l as [|[[n q] v] l IH]; intros fp; cbn [put_all]; [constructor|].
    assert (X : Forall (fun e => e = EWrongType) (snd (put_field fo fp n q v))).
    { unfold put_field. destruct (mget fp n) as [x|]; [destruct (updateValue fo x v)|]; cbn [snd]; repeat constructor. }
    destruct (put_field fo fp n q v) as [fp1 e1]. specialize (IH fp1). destruct (put_all fo fp1 l) as [fp2 e2].
    cbn [snd] in *. apply Forall_app. auto.
  Qed.

  Lemma parse_loop_errs : forall fuel raw, Forall (fun e => e <> EWrongType) (snd (parse_loop fuel raw)).
  Proof.
    induction fuel as [|f IH]; intros raw; cbn [parse_loop]; [constructor|].
    assert (X : forall e, e <> EWrongType -> Forall (fun e => e <> EWrongType) [e]) by (intros; repeat constructor; auto).
    destruct raw as [|c raw1]; [constructor|]. destruct (TokenEscaped (lit "=") raw1) as [n [|d raw3]]; [apply X; discriminate|].
    destruct (negb (Ascii.eqb d eqs)); [apply X; discriminate|]. destruct raw3 as [|y raw3]; [apply X; discriminate|].
    destruct (Ascii.eqb y dq).
    - destruct (QuotedString (y :: raw3)) as [v raw4| | |]; try (apply X; discriminate).
      specialize (IH raw4). destruct (parse_loop f raw4). auto.
    - destruct (Token (lit ",") (y :: raw3)) as [v raw4]. specialize (IH raw4). destruct (parse_loop f raw4). auto.
  Qed.

  (** All errors of a line are type errors iff the field section is in the grammar. *)
  Lemma add_line_structure b line key raw : TokenEscaped [sp] line = (key, raw) ->
    (Forall (fun e => e = EWrongType) (snd (AddLine fo b line)) <-> exists l, fields_text true true raw l).
  Proof.
    intros T. unfold AddLine. change (lit " ") with [sp]. rewrite T.
    assert (X : forall fp, Forall (fun e => e = EWrongType) (snd (updateFields fo fp raw)) <-> exists l, fields_text true true raw l).
    { intros fp. rewrite updateFields_parse. pose proof (parse_loop_errs (S (length raw)) raw) as PE. fold (parse_fields raw) in PE.
      destruct (parse_fields raw) as [l e] eqn:P. pose proof (put_all_type_errors l fp) as TE. destruct (put_all fo fp l) as [fp' es].
      cbn [snd] in *. split.
      - intros F. apply Forall_app in F. destruct F as [_ F]. exists l. apply parse_fields_iff. rewrite P. f_equal.
        destruct e as [|x e]; auto. inversion PE; inversion F; subst. congruence.
      - intros [l' H]. apply parse_fields_iff in H. rewrite P in H. inversion H; subst. rewrite app_nil_r. auto. }
    destruct (mget b key) as [fields|].
    - specialize (X fields). destruct (updateFields fo fields raw). auto.
    - specialize (X []). destruct (updateFields fo [] raw) as [fp [|e es]]; auto.
  Qed.

  (** For a series not seen before: accepted iff in the grammar, if no field is named twice. *)
  Lemma put_fresh_map l : NoDup (map (fun a => fst (fst a)) l) -> forall fp, (forall a, In a l -> mget fp (fst (fst a)) = None) ->
    forall n q v, In (n, q, v) l -> mget (fst (put_all fo fp l)) n = Some (create fo q v).
  Proof.
    intros D fp F n q v I. rewrite put_all_get. pose proof (F _ I) as F0; cbn [fst] in F0; rewrite F0; clear F0.
    assert (E : for_name n l = [(q, v)]).
    { clear F. induction l as [|[[a q'] v'] l IH]; [destruct I|]. cbn [map fst] in D. inversion D as [|? ? N D']; subst.
      cbn [for_name flat_map fst snd]. fold (for_name n l). destruct I as [I|I].
      - inversion I; subst. rewrite beqs_refl. cbn [app].
        assert (Z : for_name n l = []); [|rewrite Z; auto].
        clear - N. induction l as [|[[a q'] v'] l IH]; [reflexivity|]. cbn [for_name flat_map fst snd]. fold (for_name n l).
        cbn [map fst In] in N. destruct (beqs a n) eqn:E; [apply beqs_eq in E; tauto|]. apply IH. tauto.
      - destruct (beqs a n) eqn:E; [|apply IH; auto]. apply beqs_eq in E. subst a. exfalso. apply N. apply in_map_iff. exists (n, q, v). auto. }
    rewrite E. reflexivity.
  Qed.

  Lemma add_line_new b line key raw : TokenEscaped [sp] line = (key, raw) -> mget b key = None ->
    (forall l, fields_text true true raw l -> NoDup (map (fun a => fst (fst a)) l) ->
       snd (AddLine fo b line) = [] /\
       exists fields, mget (fst (AddLine fo b line)) key = Some fields /\
         forall n q v, In (n, q, v) l -> mget fields n = Some (if q then VString fo v else newFieldValue fo v)) /\
    (snd (AddLine fo b line) = [] -> exists l, fields_text true true raw l).
  Proof.
    intros T M. split.
    - intros l H D. unfold AddLine. change (lit " ") with [sp]. rewrite T, M, updateFields_parse.
      rewrite (proj2 (parse_fields_iff _ _) H). pose proof (put_all_fresh fo l [] D (fun _ _ => eq_refl)) as F.
      pose proof (put_fresh_map l D [] (fun _ _ => eq_refl)) as G.
      destruct (put_all fo [] l) as [fp es]. cbn [fst snd] in *. subst es. cbn [app snd fst]. split; auto.
      exists fp. split; [rewrite mget_mset, beqs_refl; auto|]. exact G.
    - intros E. apply (add_line_structure b line key raw T). rewrite E. constructor.
  Qed.
End Add.

(** ** Statements for P_Grammar *)

Lemma split_key key raw : part_before true [sp] key raw -> (raw = [] \/ exists r, raw = sp :: r) -> TokenEscaped [sp] (key ++ raw) = (key, raw).
Proof. intros P R. apply part_token; auto. destruct R as [->|[r ->]]; [auto|right; do 2 eexists; split; [reflexivity|simpl; auto]]. Qed.

Lemma add_structure fo (b : avgBucket fo) key raw : part_before true [sp] key raw -> (raw = [] \/ exists r, raw = sp :: r) ->
  (Forall (fun e => e = EWrongType) (snd (AddLine fo b (key ++ raw))) <-> exists l, fields_text true true raw l).
Proof. intros P R. apply add_line_structure with key. apply split_key; auto. Qed.

Lemma add_new fo (b : avgBucket fo) key raw : part_before true [sp] key raw -> (raw = [] \/ exists r, raw = sp :: r) ->
  mget b key = None ->
  (forall l, fields_text true true raw l -> NoDup (map (fun a => fst (fst a)) l) ->
     snd (AddLine fo b (key ++ raw)) = [] /\
     exists fields, mget (fst (AddLine fo b (key ++ raw))) key = Some fields /\
       forall n q v, In (n, q, v) l -> mget fields n = Some (if q then VString fo v else newFieldValue fo v)) /\
  (snd (AddLine fo b (key ++ raw)) = [] -> exists l, fields_text true true raw l).
Proof. intros P R M. apply add_line_new; auto. apply split_key; auto. Qed.

Lemma fields_weaken raw l : fields_text false false raw l -> fields_text true true raw l.
Proof. induction 1; constructor; auto using part_weaken, part_before_weaken. Qed.

(** Any byte may stand for the first separator. *)
Lemma fields_first_sep c d raw l : fields_text true true (c :: raw) l -> fields_text true true (d :: raw) l.
Proof. intros H. inversion H; subst; [apply fields_quoted|apply fields_plain]; auto. Qed.

(** A tag without value swallows the next tag. *)
Lemma swallow m k x r : part false [comma; sp] m -> ~ ends_in bsl m -> part false [eqs; sp; comma] k -> ~ ends_in bsl k ->
  part false [comma; sp] x -> ~ ends_in bsl x ->
  ParseTags (m ++ comma :: k ++ eqs :: comma :: x ++ sp :: r) = POk (unesc m) [(unesc k, comma :: unesc x)] r.
Proof.
  intros Pm Em Pk Ek Px Ex. apply parse_iff. left. exists m, (comma :: k ++ eqs :: (comma :: x) ++ sp :: r).
  split; [reflexivity|]. split; [reflexivity|]. split; [split; [apply part_weaken; auto|split; [auto|discriminate]]|].
  assert (Eu : comma :: unesc x = unesc (comma :: x)).
  { destruct x as [|y x]; [reflexivity|]. cbn [unesc]. change (Ascii.eqb comma bsl) with false. reflexivity. }
  rewrite Eu. apply tags_more; [apply part_weaken; auto|auto| |constructor].
  destruct Px as [Nx Hx]. split; [|split].
  - split; [discriminate|]. intros [|y p] d q E I; [left; auto|right]. cbn [app] in E. inversion E; subst.
    destruct (Hx p d q eq_refl I) as [[? _]|He]; [discriminate|].
    destruct p as [|z p]; [apply ends_in_nil in He; tauto|]. rewrite ends_in_cons2. auto.
  - intros _. destruct x; [congruence|]. rewrite ends_in_cons2. auto.
  - discriminate.
Qed.

Lemma not_strict : ~ exists m tags r, line_text false (lit "cpu,a=,b=c f=1") m tags r.
Proof.
  intros (m & tags & r & t & s & E & _ & P & T).
  pose proof (part_token _ _ _ (part_before_weaken _ _ _ P) (tags_text_start _ _ _ _ T)) as K.
  rewrite <- E in K. assert (C : TokenEscaped [comma; sp] (lit "cpu,a=,b=c f=1") = (lit "cpu", lit ",a=,b=c f=1")) by reflexivity.
  rewrite C in K. injection K as E2 E3. clear C E P. rewrite <- E3 in T. clear E3 E2.
  inversion T as [| |k v s' tags' r' Pk Nk Pv T' E4]; subst.
  assert (X : TokenEscaped [eqs; sp; comma] (k ++ eqs :: v ++ s') = (k, eqs :: v ++ s')).
  { apply part_token; [split; [apply part_weaken; auto|split; [auto|discriminate]]|right; do 2 eexists; split; [reflexivity|simpl; auto]]. }
  rewrite E4 in X. change (TokenEscaped _ _) with (lit "a", lit "=,b=c f=1") in X. injection X as E5 E6.
  pose proof (part_token _ _ _ (part_before_weaken _ _ _ Pv) (tags_text_start _ _ _ _ T')) as K.
  rewrite <- E6 in K. change (TokenEscaped _ _) with (lit ",b=c", lit " f=1") in K. injection K as E7 E8.
  destruct Pv as [[_ H] _]. rewrite <- E7 in H.
  destruct (H [] comma (lit "b=c") eq_refl (or_introl eq_refl)) as [[? _]|He]; [discriminate|].
  apply ends_in_nil in He. auto.
Qed.
