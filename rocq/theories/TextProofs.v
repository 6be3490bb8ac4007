From Verif Require Import Base Text TextSpec.

(* ------------------------------------------------------------------ *)
(** * Escape / Unescape *)

Lemma escape_loop_spec cs v : escape_loop cs v = esc_spec cs v.
Proof.
  induction v as [|a v IH]; simpl; auto. unfold esc_spec in *. simpl.
  destruct (memb cs a); simpl; rewrite IH; auto.
Qed.

Lemma filter_nil_escape cs v : length (filter (memb cs) v) = 0 -> escape_loop cs v = v.
Proof.
  induction v as [|a v IH]; simpl; auto.
  destruct (memb cs a); simpl; intros; [lia | rewrite IH; auto].
Qed.

Lemma Escape_loop cs v : Escape cs v = escape_loop cs v.
Proof.
  unfold Escape. destruct cs as [|c cs].
  - induction v as [|a v IH]; simpl; congruence.
  - unfold countBytes. destruct (Nat.eqb_spec (length (filter (memb (c :: cs)) v)) 0); auto.
    symmetry; apply filter_nil_escape; auto.
Qed.

Lemma Escape_spec cs v : Escape cs v = esc_spec cs v.
Proof. rewrite Escape_loop; apply escape_loop_spec. Qed.

Lemma unescape_loop_nobsl v : memb v bsl = false -> unescape_loop v = v.
Proof.
  induction v as [|a v IH]; auto. intros H.
  apply memb_false in H. simpl in H.
  assert (Ha : Ascii.eqb a bsl = false) by (apply Ascii.eqb_neq; intuition).
  assert (IH' : unescape_loop v = v) by (apply IH, memb_false; intuition).
  cbn [unescape_loop]. destruct v as [|b v']; auto.
  rewrite Ha; cbn [andb]. rewrite IH'; auto.
Qed.

Lemma Unescape_loop v : Unescape v = unescape_loop v.
Proof. unfold Unescape. destruct (memb v bsl) eqn:E; auto. symmetry; apply unescape_loop_nobsl; auto. Qed.

Lemma unescape_cons_nb a r : a <> bsl -> unescape_loop (a :: r) = a :: unescape_loop r.
Proof.
  intros H. apply Ascii.eqb_neq in H. cbn [unescape_loop].
  destruct r; auto. rewrite H; auto.
Qed.

Lemma unescape_bsl_hit b r : unescapable b = true -> unescape_loop (bsl :: b :: r) = b :: unescape_loop r.
Proof. intros H. cbn [unescape_loop]. rewrite H, Ascii.eqb_refl; auto. Qed.

Lemma unescape_bsl_miss b r : unescapable b = false ->
  unescape_loop (bsl :: b :: r) = bsl :: unescape_loop (b :: r).
Proof. intros H. cbn [unescape_loop]. rewrite H, andb_false_r; auto. Qed.

Lemma unescapable_bsl : unescapable bsl = false.
Proof. reflexivity. Qed.

Lemma unescapable_In c : unescapable c = true <-> In c [comma; dq; sp; eqs].
Proof. apply memb_In. Qed.

Section Esc.
  Variable cs : bytes.
  Hypothesis Hcs : forall c, In c cs -> unescapable c = true.

  Lemma bsl_not_cs : memb cs bsl = false.
  Proof. apply memb_false. intros H. apply Hcs in H. rewrite unescapable_bsl in H; congruence. Qed.

  Lemma unescape_escape_len v : length (unescape_loop (escape_loop cs v)) <= length v.
  Proof.
    assert (H : forall n v, length v <= n -> length (unescape_loop (escape_loop cs v)) <= length v); [|eauto]. clear v.
    induction n as [|n IH]; intros v L.
    - destruct v; simpl in *; lia.
    - destruct v as [|a r]; cbn [escape_loop]; [simpl; lia|]. simpl in L.
      destruct (memb cs a) eqn:Ea.
      + rewrite unescape_bsl_hit by (apply Hcs, memb_In; auto). cbn [length] in *. specialize (IH r). lia.
      + destruct (Ascii.eqb_spec a bsl) as [->|Na].
        * destruct r as [|b r']; [simpl; lia|]. cbn [escape_loop].
          destruct (memb cs b) eqn:Eb.
          -- rewrite unescape_bsl_miss by apply unescapable_bsl.
             rewrite unescape_bsl_hit by (apply Hcs, memb_In; auto). cbn [length] in *. specialize (IH r'). lia.
          -- destruct (unescapable b) eqn:Ub.
             ++ rewrite unescape_bsl_hit by auto. cbn [length] in *. specialize (IH r'). lia.
             ++ rewrite unescape_bsl_miss by auto. specialize (IH (b :: r')).
                cbn [escape_loop] in IH. rewrite Eb in IH. cbn [length] in *. lia.
        * rewrite unescape_cons_nb by auto. cbn [length] in *. specialize (IH r). lia.
  Qed.

  (** The pairs that break the round trip: backslash followed by something Unescape
      strips although Escape did not add it. *)
  Lemma unescape_escape_iff v :
    unescape_loop (escape_loop cs v) = v <->
    ~ exists p c q, v = p ++ bsl :: c :: q /\ unescapable c = true /\ memb cs c = false.
  Proof.
    induction v as [|a r IH].
    - simpl; split; auto. intros _ (p & c & q & E & _). destruct p; discriminate.
    - cbn [escape_loop]. split.
      + intros H (p & c & q & E & Uc & Mc).
        destruct p as [|x p]; simpl in E; inversion E; subst; clear E.
        * rewrite bsl_not_cs in H. cbn [escape_loop] in H. rewrite Mc in H.
          rewrite unescape_bsl_hit in H by auto.
          apply (f_equal (@length _)) in H. simpl in H.
          pose proof (unescape_escape_len q). lia.
        * remember (p ++ bsl :: c :: q) as r eqn:Er.
          assert (X : unescape_loop (escape_loop cs r) = r).
          { destruct (memb cs x) eqn:Ex.
            - rewrite unescape_bsl_hit in H by (apply Hcs, memb_In; auto). congruence.
            - destruct (Ascii.eqb_spec x bsl) as [->|Nx].
              + destruct r as [|b r']; auto. cbn [escape_loop] in *.
                destruct (memb cs b) eqn:Eb.
                * rewrite unescape_bsl_miss in H by apply unescapable_bsl. congruence.
                * destruct (unescapable b) eqn:Ub.
                  -- rewrite unescape_bsl_hit in H by auto.
                     apply (f_equal (@length _)) in H. simpl in H.
                     pose proof (unescape_escape_len r'). lia.
                  -- rewrite unescape_bsl_miss in H by auto. congruence.
              + rewrite unescape_cons_nb in H by auto. congruence. }
          apply IH in X. apply X. exists p, c, q; auto.
      + intros H.
        assert (X : unescape_loop (escape_loop cs r) = r).
        { apply IH. intros (p & c & q & E & U & M). apply H. exists (a :: p), c, q. subst; auto. }
        destruct (memb cs a) eqn:Ea.
        * rewrite unescape_bsl_hit by (apply Hcs, memb_In; auto). congruence.
        * destruct (Ascii.eqb_spec a bsl) as [->|Na].
          -- destruct r as [|b r']; auto. cbn [escape_loop] in *.
             destruct (memb cs b) eqn:Eb.
             ++ rewrite unescape_bsl_miss by apply unescapable_bsl. congruence.
             ++ destruct (unescapable b) eqn:Ub.
                ** exfalso. apply H. exists [], b, r'. auto.
                ** rewrite unescape_bsl_miss by auto. congruence.
          -- rewrite unescape_cons_nb by auto. congruence.
  Qed.
End Esc.

Lemma escape_tag_roundtrip v : Unescape (EscapeTagPart v) = v <-> ~ has_pair bsl [dq] v.
Proof.
  unfold EscapeTagPart. rewrite Unescape_loop, Escape_loop.
  rewrite unescape_escape_iff.
  2:{ intros c Hc. apply unescapable_In. simpl in *. intuition. }
  unfold has_pair. split; intros H (p & c & q & E & X); apply H; exists p, c, q; split; auto.
  - simpl in X. destruct X as [<-|[]]. split; reflexivity.
  - destruct X as [U M]. apply unescapable_In in U. apply memb_false in M. simpl in *. intuition.
Qed.

Lemma escape_measurement_roundtrip v : Unescape (EscapeMeasurement v) = v <-> ~ has_pair bsl [dq; eqs] v.
Proof.
  unfold EscapeMeasurement. rewrite Unescape_loop, Escape_loop.
  rewrite unescape_escape_iff.
  2:{ intros c Hc. apply unescapable_In. simpl in *. intuition. }
  unfold has_pair. split; intros H (p & c & q & E & X); apply H; exists p, c, q; split; auto.
  - simpl in X. destruct X as [<-|[<-|[]]]; split; reflexivity.
  - destruct X as [U M]. apply unescapable_In in U. apply memb_false in M. simpl in *. intuition.
Qed.

Lemma esc_spec_app cs a b : esc_spec cs (a ++ b) = esc_spec cs a ++ esc_spec cs b.
Proof. apply flat_map_app. Qed.

(* ------------------------------------------------------------------ *)
(** * Token *)

Lemma ends_in_cons2 c x y p : ends_in c (x :: y :: p) <-> ends_in c (y :: p).
Proof.
  unfold ends_in; split; intros [q E].
  - destruct q as [|z q]; simpl in E; inversion E; subst. exists q; auto.
  - exists (x :: q). simpl. congruence.
Qed.

Lemma ends_in_single c x : ends_in c [x] <-> x = c.
Proof.
  unfold ends_in; split; intros E.
  - destruct E as [q E]. destruct q as [|z q]; simpl in E; inversion E; auto. destruct q; discriminate.
  - subst; exists []; auto.
Qed.

Lemma ends_in_nil c : ~ ends_in c [].
Proof. intros [q E]. destruct q; discriminate. Qed.

Lemma ends_in_app c a b : b <> [] -> (ends_in c (a ++ b) <-> ends_in c b).
Proof.
  intros Hb. induction a as [|x a IH]; simpl; [tauto|].
  destruct (a ++ b) as [|y l] eqn:E.
  - destruct a; simpl in E; congruence.
  - rewrite ends_in_cons2. auto.
Qed.

Lemma ends_in_dec c v : {ends_in c v} + {~ ends_in c v}.
Proof.
  induction v as [|x [|y v] IH].
  - right. apply ends_in_nil.
  - destruct (ascii_dec x c); [left|right]; rewrite ends_in_single; auto.
  - destruct IH; [left|right]; rewrite ends_in_cons2; auto.
Qed.

(** Every position of [rest] (with look-behind [prev]) that is in the token is either
    not a delimiter or preceded by a backslash. *)
Lemma token_scan_spec until : forall rest prev e n e',
  token_scan until prev rest e = (n, e') ->
  n <= length rest /\
  (forall p d q, firstn n rest = p ++ d :: q -> In d until -> ends_in bsl (prev :: p)) /\
  (forall d r, skipn n rest = d :: r -> In d until /\ ~ ends_in bsl (prev :: firstn n rest)) /\
  (e' = true <-> e = true \/ (n > 0 /\ exists p c q, prev :: firstn n rest = p ++ bsl :: c :: q)).
Proof.
  induction rest as [|c rest IH]; intros prev e n e' H; cbn [token_scan] in H.
  - inversion H; subst. simpl.
    split; [lia|]. split; [intros [] ? ?; discriminate|]. split; [discriminate|].
    split; auto. intros [?|[? _]]; [auto|lia].
  - destruct (Ascii.eqb_spec prev bsl) as [->|Np].
    + destruct (token_scan until c rest true) as [m e1] eqn:Es. inversion H; subst; clear H.
      destruct (IH _ _ _ _ Es) as (L & A & B & C).
      split; [simpl; lia|]. split; [|split].
      * intros p d q E Hd. destruct p as [|x p]; simpl in E; inversion E; subst.
        -- apply ends_in_single; auto.
        -- apply ends_in_cons2. eapply A; eauto.
      * intros d r E. simpl in E. cbn [firstn]. rewrite ends_in_cons2. apply (B d r E).
      * split; [|intros; apply C; auto]. intros _. right. split; [lia|].
        exists [], c, (firstn m rest). auto.
    + destruct (memb until c) eqn:Ec.
      * inversion H; subst; clear H. simpl.
        split; [lia|]. split; [intros [] ? ?; discriminate|]. split.
        -- intros d r E; inversion E; subst. apply memb_In in Ec. rewrite ends_in_single. auto.
        -- split; auto. intros [?|[? _]]; [auto|lia].
      * destruct (token_scan until c rest e) as [m e1] eqn:Es. inversion H; subst; clear H.
        destruct (IH _ _ _ _ Es) as (L & A & B & C).
        split; [simpl; lia|]. split; [|split].
        -- intros p d q E Hd. destruct p as [|x p]; simpl in E; inversion E; subst.
           ++ apply memb_false in Ec. contradiction.
           ++ apply ends_in_cons2. eapply A; eauto.
        -- intros d r E. simpl in E. cbn [firstn]. rewrite ends_in_cons2. apply (B d r E).
        -- rewrite C. split.
           ++ intros [?|(G & p & x & q & E)]; auto. right. split; [lia|].
              exists (prev :: p), x, q. cbn [firstn]. rewrite E. auto.
           ++ intros [?|(G & p & x & q & E)]; auto. right.
              destruct p as [|y p]; simpl in E; inversion E; subst; [congruence|].
              destruct m as [|m]; [destruct p as [|? [|? ?]]; simpl in *; congruence|].
              split; [lia|]. exists p, x, q. auto.
Qed.

Lemma unescape_nop v : (forall p c q, v = p ++ bsl :: c :: q -> False) -> unescape_loop v = v.
Proof.
  induction v as [|a [|b v] IH]; auto. intros H.
  destruct (Ascii.eqb_spec a bsl) as [->|Na].
  - exfalso. apply (H [] b v). auto.
  - rewrite unescape_cons_nb by auto. rewrite IH; auto.
    intros p c q E. apply (H (a :: p) c q). simpl; congruence.
Qed.

Lemma token_le until s n e : token until s = (n, e) -> n <= length s.
Proof.
  unfold token. destruct s as [|c [|c' rest]].
  - intros H; inversion H; auto.
  - destruct (memb until c); intros H; inversion H; simpl; auto.
  - destruct (token_scan until c (c' :: rest) false) as [m e1] eqn:E.
    intros H; inversion H; subst. apply token_scan_spec in E. destruct E as [E _]. simpl in *. lia.
Qed.

Lemma token_pos until s n e : 2 <= length s -> token until s = (n, e) -> 0 < n.
Proof.
  unfold token. destruct s as [|c [|c' rest]]; simpl; try lia. intros _.
  destruct (if (c =? bsl)%char then _ else _). intros H; inversion H; lia.
Qed.

Lemma TokenEscaped_split until s tok rest :
  TokenEscaped until s = (tok, rest) -> tok ++ rest = s.
Proof.
  unfold TokenEscaped. destruct (token until s). intros H; inversion H; subst. apply firstn_skipn.
Qed.

Lemma TokenEscaped_rest until s tok rest :
  TokenEscaped until s = (tok, rest) ->
  rest = [] \/ exists d r, rest = d :: r /\ In d until /\ ~ ends_in bsl tok.
Proof.
  unfold TokenEscaped, token. destruct s as [|c [|c' s]].
  - intros H; inversion H; auto.
  - destruct (memb until c) eqn:E; intros H; inversion H; subst; auto. right.
    exists c, []. repeat split; auto. apply memb_In; auto. apply ends_in_nil.
  - destruct (token_scan until c (c' :: s) false) as [m e1] eqn:E.
    intros H; inversion H; subst; clear H. apply token_scan_spec in E. destruct E as (L & A & B & C).
    change (skipn (S m) (c :: c' :: s)) with (skipn m (c' :: s)).
    destruct (skipn m (c' :: s)) as [|d r] eqn:Es; auto. right.
    exists d, r. destruct (B d r eq_refl). auto.
Qed.

Lemma TokenEscaped_inner until s tok rest :
  TokenEscaped until s = (tok, rest) ->
  forall p d q, tok = p ++ d :: q -> p <> [] -> In d until -> ends_in bsl p.
Proof.
  unfold TokenEscaped, token. destruct s as [|c [|c' s]].
  - intros H; inversion H. intros [] ? ?; discriminate.
  - destruct (memb until c) eqn:E; intros H; inversion H; subst; clear H;
      intros [|x [|y p]] d q E' Hp; simpl in *; try congruence.
  - destruct (token_scan until c (c' :: s) false) as [m e1] eqn:E.
    intros H; inversion H; subst; clear H. apply token_scan_spec in E. destruct E as (L & A & B & C).
    intros p d q E Hp Hd. change (firstn (S m) (c :: c' :: s)) with (c :: firstn m (c' :: s)) in E.
    destruct p as [|x p]; [congruence|]. simpl in E; inversion E; subst.
    eapply A; eauto.
Qed.

Lemma TokenEscaped_nonempty until s tok rest :
  TokenEscaped until s = (tok, rest) -> 2 <= length s -> tok <> [].
Proof.
  unfold TokenEscaped. destruct (token until s) as [n e] eqn:E. intros H L; inversion H; subst.
  pose proof (token_pos _ _ _ _ L E). destruct s; simpl in *; [lia|]. destruct n; [lia|]. discriminate.
Qed.

Lemma TokenEscaped_single until c :
  TokenEscaped until [c] = if memb until c then ([], [c]) else ([c], []).
Proof. unfold TokenEscaped, token. destruct (memb until c); auto. Qed.

Lemma Token_spec until s :
  Token until s = (Unescape (fst (TokenEscaped until s)), snd (TokenEscaped until s)).
Proof.
  unfold Token, TokenEscaped. destruct (token until s) as [n e] eqn:E. simpl.
  f_equal. destruct e; auto. rewrite Unescape_loop. symmetry. apply unescape_nop.
  unfold token in E. destruct s as [|c [|c' s]].
  - inversion E; subst. intros [] ? ?; discriminate.
  - destruct (memb until c); inversion E; subst; intros [|? [|? ?]] ? ?; discriminate.
  - destruct (token_scan until c (c' :: s) false) as [m e1] eqn:Es. inversion E; subst.
    apply token_scan_spec in Es. destruct Es as (_ & _ & _ & C).
    intros p x q Ep. destruct C as [_ C]. discriminate C. right.
    change (firstn (S m) (c :: c' :: s)) with (c :: firstn m (c' :: s)) in Ep.
    split; [|exists p, x, q; auto].
    destruct m; [simpl in Ep; destruct p as [|? [|? ?]]; discriminate | lia].
Qed.

(** The scan stops exactly at a given unescaped delimiter. *)
Lemma token_scan_stop until : forall a prev d r e,
  (forall p x q, a = p ++ x :: q -> In x until -> ends_in bsl (prev :: p)) ->
  In d until -> ~ ends_in bsl (prev :: a) ->
  fst (token_scan until prev (a ++ d :: r) e) = length a.
Proof.
  induction a as [|c a IH]; intros prev d r e H Hd He; simpl.
  - destruct (Ascii.eqb_spec prev bsl) as [->|]; [exfalso; apply He, ends_in_single; auto|].
    apply memb_In in Hd. rewrite Hd. auto.
  - assert (Hc : forall e, fst (token_scan until c (a ++ d :: r) e) = length a).
    { intros e0. apply IH; auto.
      - intros p x q E Hx. specialize (H (c :: p) x q). rewrite ends_in_cons2 in H. apply H; simpl; congruence.
      - rewrite ends_in_cons2 in He. auto. }
    destruct (Ascii.eqb_spec prev bsl) as [->|Np].
    + specialize (Hc true). destruct (token_scan until c (a ++ d :: r) true). simpl in *. congruence.
    + destruct (memb until c) eqn:Ec.
      * exfalso. apply memb_In in Ec. apply Np. apply ends_in_single. apply (H [] c a); auto.
      * specialize (Hc e). destruct (token_scan until c (a ++ d :: r) e). simpl in *. congruence.
Qed.

(** Uniqueness: any split with the properties of a token is what Token returns. *)
Lemma TokenEscaped_unique until tok d r :
  tok <> [] -> In d until -> ~ ends_in bsl tok ->
  (forall p x q, tok = p ++ x :: q -> p <> [] -> In x until -> ends_in bsl p) ->
  TokenEscaped until (tok ++ d :: r) = (tok, d :: r).
Proof.
  intros Hn Hd He Hi. destruct tok as [|c a]; [congruence|].
  assert (E : fst (token until ((c :: a) ++ d :: r)) = S (length a)).
  { unfold token. simpl. destruct (a ++ d :: r) as [|c' l] eqn:El; [destruct a; discriminate|].
    rewrite <- El.
    assert (X : fst (token_scan until c (a ++ d :: r) false) = length a).
    { apply token_scan_stop; auto. intros p x q Ep Hx. apply (Hi (c :: p) x q); simpl; congruence. }
    destruct (token_scan until c (a ++ d :: r) false). simpl in *; congruence. }
  unfold TokenEscaped. destruct (token until ((c :: a) ++ d :: r)) as [n e]. simpl in E. subst n.
  f_equal.
  - change (S (length a)) with (length (c :: a)). rewrite firstn_app, firstn_all, Nat.sub_diag. simpl. rewrite app_nil_r; auto.
  - change (S (length a)) with (length (c :: a)). rewrite skipn_app, skipn_all, Nat.sub_diag. auto.
Qed.

(* ------------------------------------------------------------------ *)
(** * ParseTags round trip *)

Lemma esc_delim cs v : memb cs bsl = false ->
  forall p x q, esc_spec cs v = p ++ x :: q -> In x cs -> ends_in bsl p.
Proof.
  intros Hb. induction v as [|a v IH]; intros p x q E Hx.
  - destruct p; discriminate.
  - unfold esc_spec in E. simpl in E. fold (esc_spec cs v) in E.
    destruct (memb cs a) eqn:Ea; simpl in E.
    + destruct p as [|y p]; simpl in E; inversion E; subst.
      * apply memb_In in Hx. congruence.
      * destruct p as [|z p]; simpl in *; inversion H1; subst.
        -- apply ends_in_single; auto.
        -- apply ends_in_cons2. destruct p as [|z' p].
           ++ exfalso. specialize (IH [] x q H2 Hx). apply (ends_in_nil _ IH).
           ++ apply ends_in_cons2. apply (IH (z' :: p) x q H2 Hx).
    + destruct p as [|y p]; simpl in E; inversion E; subst.
      * apply memb_In in Hx. congruence.
      * destruct p as [|z p]; simpl in *.
        -- exfalso. specialize (IH [] x q H1 Hx). apply (ends_in_nil _ IH).
        -- apply ends_in_cons2. apply (IH (z :: p) x q H1 Hx).
Qed.

Lemma esc_nonempty cs v : v <> [] -> esc_spec cs v <> [].
Proof. destruct v as [|a v]; [congruence|]. unfold esc_spec; simpl. destruct (memb cs a); discriminate. Qed.

Lemma esc_ends cs v : memb cs bsl = false -> (ends_in bsl (esc_spec cs v) <-> ends_in bsl v).
Proof.
  intros Hb. induction v as [|a v IH]; [tauto|].
  unfold esc_spec. simpl. fold (esc_spec cs v).
  destruct v as [|b v].
  - simpl. destruct (memb cs a) eqn:Ea; simpl; rewrite ?ends_in_cons2, ?ends_in_single; tauto.
  - rewrite ends_in_cons2, <- IH.
    rewrite ends_in_app; [tauto|]. apply esc_nonempty; discriminate.
Qed.

Lemma Token_esc cs until v d r :
  memb cs bsl = false -> (forall x, In x until -> In x cs) -> In d until ->
  v <> [] -> ~ ends_in bsl v -> Unescape (esc_spec cs v) = v ->
  Token until (esc_spec cs v ++ d :: r) = (v, d :: r).
Proof.
  intros Hb Hsub Hd Hn He Hu. rewrite Token_spec.
  rewrite TokenEscaped_unique; auto.
  - simpl. rewrite Hu; auto.
  - apply esc_nonempty; auto.
  - rewrite esc_ends; auto.
  - intros p x q E _ Hx. eapply esc_delim; eauto.
Qed.

Lemma unescape_esc_tag v : ~ has_pair bsl [dq] v -> Unescape (esc_spec [comma; eqs; sp] v) = v.
Proof. intros H. apply escape_tag_roundtrip in H. unfold EscapeTagPart in H. rewrite Escape_spec in H. exact H. Qed.

Lemma unescape_esc_meas v : ~ has_pair bsl [dq; eqs] v -> Unescape (esc_spec [comma; sp] v) = v.
Proof. intros H. apply escape_measurement_roundtrip in H. unfold EscapeMeasurement in H. rewrite Escape_spec in H. exact H. Qed.

Lemma parse_loop_render m rest : forall tags acc fuel,
  Forall good_tag tags -> length tags < fuel ->
  parse_tags_loop fuel m
    (flat_map (fun t => [comma] ++ esc_spec [comma; eqs; sp] (fst t) ++ [eqs]
                              ++ esc_spec [comma; eqs; sp] (snd t)) tags ++ sp :: rest) acc
  = POk m (rev acc ++ tags) rest.
Proof.
  induction tags as [|[k v] tags IH]; intros acc fuel Hg Hf.
  - destruct fuel; [simpl in Hf; lia|]. simpl. rewrite app_nil_r. auto.
  - destruct fuel; [simpl in Hf; lia|]. inversion Hg as [|? ? [Hk Hv] Hg']; subst. simpl fst in *; simpl snd in *.
    destruct Hk as (Hk1 & Hk2 & Hk3), Hv as (Hv1 & Hv2 & Hv3).
    cbn [flat_map fst snd]. rewrite <- !app_assoc. cbn [app].
    cbn [parse_tags_loop]. change (comma =? sp)%char with false. cbn [negb].
    rewrite (Token_esc _ (lit "= ,")); auto; try (simpl; tauto); [|apply unescape_esc_tag; auto].
    rewrite Ascii.eqb_refl. cbn [negb].
    assert (X : exists d r, flat_map (fun t => [comma] ++ esc_spec [comma; eqs; sp] (fst t) ++ [eqs]
                              ++ esc_spec [comma; eqs; sp] (snd t)) tags ++ sp :: rest = d :: r
                 /\ In d (lit ", ")).
    { destruct tags as [|[k' v'] tags']; (do 2 eexists; split; [reflexivity|simpl; tauto]). }
    destruct X as (d & r & E & Hd). cbn [app] in E. rewrite E.
    rewrite (Token_esc _ (lit ", ")); auto; try (simpl; tauto); [|apply unescape_esc_tag; auto].
    destruct v as [|v0 v]; [congruence|]. rewrite <- E.
    rewrite IH; auto; [|simpl in Hf; lia]. simpl. rewrite <- app_assoc. auto.
Qed.

Lemma flat_map_len {A} (f : A -> bytes) l : (forall x, 1 <= length (f x)) -> length l <= length (flat_map f l).
Proof. intros H. induction l as [|a l IH]; simpl; auto. rewrite app_length. specialize (H a). lia. Qed.

Lemma ParseTags_render m tags rest :
  good_measurement m -> Forall good_tag tags ->
  ParseTags (render_line m tags rest) = POk m tags rest.
Proof.
  intros (Hm1 & Hm2 & Hm3) Ht. unfold ParseTags, render_line. cbn [app].
  remember (flat_map (fun t => [comma] ++ esc_spec [comma; eqs; sp] (fst t) ++ [eqs]
                              ++ esc_spec [comma; eqs; sp] (snd t)) tags ++ sp :: rest) as L eqn:EL.
  assert (X : exists d r, L = d :: r /\ In d (lit ", ")).
  { subst L. destruct tags as [|[k' v'] tags']; (do 2 eexists; split; [reflexivity|simpl; tauto]). }
  destruct X as (d & r & E & Hd). cbn [app] in EL. rewrite <- EL. rewrite E.
  rewrite (Token_esc _ (lit ", ")); auto; [|apply unescape_esc_meas; auto].
  rewrite <- E. rewrite EL. rewrite (parse_loop_render m rest tags []); auto.
  rewrite app_length. simpl.
  pose proof (flat_map_len (fun t => [comma] ++ esc_spec [comma; eqs; sp] (fst t) ++ [eqs]
                              ++ esc_spec [comma; eqs; sp] (snd t)) tags) as Hl.
  cbn [app] in Hl. assert (forall x : bytes * bytes, 1 <= length (comma :: esc_spec [comma; eqs; sp] (fst x) ++ eqs :: esc_spec [comma; eqs; sp] (snd x))) by (simpl; lia).
  specialize (Hl H). simpl in Hl. lia.
Qed.

(** TagSet.Bytes in terms of the independent escaping. *)
Lemma TagsBytes_spec tags : tags <> [] ->
  comma :: TagsBytes tags =
  flat_map (fun t => [comma] ++ esc_spec [comma; eqs; sp] (fst t) ++ [eqs]
                              ++ esc_spec [comma; eqs; sp] (snd t)) tags.
Proof.
  unfold TagsBytes. induction tags as [|[k v] tags IH]; [congruence|]. intros _.
  cbn [flat_map tags_bytes_loop fst snd app]. f_equal.
  unfold EscapeTagPart. rewrite !Escape_spec. change (lit ",= ") with [comma; eqs; sp].
  rewrite <- !app_assoc. cbn [app]. f_equal. f_equal. f_equal.
  destruct tags as [|t tags']; [rewrite ?app_nil_r; auto|]. apply IH. discriminate.
Qed.

Lemma render_bytes m tags rest : tags <> [] ->
  EscapeMeasurement m ++ [comma] ++ TagsBytes tags ++ [sp] ++ rest = render_line m tags rest.
Proof.
  intros H. unfold render_line, EscapeMeasurement. rewrite Escape_spec.
  change (lit ", ") with [comma; sp]. rewrite <- TagsBytes_spec by auto. reflexivity.
Qed.

(* ------------------------------------------------------------------ *)
(** * ParseTags never runs out of fuel *)

Lemma Token_len until s t r : Token until s = (t, r) -> length r <= length s.
Proof.
  unfold Token. destruct (token until s) as [n e]. intros H; inversion H; subst.
  rewrite skipn_length. lia.
Qed.

Lemma parse_loop_fuel m : forall fuel line acc, length line < fuel -> parse_tags_loop fuel m line acc <> PFuel.
Proof.
  induction fuel as [|f IH]; intros line acc H; [lia|]. cbn [parse_tags_loop].
  destruct line as [|c l1]; [discriminate|]. destruct (Ascii.eqb c sp); [discriminate|].
  destruct (Token (lit "= ,") l1) as [k l2] eqn:E1. apply Token_len in E1.
  destruct l2 as [|d l3]; [discriminate|]. destruct (negb (d =? eqs)%char); [discriminate|].
  destruct (Token (lit ", ") l3) as [v l4] eqn:E2. apply Token_len in E2.
  destruct v; [discriminate|]. apply IH. simpl in *. lia.
Qed.

Lemma ParseTags_no_fuel line : ParseTags line <> PFuel.
Proof.
  unfold ParseTags. destruct (Token (lit ", ") line) as [m l]. destruct l; [discriminate|].
  apply parse_loop_fuel. lia.
Qed.

(* ------------------------------------------------------------------ *)
(** * Quoted strings *)

Lemma quoted_scan_rest_len : forall rest prev acc e out r,
  quoted_scan prev rest acc e = QOk out r -> length r < length rest.
Proof.
  induction rest as [|c rest IH]; intros prev acc e out r H; simpl in H; [discriminate|].
  destruct (Ascii.eqb c dq).
  - destruct (Ascii.eqb prev bsl).
    + apply IH in H. simpl; lia.
    + inversion H; subst. simpl; lia.
  - apply IH in H. simpl; lia.
Qed.

Lemma last_default {A} (l : list A) d d' : l <> [] -> last l d = last l d'.
Proof. induction l as [|x l IH]; [congruence|]. intros _. destruct l; auto. apply IH. discriminate. Qed.

(** The scan passes over [a] when every quote in it is preceded by a backslash. *)
Lemma quoted_scan_pass : forall a prev tl acc e,
  (forall p q, a = p ++ dq :: q -> ends_in bsl (prev :: p)) ->
  quoted_scan prev (a ++ tl) acc e =
  quoted_scan (last (prev :: a) prev) tl (rev a ++ acc) (e || memb a dq).
Proof.
  induction a as [|c a IH]; intros prev tl acc e H.
  - simpl. rewrite orb_false_r; auto.
  - assert (Hl : last (prev :: c :: a) prev = last (c :: a) c).
    { change (last (c :: a) prev = last (c :: a) c). apply last_default. discriminate. }
    rewrite Hl. cbn [app quoted_scan].
    assert (H' : forall p q, a = p ++ dq :: q -> ends_in bsl (c :: p)).
    { intros p q E. specialize (H (c :: p) q). rewrite ends_in_cons2 in H. apply H. simpl; congruence. }
    destruct (Ascii.eqb_spec c dq) as [->|Nc].
    + specialize (H [] a eq_refl). apply ends_in_single in H. subst prev. rewrite Ascii.eqb_refl.
      rewrite IH by auto. cbn [rev]. rewrite <- app_assoc. f_equal.
      unfold memb. cbn [existsb]. rewrite Ascii.eqb_refl. cbn [orb]. rewrite orb_true_r. auto.
    + rewrite IH by auto. cbn [rev]. rewrite <- app_assoc. f_equal.
      unfold memb. cbn [existsb]. apply Ascii.eqb_neq in Nc. rewrite (Ascii.eqb_sym dq c), Nc. auto.
Qed.

Lemma last_ends (prev : ascii) l : last (prev :: l) prev = bsl <-> ends_in bsl (prev :: l).
Proof.
  revert prev; induction l as [|x l IH]; intros prev; [simpl; rewrite ends_in_single; tauto|].
  rewrite ends_in_cons2, <- IH.
  change (last (prev :: x :: l) prev) with (last (x :: l) prev).
  rewrite (last_default (x :: l) prev x) by discriminate. tauto.
Qed.

Lemma EscapeQuoted_spec v : EscapeQuotedString v = dq :: esc_spec [dq] v ++ [dq].
Proof.
  unfold EscapeQuotedString, countBytes. rewrite escape_loop_spec.
  destruct (Nat.eqb_spec (length (filter (memb [dq]) v)) 0); auto.
  apply filter_nil_escape in e. rewrite <- escape_loop_spec, e. auto.
Qed.

Lemma esc_memb_dq v : memb (esc_spec [dq] v) dq = memb v dq.
Proof.
  induction v as [|a v IH]; auto. unfold esc_spec. cbn [flat_map]. fold (esc_spec [dq] v).
  destruct (Ascii.eqb_spec a dq) as [->|N]; [reflexivity|].
  assert (M : memb [dq] a = false) by (apply memb_false; simpl; intuition congruence).
  rewrite M. cbn [app]. unfold memb in *. cbn [existsb]. rewrite IH. auto.
Qed.

Lemma quoted_run v rest :
  QuotedString (EscapeQuotedString v ++ rest) =
  if ends_in_dec bsl v then quoted_scan dq rest (dq :: rev (esc_spec [dq] v)) true
  else QOk (if memb v dq then Unescape (esc_spec [dq] v) else v) rest.
Proof.
  rewrite EscapeQuoted_spec. cbn [app]. rewrite <- app_assoc. cbn [app].
  assert (P : forall p q, esc_spec [dq] v = p ++ dq :: q -> ends_in bsl (dq :: p)).
  { intros p q E. assert (X : ends_in bsl p) by (eapply esc_delim; eauto; simpl; auto).
    destruct p; [exfalso; apply (ends_in_nil _ X)|]. apply ends_in_cons2; auto. }
  unfold QuotedString.
  destruct (esc_spec [dq] v ++ dq :: rest) as [|c l] eqn:E; [destruct (esc_spec [dq] v); discriminate|].
  rewrite Ascii.eqb_refl. rewrite <- E.
  rewrite quoted_scan_pass by auto. rewrite app_nil_r. simpl orb. rewrite esc_memb_dq.
  cbn [quoted_scan]. rewrite Ascii.eqb_refl.
  destruct (Ascii.eqb_spec (last (dq :: esc_spec [dq] v) dq) bsl) as [L|L].
  - apply last_ends in L. destruct v as [|a v]; [apply ends_in_single in L; discriminate|].
    assert (X : ends_in bsl (a :: v)).
    { apply (esc_ends [dq]); auto. destruct (esc_spec [dq] (a :: v)) eqn:Ee.
      - exfalso; revert Ee; apply esc_nonempty; discriminate.
      - rewrite ends_in_cons2 in L; exact L. }
    destruct (ends_in_dec bsl (a :: v)); [|contradiction]. auto.
  - rewrite rev_involutive. destruct (ends_in_dec bsl v) as [X|X].
    + exfalso. apply L. apply last_ends. apply (esc_ends [dq]) in X; auto.
      destruct (esc_spec [dq] v); [exfalso; apply (ends_in_nil _ X)|]. apply ends_in_cons2; auto.
    + destruct (memb v dq) eqn:M; auto. f_equal.
      rewrite <- escape_loop_spec. apply filter_nil_escape.
      clear -M. apply memb_false in M. induction v as [|a v IH]; auto. cbn [filter].
      replace (memb [dq] a) with false; [apply IH; simpl in M; tauto|].
      symmetry. apply memb_false. simpl in *. intuition congruence.
Qed.

Lemma quoted_roundtrip_iff v rest :
  QuotedString (EscapeQuotedString v ++ rest) = QOk v rest <->
  ~ ends_in bsl v /\ (~ In dq v \/ ~ has_pair bsl [comma; sp; eqs] v).
Proof.
  rewrite quoted_run. destruct (ends_in_dec bsl v) as [X|X].
  - split; [|tauto]. intros H. apply quoted_scan_rest_len in H. lia.
  - assert (U : Unescape (esc_spec [dq] v) = v <-> ~ has_pair bsl [comma; sp; eqs] v).
    { rewrite Unescape_loop, <- escape_loop_spec, unescape_escape_iff.
      2:{ intros c [<-|[]]. reflexivity. }
      unfold has_pair. split; intros H (p & c & q & E & Y); apply H; exists p, c, q; split; auto.
      - simpl in Y. destruct Y as [<-|[<-|[<-|[]]]]; split; reflexivity.
      - destruct Y as [Uc M]. apply unescapable_In in Uc. apply memb_false in M. simpl in *. intuition. }
    destruct (memb v dq) eqn:M.
    + apply memb_In in M. split.
      * intros H; inversion H as [H1]. rewrite H1. split; auto. right. apply U; auto.
      * intros [_ [H|H]]; [contradiction|]. apply U in H. congruence.
    + apply memb_false in M. split; auto.
Qed.
