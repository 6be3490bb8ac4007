From Verif Require Import Base Text TextSpec TextProofs Rules RulesSpec RulesProofs.

(* ------------------------------------------------------------------ *)
(** * FNV-1 (C25) *)
Section Fnv.
Local Open Scope Z_scope.

Definition h32 (h : Z) : Prop := 0 <= h < two32.

Lemma testbit_high h n : h32 h -> 32 <= n -> Z.testbit h n = false.
Proof.
  unfold h32, two32. intros H Hn. destruct (Z.eq_dec h 0) as [->|N]; [apply Z.bits_0|].
  apply Z.bits_above_log2; [lia|]. apply Z.log2_lt_pow2; [lia|].
  apply Z.lt_le_trans with (2 ^ 32); [change (2 ^ 32) with 4294967296; lia|]. apply Z.pow_le_mono_r; lia.
Qed.

Lemma lxor_range a b : h32 a -> h32 b -> h32 (Z.lxor a b).
Proof.
  intros Ha Hb. assert (N : 0 <= Z.lxor a b) by (apply Z.lxor_nonneg; unfold h32 in *; lia).
  split; auto. destruct (Z.lt_ge_cases (Z.lxor a b) two32) as [L|L]; auto. exfalso.
  assert (P : 0 < Z.lxor a b) by (unfold two32 in *; lia).
  assert (Lg : 32 <= Z.log2 (Z.lxor a b)).
  { apply Z.log2_le_pow2; auto. }
  pose proof (Z.bit_log2 _ P) as B. rewrite Z.lxor_spec, !testbit_high in B by auto. discriminate.
Qed.

Lemma byte_range c : 0 <= Z.of_N (bval c) < 256.
Proof. unfold bval. pose proof (N_ascii_bounded c). lia. Qed.

Lemma fnv_step_range h c : h32 (fnv_step h c).
Proof.
  apply lxor_range.
  - unfold h32. apply Z.mod_pos_bound. reflexivity.
  - pose proof (byte_range c). unfold h32, two32. lia.
Qed.

Lemma lxor_cancel_r a b x : Z.lxor a x = Z.lxor b x -> a = b.
Proof.
  intros H. rewrite <- (Z.lxor_0_r a), <- (Z.lxor_0_r b), <- (Z.lxor_nilpotent x), <- !Z.lxor_assoc, H. auto.
Qed.

Lemma lxor_cancel_l a x y : Z.lxor a x = Z.lxor a y -> x = y.
Proof. rewrite (Z.lxor_comm a x), (Z.lxor_comm a y). apply lxor_cancel_r. Qed.

(** 899433627 is the inverse of the FNV prime modulo 2^32. *)
Lemma mul_inj a b : h32 a -> h32 b -> (a * fnv_prime) mod two32 = (b * fnv_prime) mod two32 -> a = b.
Proof.
  intros Ha Hb H.
  assert (X : forall x, h32 x -> (((x * fnv_prime) mod two32) * 899433627) mod two32 = x).
  { intros x Hx. rewrite Z.mul_mod_idemp_l by discriminate. rewrite <- Z.mul_assoc.
    replace (x * (fnv_prime * 899433627)) with (x + (x * 3513497) * two32) by (unfold fnv_prime, two32; ring).
    rewrite Z.mod_add by discriminate. apply Z.mod_small. exact Hx. }
  rewrite <- (X a Ha), <- (X b Hb), H. auto.
Qed.

Lemma fnv_step_inj_h h1 h2 c : h32 h1 -> h32 h2 -> fnv_step h1 c = fnv_step h2 c -> h1 = h2.
Proof. intros H1 H2 E. apply lxor_cancel_r in E. apply mul_inj; auto. Qed.

Lemma fnv_step_inj_c h c1 c2 : fnv_step h c1 = fnv_step h c2 -> c1 = c2.
Proof. intros E. apply lxor_cancel_l in E. apply bval_inj. lia. Qed.

Lemma fold_range b : forall h, h32 h -> h32 (fold_left fnv_step b h).
Proof. induction b as [|c b IH]; intros h H; simpl; auto. apply IH, fnv_step_range. Qed.

Lemma fold_inj b : forall h1 h2, h32 h1 -> h32 h2 -> fold_left fnv_step b h1 = fold_left fnv_step b h2 -> h1 = h2.
Proof.
  induction b as [|c b IH]; intros h1 h2 H1 H2 E; simpl in E; auto.
  apply (fnv_step_inj_h h1 h2 c); auto. apply IH; auto; apply fnv_step_range.
Qed.

Lemma hash_one_byte a x y b : hashMeasurement (a ++ x :: b) = hashMeasurement (a ++ y :: b) -> x = y.
Proof.
  unfold hashMeasurement. rewrite !fold_left_app. simpl. intros E. apply fold_inj in E; try apply fnv_step_range.
  apply fnv_step_inj_c in E. auto.
Qed.

(** Names with a common ending collide exactly when what precedes it collides. *)
Lemma hash_suffix a1 a2 b : hashMeasurement (a1 ++ b) = hashMeasurement (a2 ++ b) <-> hashMeasurement a1 = hashMeasurement a2.
Proof.
  unfold hashMeasurement. rewrite !fold_left_app. split; [|congruence].
  apply fold_inj; apply fold_range; unfold h32, fnv_offset, two32; lia.
Qed.
End Fnv.

(* ------------------------------------------------------------------ *)
(** * What a rule sees after SortTags (C27) *)

Lemma esc_len_perm tags tags' : Permutation tags tags' -> forall m rest,
  length (render_line m tags rest) = length (render_line m tags' rest).
Proof.
  intros P m rest. unfold render_line. rewrite !app_length. f_equal. f_equal.
  induction P; cbn [flat_map]; rewrite ?app_length; try lia.
Qed.

Lemma token_view_plain until s n : token until s = (n, false) ->
  forall p d q, firstn n s = p ++ d :: q -> p <> [] -> ~ In d until.
Proof.
  intros H p d q E Np Hd.
  assert (T : TokenEscaped until s = (firstn n s, skipn n s)) by (unfold TokenEscaped; rewrite H; auto).
  pose proof (TokenEscaped_inner _ _ _ _ T p d q E Np Hd) as [p' Ep].
  (* a byte after a backslash sets the escaped flag *)
  assert (X : forall rest prev e k, token_scan until prev rest e = (k, false) -> e = false /\
            forall p2 c2 q2, prev :: firstn k rest = p2 ++ bsl :: c2 :: q2 -> False).
  { clear. induction rest as [|c rest IH]; intros prev e k H; cbn [token_scan] in H.
    - inversion H; subst. split; auto. intros p2 c2 q2 Z. destruct p2 as [|? [|? ?]]; discriminate.
    - destruct (Ascii.eqb_spec prev bsl) as [->|N].
      + destruct (token_scan until c rest true) as [k1 e1] eqn:T. inversion H; subst.
        apply IH in T. destruct T; discriminate.
      + destruct (memb until c).
        * inversion H; subst. split; auto. simpl. intros p2 c2 q2 Z. destruct p2 as [|? [|? ?]]; discriminate.
        * destruct (token_scan until c rest e) as [k1 e1] eqn:T. inversion H; subst.
          apply IH in T. destruct T as [-> T]. split; auto. intros p2 c2 q2 Z. cbn [firstn] in Z.
          destruct p2 as [|y p2]; simpl in Z; inversion Z; subst; [congruence|]. eapply T; eauto. }
  unfold token in H. destruct s as [|c [|c' rest]].
  - inversion H; subst. destruct p'; discriminate.
  - destruct (memb until c); inversion H; subst; simpl in E; destruct p' as [|? [|? ?]]; discriminate.
  - destruct (token_scan until c (c' :: rest) false) as [k e] eqn:T0. inversion H; subst.
    apply X in T0. destruct T0 as [_ T0]. rewrite <- app_assoc in E. eapply (T0 p' d q). exact E.
Qed.

Lemma esc_spec_id cs v : (forall c, In c v -> ~ In c cs) -> esc_spec cs v = v.
Proof.
  intros H. unfold esc_spec. induction v as [|a v IH]; auto. cbn [flat_map].
  destruct (memb cs a) eqn:E; [apply memb_In in E; exfalso; apply (H a); simpl; auto|].
  simpl. f_equal. apply IH. intros c Hc. apply H. simpl; auto.
Qed.

Lemma meas_slice line pl : newParsedLine line = Some pl -> pl_meas pl = fst (tokenP (lit ", ") line 0).
Proof.
  unfold newParsedLine, ParseTagsP. destruct (tokenP (lit ", ") line 0) as [m off].
  assert (X : forall fuel o acc m' tg rem, parse_tagsP_loop fuel line m o acc = PPOk m' tg rem -> m' = m).
  { induction fuel as [|f IH]; intros o acc m' tg rem H; [discriminate|]. cbn [parse_tagsP_loop] in H.
    destruct (skipn o line); [inversion H; auto|]. destruct (Ascii.eqb _ _); [inversion H; auto|].
    destruct (tokenP _ line (o + 1)) as [key off2]. destruct (skipn off2 line); [discriminate|].
    destruct (negb _); [discriminate|]. destruct (tokenP _ line (off2 + 1)) as [v off4].
    destruct (read line v); [discriminate|]. eauto. }
  destruct (skipn off line); [intros H; inversion H; auto|].
  destruct (parse_tagsP_loop _ _ _ _ _) as [m' tg rem| |] eqn:E; try discriminate.
  intros H; inversion H; subst; simpl. eapply X; eauto.
Qed.

Lemma Sort_measurement gosort line pl : sorts gosort -> newParsedLine line = Some pl ->
  plain_start (Measurement pl) -> Measurement (SortTags gosort pl) = Measurement pl.
Proof.
  intros GS Hp Hm. destruct (keys_sorted_dec (Tags pl)) as [K|K]; [rewrite Sort_sorted; auto|].
  destruct (Sort_unsorted gosort line pl GS Hp K) as (tags' & _ & _ & _ & _ & _ & Em & [Eb|(_ & _ & Eb)]).
  - unfold Measurement. rewrite Em, Eb. pose proof (newParsedLine_iff line) as N. rewrite Hp in N.
    destruct N as (_ & _ & -> & _). auto.
  - unfold Measurement at 1. rewrite Em, Eb. pose proof (meas_slice line pl Hp) as Ms.
    pose proof (newParsedLine_iff line) as N. rewrite Hp in N. destruct N as (_ & _ & Bf & _).
    unfold tokenP in Ms. destruct (token (lit ", ") (skipn 0 line)) as [n e] eqn:T. destruct e; simpl in Ms.
    + unfold Measurement. rewrite Ms. auto.
    + assert (V : Measurement pl = firstn n line) by (unfold Measurement; rewrite Ms, Bf; auto).
      rewrite Ms. cbn [read skipn]. unfold header, EscapeMeasurement. rewrite Escape_spec.
      change (skipn 0 line) with line in T.
      rewrite esc_spec_id.
      * rewrite V. rewrite <- app_assoc. pose proof (token_le _ _ _ _ T) as L.
        rewrite firstn_app, firstn_firstn, firstn_length. replace (n - Nat.min n (length line)) with 0 by lia.
        rewrite Nat.min_id. simpl. apply app_nil_r.
      * intros c Hc. rewrite V in Hc, Hm. apply in_split in Hc. destruct Hc as (p & q & E). destruct p as [|y p].
        { destruct (Hm c q E) as [A B]. change (lit ", ") with [comma; sp]. intros [X|[X|[]]]; congruence. }
        apply (token_view_plain _ _ _ T (y :: p) c q E). discriminate.
Qed.

Lemma Tags_perm gosort line pl : sorts gosort -> newParsedLine line = Some pl ->
  not_in_place line (Measurement pl) (Tags pl) (Remainder pl) ->
  Permutation (Tags pl) (Tags (SortTags gosort pl)) /\ Measurement (SortTags gosort pl) = Measurement pl.
Proof.
  intros GS Hp Hn. destruct (keys_sorted_dec (Tags pl)) as [K|K]; [rewrite Sort_sorted; auto|].
  destruct (Sort_unsorted gosort line pl GS Hp K) as (tags' & P & _ & X & Pp & Et & Em & [Eb|(Hr & Hl & Eb)]).
  - pose proof (newParsedLine_iff line) as N. rewrite Hp in N. destruct N as (_ & _ & Bf & _).
    unfold Tags, Measurement. rewrite Em, Eb, Bf. split; auto. apply Permutation_map; auto.
  - exfalso. destruct Hn as [H|[H|H]]; auto. apply H.
    assert (tags' <> []).
    { intros ->. apply Permutation_sym, Permutation_nil in P. apply (unsorted_nonempty _ K P). }
    rewrite (esc_len_perm (Tags pl) tags' P), <- render_bytes by auto.
    rewrite <- Hl. unfold header. rewrite !app_length. simpl. rewrite ?app_length. simpl. lia.
Qed.

Lemma means_perm k m tags tags' text : Permutation tags tags' -> (means k m tags text <-> means k m tags' text).
Proof.
  intros P. destruct k; simpl; try tauto. split; intros H x Hx; specialize (H x Hx).
  - eapply Permutation_in; eauto.
  - eapply Permutation_in; [apply Permutation_sym|]; eauto.
Qed.

(** The rule a line is routed to. *)
Lemma route_spec gosort rs line pl : sorts gosort -> newParsedLine line = Some pl ->
  no_collision rs (Measurement pl) ->
  (not_in_place line (Measurement pl) (Tags pl) (Remainder pl) \/
   (plain_start (Measurement pl) /\ Forall (fun r => ~ is_tag_rule r) rs)) ->
  first_such (fun r => means (r_match r) (Measurement pl) (Tags pl) (Escaped (SortTags gosort pl))) rs
             (LookupParsed rs (SortTags gosort pl)).
Proof.
  intros GS Hp Nc [Hn|[Hm Ht]].
  - destruct (Tags_perm gosort line pl GS Hp Hn) as [P M].
    eapply first_such_ext; [|apply LookupParsed_means; rewrite M; auto].
    intros r Hr. rewrite M. symmetry. apply means_perm. auto.
  - pose proof (Sort_measurement gosort line pl GS Hp Hm) as M.
    eapply first_such_ext; [|apply LookupParsed_means; rewrite M; auto].
    intros r Hr. rewrite M. rewrite Forall_forall in Ht. specialize (Ht r Hr).
    destruct (r_match r) eqn:E; simpl; try tauto. exfalso. apply Ht. exists tags. auto.
Qed.

Lemma lookup_lt rs pl i : LookupParsed rs pl = Some i -> i < length rs.
Proof.
  intros H. pose proof (LookupParsed_first rs pl) as F. rewrite H in F. destruct F as [(r & Hr & _) _].
  apply nth_error_Some. congruence.
Qed.

Lemma route_values gosort rs line pl m tags rest : sorts gosort ->
  newParsedLine line = Some pl -> ParseTags line = POk m tags rest -> no_collision rs m ->
  (not_in_place line m tags rest \/ (plain_start m /\ Forall (fun r => ~ is_tag_rule r) rs)) ->
  first_such (fun r => means (r_match r) m tags (Escaped (SortTags gosort pl))) rs
             (LookupParsed rs (SortTags gosort pl)).
Proof.
  intros GS Hp Ht. pose proof (newParsedLine_iff line) as N. rewrite Hp in N. destruct N as (N & _).
  rewrite Ht in N. inversion N; subst. apply route_spec; auto.
Qed.

Lemma basic_rule name subj line pl m tags rest :
  newParsedLine line = Some pl -> ParseTags line = POk m tags rest ->
  (m = name -> rule_matches (mkRule (MBasic name) subj) pl = true) /\
  (rule_matches (mkRule (MBasic name) subj) pl = true -> hashMeasurement m = hashMeasurement name).
Proof.
  intros Hp Ht. pose proof (newParsedLine_iff line) as N. rewrite Hp in N. destruct N as (N & _).
  rewrite Ht in N. inversion N; subst. unfold rule_matches, HashedMeasurement; simpl. rewrite Z.eqb_eq.
  split; intros; congruence.
Qed.

Lemma sort_noop gosort line m tags rest : sorts gosort ->
  ParseTags line = POk m tags rest -> keys_sorted tags ->
  exists pl, newParsedLine line = Some pl /\ Escaped (SortTags gosort pl) = line.
Proof.
  intros GS Hp K. destruct (sort_line gosort line m tags rest GS Hp) as (pl & tags' & N & _ & _ & A & _).
  exists pl. split; auto. apply A. auto.
Qed.
