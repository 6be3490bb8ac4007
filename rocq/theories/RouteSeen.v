(** What a tags rule sees of a line which SortTags rewrites in place (C27).

    filter/rules.go:233-237 copies the sorted header over the memory the parsed tags still point into (they have been exchanged
    among each other, filter/rules.go:218, but each still points to where it was found).  For lines without a backslash, where
    influx/token.go copies nothing, this file says exactly which tags the rules then see. *)
From Verif Require Import Base Text TextSpec TextProofs Rules RulesSpec RulesProofs RouteProofs.
Local Open Scope nat_scope.

(** ** Specification *)
(** The tags of a line, read at the places where [tags] lie in their own line, from [text]: [p] is the place of the first key. *)
Fixpoint seen (text : bytes) (p : nat) (tags : list tag) : list tag :=
  match tags with
  | [] => []
  | (k, v) :: tags =>
      (firstn (length k) (skipn p text), firstn (length v) (skipn (p + length k + 1) text))
      :: seen text (p + length k + length v + 2) tags
  end.
(** Measurement, keys and values need no escaping. *)
Definition unescaped (m : bytes) (tags : list tag) : Prop :=
  (forall c, In c m -> c <> comma /\ c <> sp) /\
  Forall (fun t => forall c, In c (fst t) \/ In c (snd t) -> c <> comma /\ c <> sp /\ c <> eqs) tags.
(** All keys are equally long and all values are. *)
Definition equally_long (tags : list tag) : Prop :=
  forall t t', In t tags -> In t' tags -> length (fst t) = length (fst t') /\ length (snd t) = length (snd t').

(** ** Proofs *)
Lemma token_scan_flag until rest : forall prev e, ~ In bsl (prev :: rest) -> snd (token_scan until prev rest e) = e.
Proof.
  induction rest as [|c rest IH]; intros prev e N; cbn [token_scan]; [reflexivity|].
  destruct (Ascii.eqb_spec prev bsl) as [->|D]; [exfalso; apply N; left; reflexivity|].
  destruct (memb until c); [reflexivity|].
  specialize (IH c e (fun H => N (or_intror H))). destruct (token_scan until c rest e). exact IH.
Qed.
Lemma token_flag until s : ~ In bsl s -> snd (token until s) = false.
Proof.
  intros N. unfold token. destruct s as [|c [|d s]]; [reflexivity|destruct (memb until c); reflexivity|].
  pose proof (token_scan_flag until (d :: s) c false N) as H. destruct (token_scan until c (d :: s) false). exact H.
Qed.
Lemma skipn_In {A} (x : A) n : forall l, In x (skipn n l) -> In x l.
Proof. induction n as [|n IH]; intros [|y l] H; cbn in *; auto. Qed.
Lemma tokenP_view until line off : ~ In bsl line -> off <= length line -> exists n, tokenP until line off = (PView off n, off + n) /\ off + n <= length line.
Proof.
  intros N L. unfold tokenP. destruct (token until (skipn off line)) as [n e] eqn:T.
  assert (e = false) as ->. { pose proof (token_flag until (skipn off line) (fun H => N (skipn_In _ _ _ H))) as F. rewrite T in F. exact F. }
  exists n. split; [reflexivity|]. pose proof (token_le _ _ _ _ T) as X. rewrite skipn_length in X. lia.
Qed.

(** The places of the parsed tags. *)
Inductive laid (line : bytes) : nat -> list ptag -> Prop :=
| laid_nil p : laid line p []
| laid_cons p a b l : p + 1 + a + 1 + b <= length line -> laid line (p + a + b + 2) l ->
    laid line p ((PView (p + 1) a, PView (p + 1 + a + 1) b) :: l).

Lemma loop_laid line m : ~ In bsl line -> forall fuel off acc m' tags rem, off <= length line ->
  parse_tagsP_loop fuel line m off acc = PPOk m' tags rem -> exists l, tags = rev acc ++ l /\ laid line off l.
Proof.
  intros N. induction fuel as [|f IH]; intros off acc m' tags rem Lo H; [discriminate|]. cbn [parse_tagsP_loop] in H.
  destruct (skipn off line) as [|c r] eqn:Es; [inversion H; subst; exists []; split; [symmetry; apply app_nil_r|constructor]|].
  destruct (Ascii.eqb c sp); [inversion H; subst; exists []; split; [symmetry; apply app_nil_r|constructor]|].
  assert (L1 : off + 1 <= length line).
  { pose proof (skipn_length off line) as X. rewrite Es in X. cbn in X. lia. }
  destruct (tokenP_view (lit "= ,") line (off + 1) N L1) as (a & Ea & La). rewrite Ea in H.
  destruct (skipn (off + 1 + a) line) as [|d r2] eqn:E2; [discriminate|].
  assert (L2 : off + 1 + a + 1 <= length line).
  { pose proof (skipn_length (off + 1 + a) line) as X. rewrite E2 in X. cbn in X. lia. }
  destruct (negb (Ascii.eqb d eqs)); [discriminate|].
  destruct (tokenP_view (lit ", ") line (off + 1 + a + 1) N L2) as (b & Et & Lb). rewrite Et in H.
  destruct (read line (PView (off + 1 + a + 1) b)); [discriminate|].
  destruct (IH _ _ _ _ _ Lb H) as (l & -> & Hl). eexists. split.
  - cbn [rev]. rewrite <- app_assoc. cbn [app]. reflexivity.
  - apply laid_cons; [lia|]. replace (off + a + b + 2) with (off + 1 + a + 1 + b) by lia. exact Hl.
Qed.

Lemma laid_seen line text : forall l p, laid line p l -> map (read_tag text) l = seen text (p + 1) (map (read_tag line) l).
Proof.
  induction l as [|t l IH]; intros p H; [reflexivity|]. inversion H as [|p' a b l' Hb Hl]; subst. clear H.
  cbn [map seen]. unfold read_tag at 1 3. cbn [fst snd read].
  rewrite !firstn_length, !skipn_length. rewrite (Nat.min_l a) by lia. rewrite (Nat.min_l b) by lia.
  f_equal. rewrite (IH _ Hl). f_equal. lia.
Qed.

Lemma parsed_seen line pl text : ~ In bsl line -> newParsedLine line = Some pl ->
  map (read_tag text) (pl_tags pl) = seen text (length (Measurement pl) + 1) (Tags pl).
Proof.
  intros N H. pose proof (newParsedLine_iff line) as I0. rewrite H in I0. destruct I0 as (_ & _ & Bf & _).
  unfold newParsedLine, ParseTagsP in H.
  destruct (tokenP_view (lit ", ") line 0 N ltac:(lia)) as (n & E & L). rewrite E in H. cbn [Nat.add] in *.
  destruct (skipn n line) as [|c0 r0] eqn:Es.
  - injection H as <-. reflexivity.
  - destruct (parse_tagsP_loop _ _ _ _ _) as [m' tg rem| |] eqn:El; try discriminate.
    destruct (loop_laid line _ N _ _ _ _ _ _ L El) as (ls & -> & Hl). cbn [rev app] in *.
    assert (Em : m' = PView 0 n).
    { pose proof (meas_slice line pl) as M. unfold newParsedLine, ParseTagsP in M. rewrite E, Es, El in M. specialize (M H). injection H as <-. exact M. }
    subst m'. injection H as <-. unfold Measurement, Tags. cbn [pl_tags pl_buf pl_meas read skipn].
    rewrite firstn_length, Nat.min_l by lia. apply laid_seen. exact Hl.
Qed.

(** What rules see after an in-place rewriting. *)
Lemma sort_seen gosort line pl : sorts gosort -> newParsedLine line = Some pl -> ~ In bsl line ->
  ~ not_in_place line (Measurement pl) (Tags pl) (Remainder pl) ->
  Permutation (seen (Escaped (SortTags gosort pl)) (length (Measurement pl) + 1) (Tags pl)) (Tags (SortTags gosort pl)).
Proof.
  intros GS Hp N Hn. assert (K : ~ keys_sorted (Tags pl)) by (intros K; apply Hn; left; exact K).
  rewrite <- (parsed_seen line pl _ N Hp).
  destruct (Sort_unsorted gosort line pl GS Hp K) as (tags' & _ & _ & _ & Pp & _ & _ & _).
  eapply Permutation_trans; [apply Permutation_map; exact Pp|]. unfold Tags at 1.
  assert (E : Escaped (SortTags gosort pl) = pl_buf (SortTags gosort pl)); [|rewrite E; reflexivity].
  pose proof (newParsedLine_iff line) as I0. rewrite Hp in I0. destruct I0 as (_ & Ee & Bf & En).
  unfold Escaped. unfold SortTags in *.
  set (less := fun a b => tagLess (read_tag (pl_buf pl) a) (read_tag (pl_buf pl) b)) in *.
  destruct (IsSorted less (pl_tags pl)).
  - rewrite En. reflexivity.
  - destruct (Remainder pl) as [|c r] eqn:Er; [exfalso; apply Hn; right; left; reflexivity|].
    destruct (Nat.eqb_spec (length (EscapeMeasurement (Measurement pl) ++ [comma] ++ TagsBytes (map (read_tag (pl_buf pl)) (gosort ptag less (pl_tags pl)))) + length (c :: r) + 1) (length (Escaped pl))) as [Q|Q]; cbn [pl_escaped pl_buf]; [reflexivity|].
    exfalso. apply Hn. right. right. intros X. apply Q. rewrite Ee, <- X.
    assert (Pt : Permutation (Tags pl) (map (read_tag (pl_buf pl)) (gosort ptag less (pl_tags pl)))).
    { unfold Tags. apply Permutation_map. exact Pp. }
    rewrite (esc_len_perm _ _ Pt). rewrite <- render_bytes.
    + rewrite !app_length. cbn [length]. lia.
    + intros Z. rewrite Z in Pt. apply Permutation_sym, Permutation_nil in Pt. apply (unsorted_nonempty _ K Pt).
Qed.

Lemma route_seen gosort rs line pl m tags rest : sorts gosort ->
  newParsedLine line = Some pl -> ParseTags line = POk m tags rest -> no_collision rs m ->
  ~ In bsl line -> plain_start m -> ~ not_in_place line m tags rest ->
  first_such (fun r => means (r_match r) m (seen (Escaped (SortTags gosort pl)) (length m + 1) tags) (Escaped (SortTags gosort pl))) rs
             (LookupParsed rs (SortTags gosort pl)).
Proof.
  intros GS Hp Ht Nc Nb Ps Hn. pose proof (newParsedLine_iff line) as N. rewrite Hp in N. destruct N as (N & _).
  rewrite Ht in N. inversion N; subst.
  pose proof (Sort_measurement gosort line pl GS Hp Ps) as M.
  eapply first_such_ext; [|apply LookupParsed_means; rewrite M; exact Nc].
  intros r _. rewrite M. symmetry. apply means_perm. eapply sort_seen; eassumption.
Qed.

(** Equally long keys and values: the sorted tags lie exactly where the others lay. *)
Lemma esc_plain cs v : (forall c, In c v -> ~ In c cs) -> esc_spec cs v = v.
Proof. exact (esc_spec_id cs v). Qed.

Lemma firstn_exact {A} n (l r : list A) : length l = n -> firstn n (l ++ r) = l.
Proof. intros <-. rewrite firstn_app, Nat.sub_diag, firstn_all. cbn. apply app_nil_r. Qed.
Lemma skipn_exact {A} n (l r : list A) : length l = n -> skipn n (l ++ r) = r.
Proof. intros <-. rewrite skipn_app, Nat.sub_diag, skipn_all. reflexivity. Qed.

Lemma seen_render a b : forall tags tags' pre rest,
  Forall (fun t => length (fst t) = a /\ length (snd t) = b) tags -> Forall (fun t => length (fst t) = a /\ length (snd t) = b) tags' ->
  length tags = length tags' ->
  Forall (fun t => forall c, In c (fst t) \/ In c (snd t) -> c <> comma /\ c <> sp /\ c <> eqs) tags' ->
  seen (pre ++ flat_map (fun t => [comma] ++ esc_spec [comma; eqs; sp] (fst t) ++ [eqs] ++ esc_spec [comma; eqs; sp] (snd t)) tags' ++ rest)
       (length pre + 1) tags = tags'.
Proof.
  induction tags as [|[k v] tags IH]; intros tags' pre rest H1 H2 L U; destruct tags' as [|[k' v'] tags']; try discriminate; [reflexivity|].
  inversion H1 as [|? ? [Hk Hv] H1']; subst. inversion H2 as [|? ? [Hk' Hv'] H2']; subst. inversion U as [|? ? Hu U']; subst.
  cbn [fst snd] in *. cbn [flat_map fst snd].
  rewrite (esc_plain _ k'), (esc_plain _ v').
  2,3: intros c Hc X; destruct (Hu c ltac:(tauto)) as (A & B & C); destruct X as [X|[X|[X|[]]]]; congruence.
  cbn [seen].
  set (R := flat_map (fun t => [comma] ++ esc_spec [comma; eqs; sp] (fst t) ++ [eqs] ++ esc_spec [comma; eqs; sp] (snd t)) tags' ++ rest).
  assert (T : pre ++ (([comma] ++ k' ++ [eqs] ++ v') ++ flat_map (fun t => [comma] ++ esc_spec [comma; eqs; sp] (fst t) ++ [eqs] ++ esc_spec [comma; eqs; sp] (snd t)) tags') ++ rest
              = (pre ++ [comma]) ++ k' ++ ([eqs] ++ v' ++ R)) by (unfold R; rewrite <- !app_assoc; reflexivity).
  rewrite T. f_equal.
  - f_equal.
    + rewrite (skipn_exact (length pre + 1)) by (rewrite app_length; cbn; lia). apply firstn_exact. lia.
    + replace ((pre ++ [comma]) ++ k' ++ [eqs] ++ v' ++ R) with (((pre ++ [comma]) ++ k' ++ [eqs]) ++ v' ++ R) by (rewrite <- !app_assoc; reflexivity).
      rewrite (skipn_exact (length pre + 1 + length k + 1)) by (rewrite !app_length; cbn; lia). apply firstn_exact. lia.
  - replace ((pre ++ [comma]) ++ k' ++ [eqs] ++ v' ++ R) with (((pre ++ [comma]) ++ k' ++ [eqs] ++ v') ++ R) by (rewrite <- !app_assoc; reflexivity).
    replace (length pre + 1 + length k + length v + 2) with (length ((pre ++ [comma]) ++ k' ++ [eqs] ++ v') + 1) by (rewrite !app_length; cbn; lia).
    apply IH; auto.
Qed.

Lemma route_equally_long gosort rs line pl m tags rest : sorts gosort ->
  newParsedLine line = Some pl -> ParseTags line = POk m tags rest -> no_collision rs m ->
  ~ In bsl line -> unescaped m tags -> equally_long tags ->
  first_such (fun r => means (r_match r) m tags (Escaped (SortTags gosort pl))) rs (LookupParsed rs (SortTags gosort pl)).
Proof.
  intros GS Hp Ht Nc Nb [Um Ut] El.
  assert (Ps : plain_start m) by (intros c r ->; apply Um; left; reflexivity).
  destruct (keys_sorted_dec tags) as [K|K]; [eapply route_values; eauto; left; left; exact K|].
  destruct rest as [|rc rest]; [eapply route_values; eauto; left; right; left; reflexivity|].
  destruct (Nat.eq_dec (length (render_line m tags (rc :: rest))) (length line)) as [Q|Q]; [|eapply route_values; eauto; left; right; right; exact Q].
  assert (Hn : ~ not_in_place line m tags (rc :: rest)) by (intros [X|[X|X]]; [exact (K X)|discriminate|exact (X Q)]).
  eapply first_such_ext; [|eapply route_seen; eauto]. intros r _. apply means_perm.
  pose proof (newParsedLine_iff line) as N. rewrite Hp in N. destruct N as (N & _). rewrite Ht in N. inversion N as [[Em Eg Er]].
  assert (K' : ~ keys_sorted (Tags pl)) by (rewrite <- Eg; exact K).
  destruct (Sort_unsorted gosort line pl GS Hp K') as (tags' & P & _ & Ee & _). rewrite <- Er, <- Em in Ee. rewrite <- Eg in P.
  assert (Ne : tags' <> []). { intros ->. apply Permutation_sym, Permutation_nil in P. exact (unsorted_nonempty _ K P). }
  unfold header in Ee. rewrite <- !app_assoc in Ee. rewrite render_bytes in Ee by exact Ne. rewrite Ee. unfold render_line.
  rewrite (esc_plain _ m). 2: { intros c Hc X. destruct (Um c Hc). destruct X as [X|[X|[]]]; congruence. }
  destruct tags as [|t0 tags0] eqn:Et; [exfalso; exact (unsorted_nonempty _ K eq_refl)|]. rewrite <- Et in *.
  assert (F : Forall (fun t => length (fst t) = length (fst t0) /\ length (snd t) = length (snd t0)) tags).
  { apply Forall_forall. intros t It. apply El; [exact It|rewrite Et; left; reflexivity]. }
  rewrite <- Eg, <- Em.
  rewrite (seen_render (length (fst t0)) (length (snd t0)) tags tags' m ([sp] ++ rc :: rest)); [apply Permutation_sym; exact P|exact F| |apply Permutation_length; exact P|].
  - rewrite Forall_forall in *. intros t It. apply F. eapply Permutation_in; [apply Permutation_sym, P|exact It].
  - rewrite Forall_forall in *. intros t It. apply Ut. eapply Permutation_in; [apply Permutation_sym, P|exact It].
Qed.
