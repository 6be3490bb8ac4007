From Verif Require Import Base Text TextSpec TextProofs Rules RulesSpec.

(* ------------------------------------------------------------------ *)
(** * SubsetOf (C23) *)

Definition ctrue (l : list bool) : nat := length (filter (fun b => b) l).
Definition fsound (seen t : list tag) (found : list bool) : Prop :=
  Forall2 (fun tg f => f = true -> In tg seen) t found.
Definition fcomplete (seen t : list tag) (found : list bool) : Prop :=
  Forall2 (fun tg f => In tg seen -> f = true) t found.

Lemma tagEq_eq a b : tagEq a b = true <-> a = b.
Proof.
  destruct a, b. unfold tagEq; simpl. rewrite andb_true_iff, !beqs_eq. split; [intros [-> ->]; auto|].
  intros E; inversion E; auto.
Qed.

Lemma fsound_weaken o seen t found : fsound seen t found -> fsound (o :: seen) t found.
Proof. unfold fsound. induction 1; constructor; simpl; auto. Qed.

Lemma inner_spec n o seen : forall t found cnt fs c r,
  subset_inner n o t found cnt = (fs, c, r) ->
  fsound seen t found ->
  fsound (o :: seen) t fs /\ c + ctrue found = cnt + ctrue fs /\
  (r = true -> c = n) /\
  (r = false -> cnt < n -> c < n) /\
  (r = false -> fcomplete seen t found -> fcomplete (o :: seen) t fs).
Proof.
  unfold fsound, fcomplete, ctrue.
  induction t as [|tg t IH]; intros found cnt fs c r H Sd; inversion Sd as [|? f ? found' Hf Sd']; subst; cbn [subset_inner] in H.
  - inversion H; subst. repeat split; auto; try discriminate.
  - destruct (negb f && tagEq tg o) eqn:E.
    + apply andb_true_iff in E. destruct E as [E1 E2]. destruct f; [discriminate|]. apply tagEq_eq in E2. subst o.
      destruct (Nat.eqb_spec (S cnt) n) as [En|En].
      * inversion H; subst. simpl. split; [constructor; simpl; auto; apply fsound_weaken; auto|].
        split; [lia|]. repeat split; auto; discriminate.
      * destruct (subset_inner n tg t found' (S cnt)) as [[fs1 c1] r1] eqn:Ei. inversion H; subst.
        destruct (IH _ _ _ _ _ Ei Sd') as (A & B & C & D & F). simpl.
        split; [constructor; simpl; auto|]. split; [lia|]. split; auto. split; [intros; apply D; auto; lia|].
        intros Hr Hc. inversion Hc; subst. constructor; auto.
    + destruct (subset_inner n o t found' cnt) as [[fs1 c1] r1] eqn:Ei. inversion H; subst.
      destruct (IH _ _ _ _ _ Ei Sd') as (A & B & C & D & F).
      split; [constructor; simpl; auto|]. split; [simpl; destruct f; simpl; lia|]. split; auto. split; [auto|].
      intros Hr Hc. inversion Hc; subst. constructor; auto.
      intros [<-|Hi]; auto. destruct f; auto. simpl in E.
      rewrite (proj2 (tagEq_eq o o) eq_refl) in E. discriminate.
Qed.

Lemma ctrue_le l : ctrue l <= length l.
Proof. unfold ctrue. induction l as [|[] l IH]; simpl; lia. Qed.

Lemma ctrue_all l : ctrue l = length l -> Forall (fun b => b = true) l.
Proof.
  unfold ctrue. induction l as [|b l IH]; intros H; constructor.
  - destruct b; auto. simpl in H. pose proof (ctrue_le l). unfold ctrue in *. lia.
  - apply IH. destruct b; simpl in H; [lia|]. pose proof (ctrue_le l). unfold ctrue in *. lia.
Qed.

Lemma fsound_len seen t f : fsound seen t f -> length f = length t.
Proof. unfold fsound. induction 1; simpl; auto. Qed.

Lemma fsound_full seen t f : fsound seen t f -> ctrue f = length t -> incl t seen.
Proof.
  intros S C. rewrite <- (fsound_len _ _ _ S) in C. apply ctrue_all in C. unfold fsound in S.
  intros x Hx. induction S as [|tg b t' f' H S IH]; [contradiction|]. inversion C; subst.
  destruct Hx as [<-|Hx]; auto.
Qed.

Lemma fcomplete_full seen t f : fcomplete seen t f -> incl t seen -> ctrue f = length t.
Proof.
  unfold fcomplete, ctrue. induction 1 as [|tg b t f H F IH]; intros I; auto.
  assert (b = true) by (apply H, I; simpl; auto). subst b. simpl. rewrite IH; auto.
  intros x Hx. apply I. simpl; auto.
Qed.

Lemma outer_spec t : t <> [] -> forall other seen found cnt,
  fsound seen t found -> fcomplete seen t found -> cnt = ctrue found -> cnt < length t ->
  (subset_outer t other found cnt = true <-> incl t (seen ++ other)).
Proof.
  intros Ht. induction other as [|o other IH]; intros seen found cnt S C Ec Lt; cbn [subset_outer].
  - split; [discriminate|]. rewrite app_nil_r. intros I. apply fcomplete_full in C; auto. lia.
  - destruct (subset_inner (length t) o t found cnt) as [[fs c] r] eqn:E.
    destruct (inner_spec _ _ seen _ _ _ _ _ _ E S) as (A & B & R1 & R2 & R3).
    destruct r.
    + split; auto. intros _. specialize (R1 eq_refl). assert (F : ctrue fs = length t) by lia.
      pose proof (fsound_full _ _ _ A F) as I. intros x Hx. apply I in Hx. apply in_or_app. simpl in *. tauto.
    + specialize (R2 eq_refl Lt). specialize (R3 eq_refl C).
      rewrite (IH (o :: seen) fs c A R3); [|lia|lia].
      split; intros I x Hx; apply I in Hx; apply in_app_iff in Hx; apply in_or_app; simpl in *; tauto.
Qed.

Lemma subset_iff t other : SubsetOf t other = true <-> incl t other.
Proof.
  unfold SubsetOf. destruct t as [|x t]; [split; [intros _ y []|auto]|].
  set (tt := x :: t).
  assert (Cz : forall n, ctrue (repeat false n) = 0) by (unfold ctrue; induction n; simpl; auto).
  rewrite (outer_spec tt ltac:(discriminate) other [] (repeat false (length tt)) 0).
  - reflexivity.
  - unfold fsound. clear. induction tt; simpl; constructor; auto; discriminate.
  - unfold fcomplete. clear. induction tt; simpl; constructor; auto; contradiction.
  - rewrite Cz. auto.
  - simpl. lia.
Qed.

(* ------------------------------------------------------------------ *)
(** * Sorting *)

Lemma tagLess_weak : strict_weak tagLess.
Proof.
  unfold tagLess. split; [intros; apply bltb_irrefl|]. split; [intros a b c; apply bltb_trans|].
  intros a b c H1 H2 H3 H4. rewrite (bltb_total _ _ H1 H2). auto.
Qed.

Lemma strict_weak_map {A B} (f : A -> B) less : strict_weak less -> strict_weak (fun a b => less (f a) (f b)).
Proof. intros (H1 & H2 & H3). repeat split; intros; eauto; eapply H3; eauto. Qed.

Lemma not_less_trans {A} (less : A -> A -> bool) a b c : strict_weak less ->
  less b a = false -> less c b = false -> less c a = false.
Proof.
  intros (I & T & W) H1 H2. destruct (less c a) eqn:E; auto.
  destruct (less a b) eqn:E1.
  - rewrite (T _ _ _ E E1) in H2. congruence.
  - destruct (less b c) eqn:E2.
    + rewrite (T _ _ _ E2 E) in H1. congruence.
    + destruct (W a b c E1 H1 E2 H2) as [_ X]. congruence.
Qed.

Lemma in_order_cons {A} (less : A -> A -> bool) x l :
  in_order less (x :: l) <-> (forall y, In y l -> less y x = false) /\ in_order less l.
Proof.
  unfold in_order. split.
  - intros H. split.
    + intros y Hy. apply In_nth_error in Hy. destruct Hy as [j Hj]. apply (H 0 (S j) x y); simpl; auto; lia.
    + intros i j a b L Hi Hj. apply (H (S i) (S j) a b); simpl; auto; lia.
  - intros [H1 H2] i j a b L Hi Hj. destruct i as [|i]; destruct j as [|j]; try lia; simpl in *.
    + inversion Hi; subst. apply H1. eapply nth_error_In; eauto.
    + apply (H2 i j); auto. lia.
Qed.

Lemma IsSorted_iff {A} (less : A -> A -> bool) l : strict_weak less -> (IsSorted less l = true <-> in_order less l).
Proof.
  intros W. induction l as [|a l IH]; [split; auto; intros _ i j x y L Hi; destruct i; discriminate|].
  rewrite in_order_cons. destruct l as [|b l].
  - split; auto. intros _. split; [intros y []|]. apply IH. auto.
  - cbn [IsSorted]. change (IsSorted less (b :: l) = true <-> in_order less (b :: l)) in IH.
    rewrite andb_true_iff, negb_true_iff, IH, in_order_cons. split.
    + intros (H1 & H2 & H3). split; auto. intros y [<-|Hy]; auto.
      apply (not_less_trans less a b y); auto.
    + intros (H1 & H2). split; auto. apply H1. simpl; auto.
Qed.

Lemma insert_perm {A} (less : A -> A -> bool) x l : Permutation (x :: l) (insert less x l).
Proof.
  induction l as [|y l IH]; simpl; auto. destruct (less y x); auto.
  eapply perm_trans; [apply perm_swap|]. constructor; auto.
Qed.

Lemma isort_perm {A} (less : A -> A -> bool) l : Permutation l (isort less l).
Proof. induction l as [|x l IH]; simpl; auto. eapply perm_trans; [|apply insert_perm]. auto. Qed.

Lemma insert_order {A} (less : A -> A -> bool) x l : strict_weak less -> in_order less l -> in_order less (insert less x l).
Proof.
  intros W. induction l as [|y l IH]; intros H; cbn [insert].
  - apply in_order_cons. split; [intros z []|auto].
  - apply in_order_cons in H. destruct H as [H1 H2]. destruct (less y x) eqn:E.
    + apply in_order_cons. split; auto. intros z Hz.
      apply (Permutation_in _ (Permutation_sym (insert_perm less x l))) in Hz. destruct Hz as [<-|Hz]; auto.
      destruct W as (I & T & _). destruct (less x y) eqn:E2; auto. pose proof (T _ _ _ E E2) as X. rewrite I in X. congruence.
    + apply in_order_cons. split.
      * intros z [<-|Hz]; auto. apply (not_less_trans less x y z); auto.
      * apply in_order_cons. auto.
Qed.

Lemma isort_sorts : sorts (@isort).
Proof.
  intros A less l W. split; [apply isort_perm|].
  induction l as [|x l IH]; cbn [isort]; [intros i j a b L Hi; destruct i; discriminate|]. apply insert_order; auto.
Qed.

Lemma in_order_map {A B} (f : A -> B) less l : in_order (fun a b => less (f a) (f b)) l <-> in_order less (map f l).
Proof.
  unfold in_order. split; intros H i j a b L Hi Hj.
  - rewrite nth_error_map in Hi, Hj.
    destruct (nth_error l i) eqn:E1; [|discriminate]. destruct (nth_error l j) eqn:E2; [|discriminate].
    simpl in *. inversion Hi; inversion Hj; subst. eapply H; eauto.
  - apply (H i j); auto; rewrite nth_error_map; [rewrite Hi|rewrite Hj]; auto.
Qed.

(* ------------------------------------------------------------------ *)
(** * Parsing with slices *)

Lemma skipn_plus {A} n m (l : list A) : skipn n (skipn m l) = skipn (m + n) l.
Proof.
  revert l; induction m as [|m IH]; intros l; auto. destruct l as [|x l]; simpl; auto. apply skipn_nil.
Qed.

Lemma tokenP_read until line off s off' : tokenP until line off = (s, off') ->
  Token until (skipn off line) = (read line s, skipn off' line) /\ off <= off'.
Proof.
  unfold tokenP, Token. destruct (token until (skipn off line)) as [n e]. intros H; inversion H; subst.
  split; [|lia]. f_equal; [destruct e; auto|]. apply skipn_plus.
Qed.

Lemma skipn_cons_next {A} off (l : list A) c r : skipn off l = c :: r -> skipn (off + 1) l = r.
Proof. intros H. rewrite <- skipn_plus, H. auto. Qed.

Definition pp_read (line : bytes) (p : ppres) : pres :=
  match p with
  | PPOk m tags rem => POk (read line m) (map (read_tag line) tags)
                           (match rem with None => [] | Some o => skipn o line end)
  | PPErr => PErr
  | PPFuel => PFuel
  end.

Lemma loopP_read line m : forall fuel off acc,
  pp_read line (parse_tagsP_loop fuel line m off acc) =
  parse_tags_loop fuel (read line m) (skipn off line) (map (read_tag line) acc).
Proof.
  induction fuel as [|f IH]; intros off acc; [reflexivity|]. cbn [parse_tagsP_loop parse_tags_loop].
  destruct (skipn off line) as [|c l1] eqn:E; [cbn [pp_read]; rewrite map_rev; auto|].
  apply skipn_cons_next in E as E1.
  destruct (Ascii.eqb c sp); [cbn [pp_read]; rewrite map_rev, E1; auto|].
  destruct (tokenP (lit "= ,") line (off + 1)) as [key off2] eqn:K. apply tokenP_read in K. destruct K as [K _].
  rewrite E1 in K. rewrite K.
  destruct (skipn off2 line) as [|d l3] eqn:E2; auto. apply skipn_cons_next in E2.
  destruct (negb (Ascii.eqb d eqs)); auto.
  destruct (tokenP (lit ", ") line (off2 + 1)) as [v off4] eqn:V. apply tokenP_read in V. destruct V as [V _].
  rewrite E2 in V. rewrite V. destruct (read line v) eqn:Er; auto.
  rewrite IH. cbn [map]. unfold read_tag at 1. cbn [fst snd]. rewrite Er. auto.
Qed.

Lemma parse_tags_fuel_more m : forall f1 f2 line acc, length line < f1 -> length line < f2 ->
  parse_tags_loop f1 m line acc = parse_tags_loop f2 m line acc.
Proof.
  induction f1 as [|f1 IH]; intros [|f2] line acc H1 H2; try lia. cbn [parse_tags_loop].
  destruct line as [|c l1]; auto. destruct (Ascii.eqb c sp); auto.
  destruct (Token (lit "= ,") l1) as [k l2] eqn:E1. apply Token_len in E1.
  destruct l2 as [|d l3]; auto. destruct (negb (Ascii.eqb d eqs)); auto.
  destruct (Token (lit ", ") l3) as [v l4] eqn:E2. apply Token_len in E2.
  destruct v; auto. apply IH; simpl in *; lia.
Qed.

Lemma ParseTagsP_read line : pp_read line (ParseTagsP line) = ParseTags line.
Proof.
  unfold ParseTagsP, ParseTags. destruct (tokenP (lit ", ") line 0) as [m off] eqn:T.
  apply tokenP_read in T. destruct T as [T _]. simpl skipn in T. rewrite T.
  destruct (skipn off line) as [|c l] eqn:E; [reflexivity|]. rewrite loopP_read, E.
  apply parse_tags_fuel_more; [|auto].
  rewrite <- E, skipn_length. lia.
Qed.

Lemma newParsedLine_iff line :
  match newParsedLine line with
  | None => ParseTags line = PErr
  | Some pl => ParseTags line = POk (Measurement pl) (Tags pl) (Remainder pl) /\ Escaped pl = line /\
               pl_buf pl = line /\ pl_escaped pl = None
  end.
Proof.
  unfold newParsedLine. pose proof (ParseTagsP_read line) as H. pose proof (ParseTags_no_fuel line) as F.
  destruct (ParseTagsP line); simpl in H; auto. congruence.
Qed.

(** The remainder starts right after a space. *)
Lemma loopP_rem line m : forall fuel off acc m' tags o,
  parse_tagsP_loop fuel line m off acc = PPOk m' tags (Some o) ->
  1 <= o /\ nth_error line (o - 1) = Some sp.
Proof.
  induction fuel as [|f IH]; intros off acc m' tags o H; [discriminate|]. cbn [parse_tagsP_loop] in H.
  destruct (skipn off line) as [|c l1] eqn:E; [discriminate|].
  destruct (Ascii.eqb_spec c sp) as [->|N].
  - inversion H; subst. split; [lia|]. replace (off + 1 - 1) with off by lia.
    rewrite <- (firstn_skipn off line), nth_error_app2, E.
    + rewrite firstn_length. assert (off <= length line).
      { destruct (le_lt_dec off (length line)); auto. rewrite skipn_all2 in E by lia. discriminate. }
      replace (off - Nat.min off (length line)) with 0 by lia. auto.
    + rewrite firstn_length. lia.
  - destruct (tokenP (lit "= ,") line (off + 1)) as [key off2].
    destruct (skipn off2 line) as [|d l3]; [discriminate|].
    destruct (negb (Ascii.eqb d eqs)); [discriminate|].
    destruct (tokenP (lit ", ") line (off2 + 1)) as [v off4].
    destruct (read line v); [discriminate|]. eauto.
Qed.

Lemma ParseTagsP_rem line m tags o : ParseTagsP line = PPOk m tags (Some o) -> 1 <= o /\ nth_error line (o - 1) = Some sp.
Proof.
  unfold ParseTagsP. destruct (tokenP (lit ", ") line 0) as [m0 off].
  destruct (skipn off line); [discriminate|]. apply loopP_rem.
Qed.

Lemma skipn_nth_cons {A} (l : list A) i x : nth_error l i = Some x -> skipn i l = x :: skipn (i + 1) l.
Proof.
  revert i; induction l as [|y l IH]; intros [|i] H; simpl in *; try discriminate; [inversion H; auto|].
  apply IH; auto.
Qed.

(* ------------------------------------------------------------------ *)
(** * SortTags (C26) *)

Definition header (m : bytes) (tags : list tag) : bytes := EscapeMeasurement m ++ [comma] ++ TagsBytes tags.

Lemma Sort_unsorted gosort line pl : sorts gosort -> newParsedLine line = Some pl -> ~ keys_sorted (Tags pl) ->
  exists tags', Permutation (Tags pl) tags' /\ keys_sorted tags' /\
    Escaped (SortTags gosort pl) = match Remainder pl with
                                   | [] => header (Measurement pl) tags'
                                   | r => header (Measurement pl) tags' ++ [sp] ++ r
                                   end /\
    Permutation (pl_tags pl) (pl_tags (SortTags gosort pl)) /\
    tags' = map (read_tag line) (pl_tags (SortTags gosort pl)) /\
    pl_meas (SortTags gosort pl) = pl_meas pl /\
    (pl_buf (SortTags gosort pl) = line \/
     (Remainder pl <> [] /\ length (header (Measurement pl) tags') + length (Remainder pl) + 1 = length line /\
      pl_buf (SortTags gosort pl) = header (Measurement pl) tags' ++ [sp] ++ Remainder pl)).
Proof.
  intros GS Hp Hu. pose proof (newParsedLine_iff line) as N. rewrite Hp in N. destruct N as (_ & Eb & Bf & En).
  set (less := fun a b => tagLess (read_tag (pl_buf pl) a) (read_tag (pl_buf pl) b)).
  assert (W : strict_weak less) by (apply (strict_weak_map (read_tag (pl_buf pl)) tagLess tagLess_weak)).
  set (tags := gosort ptag less (pl_tags pl)).
  destruct (GS ptag less (pl_tags pl) W) as [P O]. fold tags in P, O.
  exists (map (read_tag (pl_buf pl)) tags).
  assert (So : IsSorted less (pl_tags pl) = false).
  { destruct (IsSorted less (pl_tags pl)) eqn:E; auto. exfalso. apply Hu. apply (IsSorted_iff less) in E; auto.
    unfold keys_sorted, Tags. apply (in_order_map (read_tag (pl_buf pl)) tagLess). exact E. }
  split; [apply Permutation_map; auto|]. split; [apply (in_order_map (read_tag (pl_buf pl)) tagLess); exact O|].
  unfold SortTags. fold less. rewrite So. fold tags. cbv zeta.
  change (EscapeMeasurement (Measurement pl) ++ [comma] ++ TagsBytes (map (read_tag (pl_buf pl)) tags))
    with (header (Measurement pl) (map (read_tag (pl_buf pl)) tags)).
  set (hd := header (Measurement pl) (map (read_tag (pl_buf pl)) tags)).
  destruct (Remainder pl) as [|r0 r] eqn:Er.
  - unfold Escaped; simpl. rewrite Bf. repeat split; auto.
  - rewrite Eb. destruct (Nat.eqb_spec (length hd + length (r0 :: r) + 1) (length line)) as [El|El].
    + assert (Sk : skipn (length hd) (pl_buf pl) = sp :: r0 :: r).
      { unfold Remainder in Er. destruct (pl_rem pl) as [o|] eqn:Eo; [|discriminate].
        assert (Ho : 1 <= o /\ nth_error line (o - 1) = Some sp).
        { unfold newParsedLine in Hp. destruct (ParseTagsP line) as [m tg rem| |] eqn:E; try discriminate.
          inversion Hp; subst pl. simpl in Eo. subst rem. eapply ParseTagsP_rem; eauto. }
        destruct Ho as [Ho1 Ho2]. rewrite Bf in *.
        assert (Lr : length (r0 :: r) = length line - o) by (rewrite <- Er, skipn_length; auto).
        assert (o - 1 = length hd).
        { assert (o < length line); [|lia]. destruct (le_lt_dec (length line) o); auto. rewrite skipn_all2 in Er by auto. discriminate. }
        rewrite <- H. apply skipn_nth_cons in Ho2. rewrite Ho2. f_equal.
        replace (o - 1 + 1) with o by lia. auto. }
      unfold Escaped; simpl. rewrite Sk.
      split; auto. split; auto. split; [rewrite Bf; auto|]. split; auto. right.
      split; [discriminate|]. split; auto.
    + unfold Escaped; simpl. rewrite Bf. repeat split; auto.
Qed.

Lemma Sort_sorted gosort pl : keys_sorted (Tags pl) -> SortTags gosort pl = pl.
Proof.
  intros H. unfold SortTags.
  set (less := fun a b => tagLess (read_tag (pl_buf pl) a) (read_tag (pl_buf pl) b)).
  assert (E : IsSorted less (pl_tags pl) = true).
  { apply IsSorted_iff; [apply (strict_weak_map (read_tag (pl_buf pl)) tagLess tagLess_weak)|].
    apply (in_order_map (read_tag (pl_buf pl)) tagLess). exact H. }
  rewrite E. auto.
Qed.

Lemma keys_sorted_dec tags : {keys_sorted tags} + {~ keys_sorted tags}.
Proof.
  destruct (IsSorted tagLess tags) eqn:E; [left|right].
  - apply IsSorted_iff; auto. apply tagLess_weak.
  - intros H. apply (IsSorted_iff tagLess) in H; [congruence|apply tagLess_weak].
Qed.

Lemma unsorted_nonempty tags : ~ keys_sorted tags -> tags <> [].
Proof. intros H ->. apply H. intros i j a b L Hi. destruct i; discriminate. Qed.

(** The text a line becomes when its tags are put in key order. *)
Lemma sort_line gosort line m tags rest : sorts gosort -> ParseTags line = POk m tags rest ->
  exists pl tags', newParsedLine line = Some pl /\ Permutation tags tags' /\ keys_sorted tags' /\
    (keys_sorted tags -> tags' = tags /\ Escaped (SortTags gosort pl) = line) /\
    (~ keys_sorted tags -> Escaped (SortTags gosort pl) =
       match rest with [] => esc_spec [comma; sp] m ++ [comma] ++ TagsBytes tags' | _ => render_line m tags' rest end).
Proof.
  intros GS Hp. pose proof (newParsedLine_iff line) as N. destruct (newParsedLine line) as [pl|] eqn:E; [|congruence].
  destruct N as (N & Eb & Bf & En). rewrite Hp in N. inversion N; subst m tags rest. exists pl.
  destruct (keys_sorted_dec (Tags pl)) as [K|K].
  - exists (Tags pl). rewrite (Sort_sorted gosort pl K). repeat split; auto; tauto.
  - destruct (Sort_unsorted gosort line pl GS E K) as (tags' & P & S & X & _). exists tags'.
    split; auto. split; auto. split; auto. split; [tauto|]. intros _. rewrite X. unfold header.
    destruct (Remainder pl) as [|r0 r] eqn:Er.
    + unfold EscapeMeasurement. rewrite Escape_spec. auto.
    + rewrite <- !app_assoc. rewrite render_bytes; auto.
      intros ->. apply Permutation_sym, Permutation_nil in P. apply (unsorted_nonempty _ K P).
Qed.

Lemma sort_line_data gosort line m tags rest : sorts gosort -> ParseTags line = POk m tags rest ->
  rest <> [] -> good_measurement m -> Forall good_tag tags ->
  exists pl tags', newParsedLine line = Some pl /\ Permutation tags tags' /\ keys_sorted tags' /\
    ParseTags (Escaped (SortTags gosort pl)) = POk m tags' rest /\
    exists hdr, Escaped (SortTags gosort pl) = hdr ++ [sp] ++ rest.
Proof.
  intros GS Hp Hr Gm Gt. destruct (sort_line gosort line m tags rest GS Hp) as (pl & tags' & N & P & S & A & B).
  exists pl, tags'. split; auto. split; auto. split; auto.
  assert (Gt' : Forall good_tag tags') by (eapply Permutation_Forall; eauto).
  destruct (keys_sorted_dec tags) as [K|K].
  - destruct (A K) as [-> ->]. split; auto.
    pose proof (newParsedLine_iff line) as NI. rewrite N in NI. destruct NI as (NI & _ & Bf & _).
    rewrite Hp in NI. inversion NI as [[E1 E2 E3]]. unfold Remainder. rewrite Bf.
    destruct (pl_rem pl) as [o|] eqn:Eo; [|unfold Remainder in E3; rewrite Eo in E3; congruence].
    assert (Ho : 1 <= o /\ nth_error line (o - 1) = Some sp).
    { unfold newParsedLine in N. destruct (ParseTagsP line) as [m0 tg rem| |] eqn:E; try discriminate.
      inversion N; subst pl. simpl in Eo. subst rem. eapply ParseTagsP_rem; eauto. }
    destruct Ho as [Ho1 Ho2]. exists (firstn (o - 1) line). apply skipn_nth_cons in Ho2.
    replace (o - 1 + 1) with o in Ho2 by lia. cbn [app]. rewrite <- Ho2. symmetry. apply firstn_skipn.
  - specialize (B K). destruct rest as [|r0 r]; [congruence|]. rewrite B. split.
    + apply ParseTags_render; auto.
    + unfold render_line. rewrite app_assoc. eauto.
Qed.

(* ------------------------------------------------------------------ *)
(** * Rules (C24, C25, C27) *)

Lemma lookup_from_spec rs pl : forall i,
  match lookup_from i rs pl with
  | None => forall r, In r rs -> rule_matches r pl = false
  | Some k => i <= k /\ (exists r, nth_error rs (k - i) = Some r /\ rule_matches r pl = true) /\
              forall j r, j < k - i -> nth_error rs j = Some r -> rule_matches r pl = false
  end.
Proof.
  induction rs as [|r rs IH]; intros i; cbn [lookup_from]; [intros r []|].
  destruct (rule_matches r pl) eqn:E.
  - split; auto. rewrite Nat.sub_diag. split; [exists r; auto|]. intros; lia.
  - specialize (IH (S i)). destruct (lookup_from (S i) rs pl) as [k|].
    + destruct IH as (L & (r' & H1 & H2) & H3). split; [lia|]. replace (k - i) with (S (k - S i)) by lia.
      split; [exists r'; auto|]. intros [|j] r1 Hj H; simpl in H; [inversion H; subst; auto|].
      apply (H3 j); auto. lia.
    + intros r' [<-|H]; auto.
Qed.

Lemma LookupParsed_first rs pl : first_such (fun r => rule_matches r pl = true) rs (LookupParsed rs pl).
Proof.
  unfold LookupParsed, first_such. pose proof (lookup_from_spec rs pl 0) as H.
  destruct (lookup_from 0 rs pl) as [k|].
  - rewrite Nat.sub_0_r in H. destruct H as (_ & H1 & H2). split; auto.
    intros j a Hj Ha X. specialize (H2 j a Hj Ha). congruence.
  - intros a Ha X. specialize (H a Ha). congruence.
Qed.

Lemma first_such_ext {A} (P Q : A -> Prop) l o : (forall a, In a l -> (P a <-> Q a)) -> first_such P l o -> first_such Q l o.
Proof.
  intros E. unfold first_such. destruct o as [i|].
  - intros [(a & H1 & H2) H3]. split.
    + exists a. split; auto. apply E; auto. eapply nth_error_In; eauto.
    + intros j b Hj Hb X. apply (H3 j b Hj Hb). apply E; auto. eapply nth_error_In; eauto.
  - intros H a Ha X. apply (H a Ha). apply E; auto.
Qed.

(** No rule name other than the measurement has the measurement's hash. *)
Definition no_collision (rs : list rule) (m : bytes) : Prop :=
  forall r name, In r rs -> r_match r = MBasic name -> hashMeasurement name = hashMeasurement m -> name = m.

Lemma rule_matches_means rs r pl : In r rs -> no_collision rs (Measurement pl) ->
  (rule_matches r pl = true <-> means (r_match r) (Measurement pl) (Tags pl) (Escaped pl)).
Proof.
  intros Hr Nc. unfold rule_matches, means, HashedMeasurement, Unescaped. destruct (r_match r) as [name|ts|re|re] eqn:E.
  - rewrite Z.eqb_eq. split; [|intros ->; auto]. intros H. symmetry. eapply Nc; eauto.
  - apply subset_iff.
  - reflexivity.
  - apply negb_true_iff.
Qed.

Lemma LookupParsed_means rs pl : no_collision rs (Measurement pl) ->
  first_such (fun r => means (r_match r) (Measurement pl) (Tags pl) (Escaped pl)) rs (LookupParsed rs pl).
Proof.
  intros Nc. eapply first_such_ext; [|apply LookupParsed_first]. intros r Hr. apply (rule_matches_means rs); auto.
Qed.

Lemma Lookup_spec rs line :
  match ParseTags line with
  | POk m tags rest => no_collision rs m -> first_such (fun r => means (r_match r) m tags line) rs (Lookup rs line)
  | _ => Lookup rs line = None
  end.
Proof.
  unfold Lookup. pose proof (newParsedLine_iff line) as N. destruct (newParsedLine line) as [pl|].
  - destruct N as (-> & Eb & _). intros Nc. subst line. apply LookupParsed_means; auto.
  - rewrite N. auto.
Qed.

(** first_such determines the answer. *)
Lemma first_such_unique {A} (P : A -> Prop) l o1 o2 : first_such P l o1 -> first_such P l o2 -> o1 = o2.
Proof.
  unfold first_such. destruct o1 as [i|], o2 as [j|]; auto.
  - intros [(a & A1 & A2) A3] [(b & B1 & B2) B3]. f_equal.
    destruct (lt_eq_lt_dec i j) as [[L|L]|L]; auto; exfalso; [apply (B3 i a)|apply (A3 j b)]; auto.
  - intros [(a & A1 & A2) A3] H. exfalso. apply (H a); auto. eapply nth_error_In; eauto.
  - intros H [(a & A1 & A2) A3]. exfalso. apply (H a); auto. eapply nth_error_In; eauto.
Qed.
