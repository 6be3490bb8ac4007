From Verif Require Import Base Convert NumSpec NumProofs Prom RulesSpec RulesProofs PromSpec PromParse.
Local Open Scope nat_scope.

(** ** Sorting *)

Lemma bltb_weak : strict_weak bltb.
Proof.
  split; [apply bltb_irrefl|]. split; [apply bltb_trans|].
  intros a b c H1 H2 H3 H4. rewrite (bltb_total a b), (bltb_total b c) by auto. split; apply bltb_irrefl.
Qed.

(** A strictly increasing list is the only sorted arrangement of its elements. *)
Lemma sorted_unique {A} (less : A -> A -> bool) : forall l l' : list A,
  (forall a, less a a = false) ->
  (forall i j a b, i < j -> nth_error l i = Some a -> nth_error l j = Some b -> less a b = true) ->
  Permutation l l' -> in_order less l' -> l' = l.
Proof.
  intros l. induction l as [|x l IH]; intros l' Irr Hl P O'.
  { apply Permutation_nil in P. auto. }
  destruct l' as [|y l']. { apply Permutation_sym, Permutation_nil in P. discriminate. }
  assert (Hxy : x = y).
  { assert (Hy : In y (x :: l)) by (eapply Permutation_in; [apply Permutation_sym; eauto|left; auto]).
    destruct Hy as [Hy|Hy]; auto. exfalso.
    apply In_nth_error in Hy. destruct Hy as (j & Hj).
    assert (Hlt : less x y = true) by (apply (Hl 0 (S j)); auto; lia).
    assert (Hx : In x (y :: l')) by (eapply Permutation_in; [eauto|left; auto]).
    destruct Hx as [Hx|Hx]; [subst; rewrite Irr in Hlt; discriminate|].
    apply In_nth_error in Hx. destruct Hx as (k & Hk).
    assert (less x y = false) by (apply (O' 0 (S k)); auto; lia). congruence. }
  subst y. f_equal. apply IH; auto.
  - intros i j a b Hij Ha Hb. apply (Hl (S i) (S j)); auto; lia.
  - eapply Permutation_cons_inv; eauto.
  - intros i j a b Hij Ha Hb. apply (O' (S i) (S j)); auto; lia.
Qed.

Lemma in_order_strict {A} (less : A -> A -> bool) (key : A -> bytes) (l : list A) :
  (forall a b, less a b = bltb (key a) (key b)) -> NoDup (map key l) -> in_order less l ->
  forall i j a b, i < j -> nth_error l i = Some a -> nth_error l j = Some b -> less a b = true.
Proof.
  intros Hk ND O' i j a b Hij Ha Hb. rewrite Hk. destruct (bltb (key a) (key b)) eqn:E; auto. exfalso.
  assert (E' : bltb (key b) (key a) = false) by (rewrite <- Hk; eauto).
  assert (key a = key b) by (apply bltb_total; auto).
  rewrite NoDup_nth_error in ND. assert (i = j); [|lia]. apply ND.
  - rewrite map_length. apply nth_error_Some. congruence.
  - rewrite !nth_error_map, Ha, Hb. simpl. congruence.
Qed.

Definition label_less (a b : bytes * bytes) : bool := bltb (fst a) (fst b).

Lemma label_less_weak : strict_weak label_less.
Proof. exact (strict_weak_map (@fst bytes bytes) bltb bltb_weak). Qed.

Lemma sort_labels_spec gs ls : sorts gs -> Permutation ls (sort_labels gs ls) /\ in_order label_less (sort_labels gs ls).
Proof. intros Hs. apply (Hs _ label_less ls label_less_weak). Qed.

Lemma increasing_nodup ls : increasing ls -> NoDup (map fst ls).
Proof.
  intros H. apply NoDup_nth_error. intros i j Hi E. rewrite map_length in Hi.
  rewrite !nth_error_map in E.
  destruct (nth_error ls i) as [a|] eqn:Ea; [|apply nth_error_None in Ea; lia].
  destruct (nth_error ls j) as [b|] eqn:Eb; [|discriminate]. simpl in E.
  destruct (Nat.lt_trichotomy i j) as [L|[L|L]]; auto; exfalso.
  - pose proof (H _ _ _ _ L Ea Eb) as X. injection E as E. rewrite E, bltb_irrefl in X. discriminate.
  - pose proof (H _ _ _ _ L Eb Ea) as X. injection E as E. rewrite E, bltb_irrefl in X. discriminate.
Qed.

Lemma sort_labels_increasing gs ls : sorts gs -> NoDup (map fst ls) -> increasing (sort_labels gs ls).
Proof.
  intros Hs ND. destruct (sort_labels_spec gs ls Hs) as [P O'].
  assert (ND' : NoDup (map fst (sort_labels gs ls))) by (eapply Permutation_NoDup; [apply Permutation_map; exact P|auto]).
  exact (in_order_strict label_less fst (sort_labels gs ls) (fun _ _ => eq_refl) ND' O').
Qed.

Lemma increasing_unique ls ls' : increasing ls -> increasing ls' -> Permutation ls ls' -> ls = ls'.
Proof.
  intros H H' P. symmetry. apply (sorted_unique label_less); auto.
  - intros a. apply bltb_irrefl.
  - intros i j a b L Ha Hb. unfold label_less. apply bltb_asym. eauto.
Qed.

Lemma sort_labels_id gs ls : sorts gs -> increasing ls -> sort_labels gs ls = ls.
Proof.
  intros Hs H. destruct (sort_labels_spec gs ls Hs) as [P O'].
  apply (sorted_unique label_less); auto. intros a. apply bltb_irrefl.
Qed.

(** ** Rendering and the grammar *)

Definition ok_label (l : bytes * bytes) : Prop := no_eqdq (fst l) /\ ~ In dq (snd l).

Lemma labels_loop_join ls : labels_loop ls = join_labels ls.
Proof.
  induction ls as [|[n v] r IH]; [reflexivity|]. destruct r as [|l r]; [reflexivity|].
  cbn [labels_loop join_labels]. cbn [labels_loop join_labels] in IH. rewrite IH. unfold label_item. rewrite <- !app_assoc. reflexivity.
Qed.

Lemma labels_text_identity name ls : name ++ labels_text ls = identity name ls.
Proof. unfold labels_text, identity. rewrite labels_loop_join. reflexivity. Qed.

Lemma label_items_join ls : ls <> [] -> Forall ok_label ls -> label_items (join_labels ls) ls.
Proof.
  induction ls as [|[n v] r IH]; intros N F; [congruence|]. inversion F as [|l0 r0 [H1 H2] Fr]; subst.
  destruct r as [|l r]; [constructor; auto|]. change (join_labels ((n, v) :: l :: r)) with (label_item n v ++ [comma] ++ join_labels (l :: r)).
  constructor; auto. apply IH; auto. congruence.
Qed.

Lemma label_items_ok u ls : label_items u ls -> u = join_labels ls /\ Forall ok_label ls /\ ls <> [].
Proof.
  induction 1 as [n v Hn Hv|n v u ls Hn Hv Hu IH].
  - split; [reflexivity|]. split; [|congruence]. constructor; auto. split; auto.
  - destruct IH as (-> & F & N). split.
    + destruct ls as [|l r]; [congruence|reflexivity].
    + split; [|congruence]. constructor; auto. split; auto.
Qed.

Lemma reads_ok line e : reads line e -> Forall ok_label (e_labels e).
Proof.
  intros (_ & _ & _ & lp & num & _ & Hlp & _). inversion Hlp; subst; auto.
  eapply label_items_ok; eauto.
Qed.

Lemma metric_bytes_served name ls v ms : metric_bytes name ls v ms = served_line name ls v ms.
Proof.
  unfold metric_bytes, served_line. destruct ls as [|l r]; [reflexivity|].
  rewrite <- labels_text_identity. rewrite <- app_assoc. reflexivity.
Qed.

Lemma FormatInt_facts z : int64 z -> ToInt (FormatInt z) = Some z /\ ~ In sp (FormatInt z) /\ ~ In nl (FormatInt z) /\ FormatInt z <> [].
Proof.
  intros H. pose proof (ToInt_FormatInt z H) as E. split; auto.
  destruct (FormatInt_spec z H) as [D _].
  destruct D as [T _].
  split; [eapply int_text_no_space; eauto|]. split; [eapply int_text_no_nl; eauto|].
  intros X. rewrite X in E. discriminate.
Qed.

(** The canonical text of a number is its shortest. *)
Lemma dec_value_low d ds : is_digit d -> d <> "0"%char -> Forall is_digit ds ->
  (10 ^ Z.of_nat (length ds) <= dec_value (d :: ds))%Z.
Proof.
  intros Hd N F. change (dec_value (d :: ds)) with (dec_fold (0 * 10 + (Z.of_N (bval d) - 48)) ds).
  pose proof (dec_fold_bound ds F (0 * 10 + (Z.of_N (bval d) - 48))%Z) as B.
  unfold is_digit in Hd. assert (Hz : (1 <= Z.of_N (bval d) - 48)%Z).
  { assert (bval d <> 48%N); [|lia]. intros X. apply N. apply bval_inj. rewrite X. reflexivity. }
  destruct B as [B _]; [lia|].
  assert (0 < 10 ^ Z.of_nat (length ds))%Z by (apply Z.pow_pos_nonneg; lia). nia.
Qed.

Lemma canonical_short s t z : dec_text z s -> int_text t z -> length s <= length t.
Proof.
  intros (T & H0 & Hz & Hm) Ht. destruct (Z.eq_dec z 0) as [->|Nz].
  { rewrite H0 by auto. simpl. inversion Ht as [ds D E|ds D E]; subst; simpl; [|lia].
    destruct D as [D _]. destruct t; [congruence|simpl; lia]. }
  assert (Key : forall a b, digits a -> digits b -> dec_value a = dec_value b -> (forall r, a <> "0"%char :: r) -> length a <= length b).
  { intros a b [Na Fa] [Nb Fb] E Hl. destruct a as [|d a]; [congruence|]. inversion Fa; subst.
    pose proof (dec_value_low d a) as L. specialize (L ltac:(auto) ltac:(intros ->; apply (Hl a); auto) ltac:(auto)).
    pose proof (dec_value_bound b Fb) as B. rewrite E in L.
    destruct (Nat.le_gt_cases (length (d :: a)) (length b)) as [X|X]; auto. exfalso. simpl in X.
    assert (10 ^ Z.of_nat (length b) <= 10 ^ Z.of_nat (length a))%Z by (apply Z.pow_le_mono_r; lia). lia. }
  inversion T as [ds D E|ds D E]; inversion Ht as [ds' D' E'|ds' D' E']; subst.
  - apply Key; auto. intros r Er. destruct (Hz r); [congruence|lia].
  - exfalso. destruct D as [_ F], D' as [_ F']. pose proof (dec_value_bound _ F). pose proof (dec_value_bound _ F'). lia.
  - exfalso. destruct D as [_ F], D' as [_ F']. pose proof (dec_value_bound _ F). pose proof (dec_value_bound _ F'). lia.
  - simpl. apply le_n_S. apply Key; auto; [lia|]. intros r Er. apply (Hm r). rewrite Er. reflexivity.
Qed.

Lemma ToInt_range t v : ToInt t = Some v -> int64 v.
Proof.
  unfold ToInt. destruct t as [|c r]; [discriminate|]. destruct (Ascii.eqb c "-").
  - destruct r; [discriminate|]. destruct (toint_loop _ _); [|discriminate]. destruct (_ <? _)%Z; [discriminate|].
    intros E. inversion E. apply wrap64_range.
  - destruct (toint_loop _ _); [|discriminate]. destruct (_ <? _)%Z; [discriminate|].
    intros E. inversion E. apply wrap64_range.
Qed.

Lemma FormatInt_short t v : ToInt t = Some v -> length (FormatInt v) <= length t.
Proof.
  intros H. pose proof (ToInt_range _ _ H) as R. destruct (FormatInt_spec v R) as [D L].
  destruct (Nat.le_gt_cases (length t) 19) as [X|X]; [|lia].
  apply ToInt_short in H; auto. destruct H as [T _]. eapply canonical_short; eauto.
Qed.

(** ** C48: the round trip *)

Lemma numbers_format v ms : int64 v -> int64 ms ->
  numbers (FormatInt v ++ (if (0 <? ms)%Z then [sp] ++ FormatInt ms else [])) v (Z.max 0 ms).
Proof.
  intros Hv Hm. destruct (FormatInt_facts v Hv) as (A1 & A2 & _), (FormatInt_facts ms Hm) as (B1 & _).
  destruct (Z.ltb_spec 0 ms).
  - rewrite Z.max_r by lia. apply num_both; auto.
  - rewrite Z.max_l by lia. rewrite app_nil_r. apply num_value; auto.
Qed.

Lemma served_reads name ls v ms : name <> [] -> ~ In sp name -> ~ In lbrace name ->
  Forall ok_label ls -> Forall (fun l : bytes * bytes => hd_error (fst l) <> Some rbrace) ls ->
  int64 v -> int64 ms -> reads (served_line name ls v ms) (Entry name ls v (Z.max 0 ms)).
Proof.
  intros N1 N2 N3 F Fh Hv Hm. pose proof (numbers_format v ms Hv Hm) as Hn.
  destruct (FormatInt_facts v Hv) as (_ & _ & _ & Nv).
  split.
  { unfold served_line. destruct ls as [|l r]; unfold identity; rewrite !app_length; simpl length;
      destruct name; try congruence; destruct (FormatInt v); try congruence; simpl; lia. }
  cbn [e_name e_labels e_value e_ms]. split; auto. split; auto.
  unfold served_line. destruct ls as [|l r].
  - exists [sp], (FormatInt v ++ (if (0 <? ms)%Z then [sp] ++ FormatInt ms else [])).
    split; [reflexivity|]. split; [constructor|auto].
  - exists ([lbrace] ++ join_labels (l :: r) ++ [rbrace; sp]), (FormatInt v ++ (if (0 <? ms)%Z then [sp] ++ FormatInt ms else [])).
    split; [unfold identity; rewrite <- !app_assoc; reflexivity|]. split; auto.
    apply part_some; [apply label_items_join; auto; congruence|].
    inversion Fh as [|l0 r0 Hh _]; subst. destruct l as [n w]. cbn [fst] in Hh.
    assert (Hhd : forall x, hd_error (label_item n w ++ x) <> Some rbrace).
    { intros x. unfold label_item. destruct n as [|c n]; [discriminate|]. exact Hh. }
    destruct r; cbn [join_labels]; [rewrite <- (app_nil_r (label_item n w))|]; apply Hhd.
Qed.

Lemma round_trip gs name ls v ms : sorts gs -> name <> [] -> ~ In sp name -> ~ In lbrace name ->
  Forall ok_label ls -> Forall (fun l : bytes * bytes => hd_error (fst l) <> Some rbrace) ls ->
  int64 v -> int64 ms ->
  exists m ls', ParseMetric (MetricToBytes gs name ls v ms) = MOk m /\
    Permutation ls ls' /\ in_order label_less ls' /\
    Name m = name /\ Labels m = ls' /\ m_value m = v /\ m_ms m = Z.max 0 ms.
Proof.
  intros Hs N1 N2 N3 F Fh Hv Hm. destruct (sort_labels_spec gs ls Hs) as [P O'].
  unfold MetricToBytes. rewrite metric_bytes_served.
  assert (R : reads (served_line name (sort_labels gs ls) v ms) (Entry name (sort_labels gs ls) v (Z.max 0 ms))).
  { apply served_reads; auto; eapply Permutation_Forall; eauto. }
  destruct (ParseMetric_complete _ _ R) as (m & E & _ & A1 & _ & A2 & A3 & A4 & _).
  exists m, (sort_labels gs ls). auto 10.
Qed.
