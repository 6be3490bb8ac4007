(** The monitor: what it serves after any history. *)
From Verif Require Import Base Convert NumSpec NumProofs Prom RulesSpec RulesProofs PromSpec PromParse PromProofs.
Local Open Scope nat_scope.

(** ** Identities *)

Lemma label_items_fun u ls ls' : label_items u ls -> label_items u ls' -> ls = ls'.
Proof.
  intros H H'.
  pose proof (labels_complete u ls H (S (length u)) [] [] [rbrace] 0 0 [] eq_refl eq_refl (Nat.lt_succ_diag_r _)) as X.
  pose proof (labels_complete u ls' H' (S (length u)) [] [] [rbrace] 0 0 [] eq_refl eq_refl (Nat.lt_succ_diag_r _)) as Y.
  cbv zeta in X, Y. destruct (X eq_refl) as (vs & E & M & _), (Y eq_refl) as (vs' & E' & M' & _).
  rewrite E in E'. cbn [app] in E'. inversion E'; subst vs'. congruence.
Qed.

Lemma identity_inj n ls n' ls' : ~ In lbrace n -> ~ In lbrace n' -> Forall ok_label ls -> Forall ok_label ls' ->
  identity n ls = identity n' ls' -> n = n' /\ ls = ls'.
Proof.
  unfold identity. intros N N' F F' E. cbn [app] in E. apply split_sep in E; auto. destruct E as [-> E]. split; auto.
  apply app_inj_tail in E. destruct E as [E _].
  destruct ls as [|l r], ls' as [|l' r']; auto.
  - assert (X : label_items (join_labels (l' :: r')) (l' :: r')) by (apply label_items_join; auto; congruence).
    apply label_items_nonempty in X. exfalso. apply X. symmetry. exact E.
  - assert (X : label_items (join_labels (l :: r)) (l :: r)) by (apply label_items_join; auto; congruence).
    apply label_items_nonempty in X. exfalso. apply X. exact E.
  - eapply label_items_fun; [apply label_items_join; eauto; congruence|]. rewrite E. apply label_items_join; auto; congruence.
Qed.

(** ** Lines of a message *)

Lemma split_nl_nonempty s : split_nl s <> [].
Proof. destruct s as [|c r]; cbn [split_nl]; [congruence|]. destruct (Ascii.eqb c nl); [congruence|]. destruct (split_nl r); congruence. Qed.

Lemma split_nl_app p r : ~ In nl p -> split_nl (p ++ nl :: r) = p :: split_nl r.
Proof.
  induction p as [|c p IH]; intros N; cbn [app split_nl].
  - rewrite Ascii.eqb_refl. reflexivity.
  - destruct (Ascii.eqb c nl) eqn:E; [apply Ascii.eqb_eq in E; subst; exfalso; apply N; left; auto|].
    rewrite IH by (intros X; apply N; right; auto). reflexivity.
Qed.

Lemma split_nl_none p : ~ In nl p -> split_nl p = [p].
Proof.
  induction p as [|c p IH]; intros N; cbn [split_nl]; auto.
  destruct (Ascii.eqb c nl) eqn:E; [apply Ascii.eqb_eq in E; subst; exfalso; apply N; left; auto|].
  rewrite IH by (intros X; apply N; right; auto). reflexivity.
Qed.

Lemma split_nl_unique : forall pieces, pieces <> [] -> Forall (fun l : bytes => ~ In nl l) pieces ->
  split_nl (concat (map (fun p => p ++ [nl]) (removelast pieces)) ++ last pieces []) = pieces.
Proof.
  induction pieces as [|p ps IH]; intros N F; [congruence|]. inversion F; subst.
  destruct ps as [|q ps].
  - cbn [removelast map concat last app]. apply split_nl_none; auto.
  - change (removelast (p :: q :: ps)) with (p :: removelast (q :: ps)).
    change (last (p :: q :: ps) []) with (last (q :: ps) (@nil ascii)).
    cbn [map concat]. rewrite <- !app_assoc. cbn [app]. rewrite split_nl_app by auto. f_equal.
    apply IH; auto. congruence.
Qed.

Lemma split_nl_pieces s :
  s = concat (map (fun p => p ++ [nl]) (removelast (split_nl s))) ++ last (split_nl s) [] /\
  Forall (fun l : bytes => ~ In nl l) (split_nl s).
Proof.
  induction s as [|c r IH]; cbn [split_nl].
  - split; [reflexivity|]. constructor; auto.
  - destruct IH as [E F]. pose proof (split_nl_nonempty r) as N. destruct (split_nl r) as [|p ps] eqn:Er; [congruence|].
    destruct (Ascii.eqb c nl) eqn:Ec.
    + apply Ascii.eqb_eq in Ec. subst c. split; [|constructor; auto].
      change (removelast ([] :: p :: ps)) with ([] :: removelast (p :: ps)).
      change (last ([] :: p :: ps) []) with (last (p :: ps) (@nil ascii)).
      cbn [map concat app]. rewrite E at 1. reflexivity.
    + apply Ascii.eqb_neq in Ec. split.
      * destruct ps as [|q ps].
        -- cbn [removelast map concat last app] in *. rewrite E at 1. reflexivity.
        -- change (removelast ((c :: p) :: q :: ps)) with ((c :: p) :: removelast (q :: ps)).
           change (last ((c :: p) :: q :: ps) []) with (last (q :: ps) (@nil ascii)).
           change (removelast (p :: q :: ps)) with (p :: removelast (q :: ps)) in E.
           change (last (p :: q :: ps) []) with (last (q :: ps) (@nil ascii)) in E.
           cbn [map concat] in *. rewrite E at 1. reflexivity.
      * inversion F; subst. constructor; auto. intros [X|X]; auto.
Qed.

Definition nonempty (l : bytes) : bool := match l with [] => false | _ => true end.

Lemma message_lines_iff data lines : message_lines data lines <-> lines = filter nonempty (split_nl data).
Proof.
  split.
  - intros (_ & pieces & E & N & F & ->). rewrite E, split_nl_unique by auto. reflexivity.
  - intros ->. destruct (split_nl_pieces data) as [E F]. split.
    + apply Forall_forall. intros x Hx. apply filter_In in Hx. rewrite Forall_forall in F. apply F. tauto.
    + exists (split_nl data). split; auto. split; [apply split_nl_nonempty|]. auto.
Qed.

(** ** Maps *)

Section Maps.
  Context {M : Type}.

  Lemma get_put_same k (m : M) set : map_get k (map_put k m set) = Some m.
  Proof.
    induction set as [|[k' m'] r IH]; cbn [map_put map_get]; [rewrite beqs_refl; auto|].
    destruct (beqs k' k) eqn:E; cbn [map_get]; [rewrite beqs_refl; auto|]. rewrite E. auto.
  Qed.

  Lemma get_put_other k k' (m : M) set : k <> k' -> map_get k' (map_put k m set) = map_get k' set.
  Proof.
    intros N. induction set as [|[k0 m0] r IH]; cbn [map_put map_get].
    - destruct (beqs k k') eqn:E; auto. apply beqs_eq in E. congruence.
    - destruct (beqs k0 k) eqn:E; cbn [map_get].
      + apply beqs_eq in E. subst. destruct (beqs k k') eqn:E'; auto. apply beqs_eq in E'. congruence.
      + destruct (beqs k0 k'); auto.
  Qed.

  Lemma get_In k (m : M) set : map_get k set = Some m -> In (k, m) set.
  Proof.
    induction set as [|[k' m'] r IH]; cbn [map_get]; [discriminate|].
    destruct (beqs k' k) eqn:E; [|right; auto]. apply beqs_eq in E. intros X; inversion X; subst. left; auto.
  Qed.

  Lemma get_None k (set : list (bytes * M)) : map_get k set = None <-> ~ In k (map fst set).
  Proof.
    induction set as [|[k' m'] r IH]; cbn [map_get map]; [simpl; tauto|].
    destruct (beqs k' k) eqn:E.
    - apply beqs_eq in E. subst. split; [discriminate|]. intros H. exfalso. apply H. left; auto.
    - apply beqs_neq in E. rewrite IH. simpl. tauto.
  Qed.

  Lemma In_get k (m : M) set : NoDup (map fst set) -> In (k, m) set -> map_get k set = Some m.
  Proof.
    induction set as [|[k' m'] r IH]; cbn [map_get map]; intros ND H; [destruct H|].
    inversion ND; subst. destruct H as [H|H].
    - inversion H; subst. rewrite beqs_refl. auto.
    - destruct (beqs k' k) eqn:E; auto. apply beqs_eq in E. subst. exfalso. apply H2. apply (in_map fst) in H. exact H.
  Qed.

  Lemma put_keys k (m : M) set k' : In k' (map fst (map_put k m set)) <-> k' = k \/ In k' (map fst set).
  Proof.
    induction set as [|[k0 m0] r IH]; cbn [map_put map].
    - simpl. intuition.
    - destruct (beqs k0 k) eqn:E; cbn [map].
      + apply beqs_eq in E. subst. simpl. intuition.
      + simpl. rewrite IH. intuition.
  Qed.

  Lemma put_NoDup k (m : M) set : NoDup (map fst set) -> NoDup (map fst (map_put k m set)).
  Proof.
    induction set as [|[k0 m0] r IH]; cbn [map_put map]; intros ND.
    - constructor; auto.
    - inversion ND; subst. destruct (beqs k0 k) eqn:E; cbn [map].
      + apply beqs_eq in E. subst. constructor; auto.
      + constructor; auto. rewrite put_keys. apply beqs_neq in E. intros [X|X]; auto.
  Qed.
End Maps.

Section Monitor.
  Variable gs : forall A : Type, (A -> A -> bool) -> list A -> list A.
  Hypothesis Hs : sorts gs.

  (** ** Sorting views *)

  Definition vless (line : bytes) (a b : view * view) : bool := bltb (slice line (fst a)) (slice line (fst b)).

  Lemma vless_weak line : strict_weak (vless line).
  Proof. exact (strict_weak_map (fun a : view * view => slice line (fst a)) bltb bltb_weak). Qed.

  Lemma sort_views_spec m : Permutation (m_labels m) (m_labels (sort_views gs m)) /\
    in_order (vless (m_line m)) (m_labels (sort_views gs m)).
  Proof. exact (Hs _ (vless (m_line m)) (m_labels m) (vless_weak _)). Qed.

  Lemma sort_views_labels m : NoDup (map fst (Labels m)) ->
    Permutation (Labels m) (Labels (sort_views gs m)) /\ increasing (Labels (sort_views gs m)).
  Proof.
    intros ND. destruct (sort_views_spec m) as [P O'].
    assert (PL : Permutation (Labels m) (Labels (sort_views gs m))) by (unfold Labels; apply Permutation_map; exact P).
    split; auto. intros i j a b L Ha Hb.
    unfold Labels in Ha, Hb. rewrite nth_error_map in Ha, Hb. cbn [sort_views m_line m_labels] in Ha, Hb.
    destruct (nth_error (gs _ _ _) i) as [va|] eqn:Ea; [|discriminate].
    destruct (nth_error (gs _ _ _) j) as [vb|] eqn:Eb; [|discriminate].
    inversion Ha; subst a. inversion Hb; subst b. cbn [label_text fst].
    refine (in_order_strict (vless (m_line m)) (fun l : view * view => slice (m_line m) (fst l))
      (m_labels (sort_views gs m)) (fun _ _ => eq_refl) _ O' i j va vb L Ea Eb).
    assert (E : map (fun l : view * view => slice (m_line m) (fst l)) (m_labels (sort_views gs m)) =
                map fst (Labels (sort_views gs m))).
    { unfold Labels. rewrite map_map. reflexivity. }
    rewrite E. eapply Permutation_NoDup; [apply Permutation_map; exact PL|auto].
  Qed.

  Lemma sort_views_id m : increasing (Labels m) -> sort_views gs m = m.
  Proof.
    intros H. destruct (sort_views_spec m) as [P O'].
    assert (E : m_labels (sort_views gs m) = m_labels m).
    { apply (sorted_unique (vless (m_line m))); auto.
      - intros a. apply bltb_irrefl.
      - intros i j a b L Ha Hb. unfold vless.
        apply (H i j (label_text (m_line m) a) (label_text (m_line m) b)); auto;
          unfold Labels; rewrite nth_error_map; [rewrite Ha|rewrite Hb]; reflexivity. }
    destruct m as [l n ls v ms]. unfold sort_views in *. cbn [m_line m_name m_labels m_value m_ms] in *. rewrite E. reflexivity.
  Qed.

  Lemma sort_views_name m : Name (sort_views gs m) = Name m.
  Proof. reflexivity. Qed.

  (** ** Updating *)

  Definition key (m : metric) : bytes := fst (metricKey gs m).

  Lemma key_identity m : key m = identity (Name m) (Labels (sort_views gs m)).
  Proof. unfold key, metricKey. cbn [fst]. rewrite labels_text_identity. reflexivity. Qed.

  Lemma metricKey_id m : increasing (Labels m) -> metricKey gs m = (identity (Name m) (Labels m), m).
  Proof. intros H. unfold metricKey. cbv zeta. rewrite sort_views_id by auto. rewrite labels_text_identity. reflexivity. Qed.

  Lemma fold_get_none k : forall ms set, (forall m, In m ms -> key m <> k) ->
    map_get k (fold_left (Update gs) ms set) = map_get k set.
  Proof.
    induction ms as [|m ms IH]; cbn [fold_left]; intros set H; auto.
    rewrite IH by (intros; apply H; right; auto). unfold Update. cbv zeta.
    apply get_put_other. apply (H m). left; auto.
  Qed.

  Lemma fold_get_last k a m b set : key m = k -> (forall m', In m' b -> key m' <> k) ->
    map_get k (fold_left (Update gs) (a ++ m :: b) set) = Some (sort_views gs m).
  Proof.
    intros Hk Hb. rewrite fold_left_app. cbn [fold_left]. rewrite fold_get_none by auto.
    unfold Update. cbv zeta. unfold key in Hk. rewrite Hk. apply get_put_same.
  Qed.

  Lemma fold_NoDup : forall ms set, NoDup (map fst set) -> NoDup (map fst (fold_left (Update gs) ms set)).
  Proof. induction ms as [|m ms IH]; cbn [fold_left]; intros set H; auto. apply IH. apply put_NoDup; auto. Qed.

  (** ** The invariant *)

  (** Entry e is filed under k. *)
  Definition ekey (e : entry) (k : bytes) : Prop :=
    exists ls', ordered_labels (e_labels e) ls' /\ k = identity (e_name e) ls'.

  Definition wf_entry (e : entry) : Prop :=
    ~ In lbrace (e_name e) /\ Forall ok_label (e_labels e) /\ NoDup (map fst (e_labels e)).

  Definition matches (m : metric) (e : entry) : Prop :=
    Name m = e_name e /\ Permutation (e_labels e) (Labels m) /\ m_value m = e_value e /\ m_ms m = e_ms e.

  Record Rel (set : mset) (es : list entry) : Prop := {
    rel_nodup : NoDup (map fst set);
    rel_get : forall k, match map_get k set with
      | Some m => increasing (Labels m) /\ k = identity (Name m) (Labels m) /\
          exists a e b, es = a ++ e :: b /\ matches m e /\ Forall (fun e' => ~ ekey e' k) b
      | None => Forall (fun e' => ~ ekey e' k) es
      end
  }.

  Lemma ekey_fun e k k' : ekey e k -> ekey e k' -> k = k'.
  Proof.
    intros (l1 & [P1 I1] & ->) (l2 & [P2 I2] & ->). f_equal. apply increasing_unique; auto.
    eapply Permutation_trans; [apply Permutation_sym; eauto|auto].
  Qed.

  Lemma parsed_ekey m e : matches m e -> NoDup (map fst (e_labels e)) ->
    ekey e (key m) /\ matches (sort_views gs m) e /\ increasing (Labels (sort_views gs m)).
  Proof.
    intros (H1 & H2 & H3 & H4) ND.
    assert (ND' : NoDup (map fst (Labels m))) by (eapply Permutation_NoDup; [apply Permutation_map; exact H2|auto]).
    destruct (sort_views_labels m ND') as [P Inc].
    split; [|split; auto].
    - exists (Labels (sort_views gs m)). split; [split; auto; eapply Permutation_trans; eauto|]. rewrite key_identity, H1. reflexivity.
    - split; auto. split; [eapply Permutation_trans; eauto|auto].
  Qed.

  (** Parsed metrics, filed one after the other. *)
  Lemma rel_fold_update : forall ms es0, Forall2 matches ms es0 -> Forall wf_entry es0 ->
    forall set es, Rel set es -> Rel (fold_left (Update gs) ms set) (es ++ es0).
  Proof.
    induction 1 as [|m e ms es0 Hm F IH]; intros W set es R; cbn [fold_left].
    - rewrite app_nil_r. exact R.
    - inversion W as [|e0 l0 (W1 & W2 & W3) Ws]; subst.
      change (e :: es0) with ([e] ++ es0). rewrite app_assoc. apply IH; auto.
      destruct (parsed_ekey m e Hm W3) as (Ek & Hm' & Inc). destruct R as [ND G].
      constructor; [apply put_NoDup; auto|].
      intros k. unfold Update. cbv zeta. fold (key m). change (snd (metricKey gs m)) with (sort_views gs m).
      destruct (beqs (key m) k) eqn:E.
      + apply beqs_eq in E. subst k. rewrite get_put_same. split; auto. split; [rewrite key_identity; reflexivity|].
        exists es, e, []. split; auto.
      + apply beqs_neq in E. rewrite get_put_other by auto. specialize (G k).
        assert (Ne : ~ ekey e k) by (intros X; apply E; eapply ekey_fun; eauto).
        destruct (map_get k set) as [m0|].
        * destruct G as (G1 & G2 & a & e0 & b & -> & G3 & G4). split; auto. split; auto.
          exists a, e0, (b ++ [e]). split; [rewrite <- app_assoc; reflexivity|]. split; auto.
          apply Forall_app. split; auto.
        * apply Forall_app. split; auto.
  Qed.

  Lemma rel_nil : Rel [] [].
  Proof. constructor; [constructor|]. intros k. cbn [map_get]. constructor. Qed.

  (** The sets of a message, merged in any order. *)
  Lemma rel_merge set es new news order : Rel set es -> Rel new news -> Permutation (map snd new) order ->
    Rel (fold_left (Update gs) order set) (es ++ news).
  Proof.
    intros [ND G] [ND' G'] P.
    assert (Own : forall k m, In (k, m) new -> metricKey gs m = (k, m)).
    { intros k m Hin. pose proof (In_get k m new ND' Hin) as Eg. specialize (G' k). rewrite Eg in G'.
      destruct G' as (Inc & -> & _). apply metricKey_id; auto. }
    constructor; [apply fold_NoDup; auto|].
    intros k. specialize (G' k). destruct (map_get k new) as [m|] eqn:Eg.
    - destruct G' as (Inc & Ek & a & e & b & -> & Hm & Fb).
      assert (Hin : In (k, m) new) by (apply get_In; auto).
      pose proof (Own _ _ Hin) as Hk.
      assert (Hio : In m order) by (eapply Permutation_in; [exact P|]; apply (in_map snd) in Hin; exact Hin).
      (* m is the only metric of the message with this key *)
      assert (Uniq : forall m', In m' order -> key m' = k -> m' = m).
      { intros m' H' Hk'. apply (Permutation_in _ (Permutation_sym P)) in H'. apply in_map_iff in H'.
        destruct H' as ([k2 m2] & E2 & Hin2). cbn [snd] in E2. subst m2.
        pose proof (Own _ _ Hin2) as Hk2. unfold key in Hk'. rewrite Hk2 in Hk'. cbn [fst] in Hk'. subst k2.
        pose proof (In_get k m' new ND' Hin2). congruence. }
      assert (NDo : NoDup order).
      { eapply Permutation_NoDup; [exact P|]. clear - ND' Own. induction new as [|[k0 m0] r IH]; cbn [map]; [constructor|].
        inversion ND'; subst. constructor.
        - intros X. apply in_map_iff in X. destruct X as ([k1 m1] & E1 & Hin1). cbn [snd] in E1. subst m1.
          pose proof (Own k0 m0 (or_introl eq_refl)) as A. pose proof (Own k1 m0 (or_intror Hin1)) as B.
          rewrite A in B. inversion B; subst k1. apply H1. apply (in_map fst) in Hin1. exact Hin1.
        - apply IH; auto. intros k m Hin. apply Own. right; auto. }
      apply in_split in Hio. destruct Hio as (o1 & o2 & ->).
      rewrite (fold_get_last k o1 m o2).
      + rewrite sort_views_id by auto. split; auto. split; auto.
        exists (es ++ a), e, b. split; [rewrite <- app_assoc; reflexivity|]. auto.
      + unfold key. rewrite Hk. reflexivity.
      + intros m' H' Hk'. assert (m' = m) by (apply Uniq; auto; apply in_app_iff; right; right; auto). subst m'.
        apply NoDup_remove_2 in NDo. apply NDo. apply in_app_iff. right; auto.
    - rewrite fold_get_none.
      + specialize (G k). destruct (map_get k set) as [m0|].
        * destruct G as (G1 & G2 & a & e0 & b & -> & G3 & G4). split; auto. split; auto.
          exists a, e0, (b ++ news). split; [rewrite <- app_assoc; reflexivity|]. split; auto.
          apply Forall_app. split; auto.
        * apply Forall_app. split; auto.
      + intros m' H' Hk'. apply (Permutation_in _ (Permutation_sym P)) in H'. apply in_map_iff in H'.
        destruct H' as ([k2 m2] & E2 & Hin2). cbn [snd] in E2. subst m2.
        pose proof (Own _ _ Hin2) as Hk2. unfold key in Hk'. rewrite Hk2 in Hk'. cbn [fst] in Hk'. subst k2.
        apply get_None in Eg. apply Eg. apply (in_map fst) in Hin2. exact Hin2.
  Qed.

  (** ** Messages *)

  Lemma parse_lines_spec : forall lines set,
    match parse_lines gs lines set with
    | PsOk set' => exists ms, Forall2 (fun l m => ParseMetric l = MOk m) (filter nonempty lines) ms /\
        set' = fold_left (Update gs) ms set
    | PsErr => exists l, In l (filter nonempty lines) /\ ParseMetric l = MErr
    | PsPanic => exists a l b, filter nonempty lines = a ++ l :: b /\ ParseMetric l = MPanic /\
        Forall (fun l => exists m, ParseMetric l = MOk m) a
    end.
  Proof.
    induction lines as [|l r IH]; intros set.
    - cbn. exists []. split; auto.
    - destruct l as [|c l]; [cbn [parse_lines filter nonempty]; apply IH|].
      cbn [parse_lines filter nonempty]. set (line := c :: l) in *.
      destruct (ParseMetric line) as [| |m] eqn:E.
      + exists line. split; auto. left; auto.
      + exists [], line, (filter nonempty r). split; auto.
      + specialize (IH (Update gs set m)). destruct (parse_lines gs r (Update gs set m)) as [| |set'].
        * destruct IH as (l' & H1 & H2). exists l'. split; auto. right; auto.
        * destruct IH as (a & l' & b & H1 & H2 & H3). exists (line :: a), l', b. rewrite H1. split; auto. split; auto.
          constructor; eauto.
        * destruct IH as (ms & F & ->). exists (m :: ms). split; auto.
  Qed.

  Lemma parsed_matches line m e : ParseMetric line = MOk m -> reads line e -> matches m e.
  Proof.
    intros E R. destruct (ParseMetric_complete _ _ R) as (m' & E' & _ & A1 & _ & A2 & A3 & A4 & _).
    assert (m' = m) by congruence. subst m'. split; auto. split; [rewrite A2; apply Permutation_refl|auto].
  Qed.

  Lemma ParseMetrics_ok data set : ParseMetrics gs data = PsOk set ->
    exists es, says data es /\ (Forall wf_entry es -> Rel set es) /\
      exists ms, Forall2 (fun l m => ParseMetric l = MOk m) (filter nonempty (split_nl data)) ms /\
        set = fold_left (Update gs) ms [] /\ Forall2 matches ms es.
  Proof.
    intros H. unfold ParseMetrics in H. pose proof (parse_lines_spec (split_nl data) []) as X. rewrite H in X.
    destruct X as (ms & F & ->).
    assert (Y : exists es, Forall2 reads (filter nonempty (split_nl data)) es /\ Forall2 matches ms es).
    { clear H. induction F as [|l m ls ms E F IH]; [exists []; auto|].
      destruct IH as (es & F1 & F2). destruct (ParseMetric_sound _ _ E) as (e & R). exists (e :: es).
      split; constructor; auto. eapply parsed_matches; eauto. }
    destruct Y as (es & F1 & F2). exists es. split; [exists (filter nonempty (split_nl data)); split; auto; apply message_lines_iff; auto|].
    split; [|exists ms; auto].
    intros W. change es with ([] ++ es). apply rel_fold_update; auto. apply rel_nil.
  Qed.

  Lemma reads_fun ls es es' : Forall2 reads ls es -> Forall2 reads ls es' -> es = es'.
  Proof.
    intros H. revert es'. induction H as [|l e ls es R F IH]; intros es' H'; inversion H'; subst; auto.
    f_equal; [eapply reads_unique; eauto|auto].
  Qed.

  Lemma says_fun data es es' : says data es -> says data es' -> es = es'.
  Proof.
    intros (l & M & F) (l' & M' & F'). apply message_lines_iff in M, M'. subst. eapply reads_fun; eauto.
  Qed.

  Lemma ParseMetrics_bad data : ParseMetrics gs data = PsErr -> forall es, ~ says data es.
  Proof.
    intros H es (ls & M & F). apply message_lines_iff in M. subst ls.
    pose proof (parse_lines_spec (split_nl data) []) as X. unfold ParseMetrics in H. rewrite H in X.
    destruct X as (l & Hin & E). clear H.
    induction F as [|l0 e0 ls es R F IH]; [destruct Hin|]. destruct Hin as [->|Hin]; auto.
    destruct (ParseMetric_complete _ _ R) as (m & E' & _). congruence.
  Qed.

  Lemma says_wf data es e : says data es -> In e es -> ~ In lbrace (e_name e) /\ Forall ok_label (e_labels e).
  Proof.
    intros (ls & _ & F) Hin. induction F as [|l0 e0 ls es R F IH]; [destruct Hin|]. destruct Hin as [->|Hin]; auto.
    split; [apply R|eapply reads_ok; eauto].
  Qed.
End Monitor.
