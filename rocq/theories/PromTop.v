(** What /metrics answers. *)
From Verif Require Import Base Convert NumSpec NumProofs Prom RulesSpec RulesProofs PromSpec PromParse PromProofs PromMonitor.
Local Open Scope nat_scope.

Section Top.
  Variable gs : forall A : Type, (A -> A -> bool) -> list A -> list A.
  Hypothesis Hs : sorts gs.

  (** ** Rendering the set *)

  Definition text_of (set : mset) (k : bytes) : bytes :=
    match map_get k set with None => [] | Some m => fst (ToBytes gs m) ++ [nl] end.

  Lemma render_text : forall keys set, NoDup keys ->
    fst (render_keys gs keys set) = concat (map (text_of set) keys).
  Proof.
    induction keys as [|k r IH]; intros set ND; [reflexivity|]. inversion ND as [|k0 r0 Nk NDr]; subst.
    cbn [render_keys map concat]. unfold text_of at 1. destruct (map_get k set) as [m|] eqn:E; [|apply IH; auto].
    destruct (ToBytes gs m) as [out m'] eqn:Eo. specialize (IH (map_put k m' set) NDr).
    destruct (render_keys gs r (map_put k m' set)) as [outs set']. cbn [fst] in *. rewrite IH.
    rewrite app_assoc. f_equal. f_equal. apply map_ext_in. intros k' Hk'. unfold text_of.
    rewrite get_put_other; auto. intros ->. auto.
  Qed.

  Lemma render_get : forall keys set k, NoDup keys ->
    map_get k (snd (render_keys gs keys set)) =
    if existsb (beqs k) keys then option_map (fun m => snd (ToBytes gs m)) (map_get k set) else map_get k set.
  Proof.
    induction keys as [|k0 r IH]; intros set k ND; [reflexivity|]. inversion ND as [|k1 r1 Nk NDr]; subst.
    cbn [render_keys existsb]. destruct (map_get k0 set) as [m|] eqn:E.
    - destruct (ToBytes gs m) as [out m'] eqn:Eo. specialize (IH (map_put k0 m' set) k NDr).
      destruct (render_keys gs r (map_put k0 m' set)) as [outs set']. cbn [snd] in *. rewrite IH.
      destruct (beqs k k0) eqn:B.
      + apply beqs_eq in B. subst k0. rewrite get_put_same, E. cbn [orb option_map].
        assert (X : existsb (beqs k) r = false).
        { apply not_true_iff_false. intros X. apply existsb_exists in X. destruct X as (x & Hx & Bx). apply beqs_eq in Bx. subst; auto. }
        rewrite X, Eo. reflexivity.
      + apply beqs_neq in B. rewrite get_put_other by auto. reflexivity.
    - rewrite IH by auto. destruct (beqs k k0) eqn:B; auto. apply beqs_eq in B. subst k0. rewrite E. cbn.
      destruct (existsb (beqs k) r); reflexivity.
  Qed.

  Lemma put_keys_same {M} k (m : M) set : map_get k set <> None -> map fst (map_put k m set) = map fst set.
  Proof.
    induction set as [|[k0 m0] r IH]; cbn [map_get map_put]; [congruence|].
    destruct (beqs k0 k) eqn:B; cbn [map fst].
    - apply beqs_eq in B. subst. auto.
    - intros H. f_equal. auto.
  Qed.

  Lemma render_keys_same : forall keys set, map fst (snd (render_keys gs keys set)) = map fst set.
  Proof.
    induction keys as [|k0 r IH]; intros set; [reflexivity|].
    cbn [render_keys]. destruct (map_get k0 set) as [m|] eqn:E; auto.
    destruct (ToBytes gs m) as [out m'] eqn:Eo. specialize (IH (map_put k0 m' set)).
    destruct (render_keys gs r (map_put k0 m' set)) as [outs set']. cbn [snd] in *. rewrite IH.
    apply put_keys_same. congruence.
  Qed.

  Definition keys_of (set : mset) : list bytes := gs bytes bltb (map fst set).

  Lemma keys_perm set : Permutation (map fst set) (keys_of set).
  Proof. apply (Hs _ bltb (map fst set) bltb_weak). Qed.

  Lemma keys_nodup set : NoDup (map fst set) -> NoDup (keys_of set).
  Proof. intros H. eapply Permutation_NoDup; [apply keys_perm|auto]. Qed.

  Lemma keys_ascending set : NoDup (map fst set) -> forall i j a b, i < j ->
    nth_error (keys_of set) i = Some a -> nth_error (keys_of set) j = Some b -> bltb a b = true.
  Proof.
    intros ND. apply (in_order_strict bltb (fun x : bytes => x)); auto.
    - rewrite map_id. apply keys_nodup; auto.
    - apply (Hs _ bltb (map fst set) bltb_weak).
  Qed.

  Lemma ToBytes_text m : increasing (Labels m) ->
    fst (ToBytes gs m) = served_line (Name m) (Labels m) (m_value m) (m_ms m).
  Proof. intros H. unfold ToBytes. rewrite sort_views_id by auto. cbn [fst]. apply metric_bytes_served. Qed.

  (** ** One answer *)

  Definition entry_of (m : metric) : entry := Entry (Name m) (Labels m) (m_value m) (m_ms m).

  Lemma last_unique (P : entry -> Prop) a e b a' e' b' : a ++ e :: b = a' ++ e' :: b' ->
    P e -> P e' -> Forall (fun x => ~ P x) b -> Forall (fun x => ~ P x) b' -> e = e' /\ b = b'.
  Proof.
    intros E He He' Fb Fb'.
    assert (L : length b = length b').
    { destruct (Nat.lt_trichotomy (length b) (length b')) as [X|[X|X]]; auto; exfalso.
      - assert (Y : In e b').
        { assert (N : nth_error (a' ++ e' :: b') (length a) = Some e).
          { rewrite <- E, nth_error_app2, Nat.sub_diag by lia. reflexivity. }
          assert (La : length a + S (length b) = length a' + S (length b')).
          { apply f_equal with (f := @length entry) in E. rewrite !app_length in E. exact E. }
          rewrite nth_error_app2 in N by lia. replace (length a - length a') with (S (length a - length a' - 1)) in N by lia.
          cbn [nth_error] in N. eapply nth_error_In; eauto. }
        rewrite Forall_forall in Fb'. apply (Fb' e); auto.
      - assert (Y : In e' b).
        { assert (N : nth_error (a ++ e :: b) (length a') = Some e').
          { rewrite E, nth_error_app2, Nat.sub_diag by lia. reflexivity. }
          assert (La : length a + S (length b) = length a' + S (length b')).
          { apply f_equal with (f := @length entry) in E. rewrite !app_length in E. exact E. }
          rewrite nth_error_app2 in N by lia. replace (length a' - length a) with (S (length a' - length a - 1)) in N by lia.
          cbn [nth_error] in N. eapply nth_error_In; eauto. }
        rewrite Forall_forall in Fb. apply (Fb e'); auto. }
    apply app_inj_len in E; [|apply f_equal with (f := @length entry) in E; rewrite !app_length in E; simpl in E; lia].
    destruct E as [_ E]. inversion E; auto.
  Qed.

  Lemma answer_right set es : Rel set es -> Forall wf_entry es -> right_answer es (fst (SetToBytes gs set)).
  Proof.
    intros [ND G] W. unfold SetToBytes. fold (keys_of set). rewrite render_text by (apply keys_nodup; auto).
    set (served := flat_map (fun k => match map_get k set with None => [] | Some m => [entry_of m] end) (keys_of set)).
    assert (Hget : forall k, In k (keys_of set) -> exists m, map_get k set = Some m).
    { intros k Hk. destruct (map_get k set) as [m|] eqn:E; eauto. exfalso. apply get_None in E. apply E.
      eapply Permutation_in; [apply Permutation_sym, keys_perm|auto]. }
    assert (Hserved : served = map (fun k => match map_get k set with None => Entry [] [] 0 0 | Some m => entry_of m end) (keys_of set)).
    { unfold served. clear - Hget. induction (keys_of set) as [|k r IH]; [reflexivity|]. cbn [flat_map map].
      destruct (Hget k (or_introl eq_refl)) as (m & ->). cbn [app]. f_equal. apply IH. intros; apply Hget; right; auto. }
    exists served. split; [|split; [|split]].
    - rewrite Hserved, map_map. f_equal. apply map_ext_in. intros k Hk. unfold text_of.
      destruct (Hget k Hk) as (m & E). specialize (G k). rewrite E in *. destruct G as (Inc & _ & _).
      rewrite ToBytes_text by auto. reflexivity.
    - intros i j a b L Ha Hb. rewrite Hserved, nth_error_map in Ha, Hb.
      destruct (nth_error (keys_of set) i) as [ka|] eqn:Ea; [|discriminate].
      destruct (nth_error (keys_of set) j) as [kb|] eqn:Eb; [|discriminate]. cbn [option_map] in Ha, Hb.
      destruct (Hget ka (nth_error_In _ _ Ea)) as (ma & Ema). destruct (Hget kb (nth_error_In _ _ Eb)) as (mb & Emb).
      rewrite Ema in Ha. rewrite Emb in Hb. inversion Ha; subst a. inversion Hb; subst b.
      pose proof (G ka) as Ga. pose proof (G kb) as Gb. rewrite Ema in Ga. rewrite Emb in Gb.
      destruct Ga as (_ & Ka & _), Gb as (_ & Kb & _). cbn [entry_of e_name e_labels]. rewrite <- Ka, <- Kb.
      eapply keys_ascending; eauto.
    - apply Forall_forall. intros e He. rewrite Hserved in He. apply in_map_iff in He. destruct He as (k & E & Hk).
      destruct (Hget k Hk) as (m & Em). rewrite Em in E. subst e. specialize (G k). rewrite Em in G. apply G.
    - intros name ls v ms Inc. split.
      + intros He. rewrite Hserved in He. apply in_map_iff in He. destruct He as (k & E & Hk).
        destruct (Hget k Hk) as (m & Em). rewrite Em in E. unfold entry_of in E. inversion E; subst name ls v ms.
        specialize (G k). rewrite Em in G. destruct G as (_ & Ek & a & e & b & -> & (M1 & M2 & M3 & M4) & Fb).
        exists a, e, b. split; auto. split; auto. split; auto. split; auto. split; auto.
        eapply Forall_impl; [|exact Fb]. cbn beta. intros e' Ne [N1 N2]. apply Ne.
        exists (Labels m). split; [split; auto|]. rewrite N1. exact Ek.
      + intros (a & e & b & Ees & E1 & E2 & E3 & E4 & Fb). set (k := identity name ls).
        assert (Wf : forall x, In x es -> wf_entry x) by (apply Forall_forall; auto).
        assert (We : wf_entry e) by (apply Wf; rewrite Ees; apply in_app_iff; right; left; auto).
        assert (Ke : ekey e k) by (exists ls; split; [split; auto|]; unfold k; rewrite E1; reflexivity).
        pose proof (G k) as Gk. destruct (map_get k set) as [m|] eqn:Em.
        2:{ exfalso. rewrite Forall_forall in Gk. apply (Gk e); auto. rewrite Ees. apply in_app_iff. right; left; auto. }
        destruct Gk as (IncM & Ek & a' & e' & b' & Ees' & (M1 & M2 & M3 & M4) & Fb').
        assert (We' : wf_entry e') by (apply Wf; rewrite Ees'; apply in_app_iff; right; left; auto).
        assert (Wl : Forall ok_label ls) by (eapply Permutation_Forall; [exact E2|apply We]).
        assert (Wm : Forall ok_label (Labels m)) by (eapply Permutation_Forall; [exact M2|apply We']).
        assert (Nn : ~ In lbrace name) by (rewrite <- E1; apply We).
        assert (Nm : ~ In lbrace (Name m)) by (rewrite M1; apply We').
        destruct (identity_inj _ _ _ _ Nn Nm Wl Wm Ek) as [En El].
        assert (X : e = e' /\ b = b').
        { apply (last_unique (fun x => ekey x k) a e b a' e' b'); auto; try congruence.
          - exists (Labels m). split; [split; auto|]. rewrite <- M1. exact Ek.
          - apply Forall_forall. intros x Hx (ls' & [P' I'] & Ex). rewrite Forall_forall in Fb. apply (Fb x Hx).
            assert (Wx : wf_entry x) by (apply Wf; rewrite Ees; apply in_app_iff; right; right; auto).
            destruct Wx as (W1 & W2 & _).
            destruct (identity_inj _ _ _ _ Nn W1 Wl (Permutation_Forall P' W2) Ex) as [-> ->]. auto. }
        destruct X as [<- _].
        assert (Ent : Entry name ls v ms = entry_of m).
        { unfold entry_of. rewrite <- En, <- El, M3, M4, E3, E4. reflexivity. }
        rewrite Ent. unfold served. apply in_flat_map. exists k. split.
        * eapply Permutation_in; [apply keys_perm|]. apply get_In in Em. apply (in_map fst) in Em. exact Em.
        * rewrite Em. left; auto.
  Qed.

  (** ** Metrics whose line already had its labels in order are not damaged by rendering *)

  Definition lab_part (ls : list (bytes * bytes)) : bytes := match ls with [] => [] | _ => labels_text ls end.

  Record stable (m : metric) : Prop := {
    st_inc : increasing (Labels m);
    st_pre : exists w, m_line m = Name m ++ lab_part (Labels m) ++ w;
    st_views : views_in m (length (Name m ++ lab_part (Labels m)))
  }.

  Lemma slice_prefix (p w w' : bytes) v : vend v <= length p -> slice (p ++ w) v = slice (p ++ w') v.
  Proof.
    unfold vend, slice. intros H. destruct v as [o n]. cbn [fst snd] in *.
    rewrite !skipn_app, !firstn_app, !skipn_length. f_equal.
    replace (n - (length p - o)) with 0 by lia. reflexivity.
  Qed.

  Lemma stable_render m : stable m ->
    stable (snd (ToBytes gs m)) /\ entry_of (snd (ToBytes gs m)) = entry_of m.
  Proof.
    intros [Inc (w & El) (Vn & Vl)]. unfold ToBytes. rewrite sort_views_id by auto. cbn [snd].
    set (out := metric_bytes (Name m) (Labels m) (m_value m) (m_ms m)).
    assert (Eo : exists w0, out = Name m ++ lab_part (Labels m) ++ w0).
    { eexists. unfold out, metric_bytes. reflexivity. }
    destruct Eo as (w0 & Eo).
    set (line' := if Nat.leb (length out) (length (m_line m)) then out ++ skipn (length out) (m_line m) else m_line m).
    assert (E' : exists w1, line' = (Name m ++ lab_part (Labels m)) ++ w1).
    { unfold line'. destruct (Nat.leb _ _).
      - exists (w0 ++ skipn (length out) (m_line m)). rewrite Eo at 1. rewrite <- !app_assoc. reflexivity.
      - exists w. rewrite <- app_assoc. exact El. }
    destruct E' as (w1 & E').
    set (p := Name m ++ lab_part (Labels m)) in *.
    assert (El' : m_line m = p ++ w) by (unfold p; rewrite <- app_assoc; exact El).
    set (m' := Metric line' (m_name m) (m_labels m) (m_value m) (m_ms m)).
    assert (HL : Labels m' = Labels m).
    { unfold Labels. cbn [m' m_line m_labels]. apply map_ext_in. intros l Hl. rewrite Forall_forall in Vl. specialize (Vl l Hl).
      unfold label_text. rewrite E', El'. f_equal; apply slice_prefix; apply Vl. }
    assert (HN : Name m' = Name m).
    { unfold Name. cbn [m' m_line m_name]. rewrite E', El'. rewrite !firstn_app.
      replace (m_name m - length p) with 0 by lia. reflexivity. }
    change (stable m' /\ entry_of m' = entry_of m). split.
    - constructor.
      + rewrite HL. exact Inc.
      + exists w1. rewrite HN, HL. unfold p in E'. rewrite <- app_assoc in E'. exact E'.
      + rewrite HN, HL. fold p. split; auto.
    - unfold entry_of. rewrite HN, HL. reflexivity.
  Qed.

  Definition all_stable (set : mset) : Prop := forall k m, map_get k set = Some m -> stable m.

  Lemma rel_render set es : Rel set es -> all_stable set ->
    Rel (snd (SetToBytes gs set)) es /\ all_stable (snd (SetToBytes gs set)).
  Proof.
    intros [ND G] St. unfold SetToBytes. fold (keys_of set).
    assert (HG : forall k, map_get k (snd (render_keys gs (keys_of set) set)) =
       option_map (fun m => snd (ToBytes gs m)) (map_get k set)).
    { intros k. rewrite render_get by (apply keys_nodup; auto).
      destruct (existsb (beqs k) (keys_of set)) eqn:E; auto.
      destruct (map_get k set) as [m|] eqn:Em; auto. exfalso. apply not_true_iff_false in E. apply E.
      apply existsb_exists. exists k. split; [|apply beqs_refl]. eapply Permutation_in; [apply keys_perm|].
      apply get_In in Em. apply (in_map fst) in Em. exact Em. }
    split.
    - constructor; [rewrite render_keys_same; auto|].
      intros k. rewrite HG. pose proof (G k) as Gk. destruct (map_get k set) as [m|] eqn:Em; auto. cbn [option_map].
      destruct (stable_render m (St k m Em)) as [Sm E]. 
      pose proof (f_equal e_name E) as E1. pose proof (f_equal e_labels E) as E2.
      pose proof (f_equal e_value E) as E3. pose proof (f_equal e_ms E) as E4.
      unfold entry_of in E1, E2, E3, E4. cbn [e_name e_labels e_value e_ms] in E1, E2, E3, E4. clear E.
      rewrite E1, E2. destruct Gk as (G1 & G2 & a & e & b & G3 & (M1 & M2 & M3 & M4) & G5). split; auto. split; auto.
      exists a, e, b. split; auto. split; auto. split; [congruence|]. split; [rewrite E2; auto|]. split; congruence.
    - intros k m. rewrite HG. destruct (map_get k set) as [m0|] eqn:Em; [|discriminate]. intros E. inversion E; subst m.
      apply stable_render. eauto.
  Qed.

  Lemma parsed_stable line m e : ParseMetric line = MOk m -> reads line e -> increasing (e_labels e) -> stable m.
  Proof.
    intros E R Inc. destruct (ParseMetric_complete _ _ R) as (m' & E' & A0 & A1 & A1' & A2 & _ & _ & A5 & A6).
    assert (m' = m) by congruence. subst m'.
    assert (EL : lab_part (Labels m) = match e_labels e with [] => [] | _ => labels_text (e_labels e) end).
    { rewrite A2. destruct (e_labels e); reflexivity. }
    constructor.
    - rewrite A2. exact Inc.
    - rewrite A0, A1, EL. destruct (e_labels e) as [|l r] eqn:El.
      + destruct R as (_ & _ & _ & lp & num & -> & _). exists (lp ++ num). reflexivity.
      + apply A6. congruence.
    - rewrite A1, EL, app_length. destruct (e_labels e); exact A5.
  Qed.

  Lemma fold_stable : forall ms set, all_stable set -> Forall stable ms -> all_stable (fold_left (Update gs) ms set).
  Proof.
    induction ms as [|m ms IH]; intros set H F; cbn [fold_left]; auto. inversion F as [|m0 ms0 Sm Fm]; subst.
    apply IH; auto. intros k m' Hk. unfold Update in Hk. cbv zeta in Hk.
    rewrite metricKey_id in Hk by (auto; apply Sm). cbn [fst snd] in Hk.
    destruct (beqs (identity (Name m) (Labels m)) k) eqn:B.
    - apply beqs_eq in B. subst k. rewrite get_put_same in Hk. inversion Hk; subst. auto.
    - apply beqs_neq in B. rewrite get_put_other in Hk by auto. eauto.
  Qed.

  (** ** Histories *)

  Definition orders_ok (evs : list mevent) : Prop :=
    forall data order, In (EMsg data order) evs -> forall l, Permutation l (order l).

  Definition gets (evs : list mevent) : nat :=
    length (filter (fun e => match e with EGet => true | _ => false end) evs).

  Lemma mon_run_app : forall a b set, mon_run gs set (a ++ b) =
    match mon_run gs set a with
    | None => None
    | Some (s, o) => match mon_run gs s b with None => None | Some (s', o') => Some (s', o ++ o') end
    end.
  Proof.
    induction a as [|e a IH]; intros b set; cbn [app mon_run].
    - destruct (mon_run gs set b) as [[s o]|]; reflexivity.
    - destruct (mon_step gs set e) as [[s1 o1]|]; auto. rewrite IH.
      destruct (mon_run gs s1 a) as [[s o]|]; auto. destruct (mon_run gs s b) as [[s' o']|]; auto.
      destruct o1; reflexivity.
  Qed.

  Lemma gets_app a b : gets (a ++ b) = gets a + gets b.
  Proof. unfold gets. rewrite filter_app, app_length. reflexivity. Qed.

  (** The sets that valid messages produce. *)
  Lemma valid_message data set es new order : Rel set es -> ParseMetrics gs data = PsOk new ->
    (forall news, says data news -> Forall wf_entry news) -> (forall l, Permutation l (order l)) ->
    exists news, says data news /\ Rel (fold_left (Update gs) (order (map snd new)) set) (es ++ news) /\
      (all_stable set -> Forall (fun e => increasing (e_labels e)) news ->
       all_stable (fold_left (Update gs) (order (map snd new)) set)).
  Proof.
    intros R E W P. destruct (ParseMetrics_ok gs Hs _ _ E) as (news & Sy & Rn & ms & F1 & En & F2).
    specialize (Rn (W _ Sy)). exists news. split; auto. split; [eapply rel_merge; eauto|].
    intros St Inc. apply fold_stable; auto.
    assert (Sn : all_stable new).
    { rewrite En. apply fold_stable; [intros k m; discriminate|].
      destruct Sy as (lines & M & Fr). apply message_lines_iff in M. subst lines.
      clear - F1 Fr Inc. revert news Fr Inc. induction F1 as [|l m ls ms H F IH]; intros news Fr Inc; constructor.
      - inversion Fr; subst. inversion Inc; subst. eapply parsed_stable; eauto.
      - inversion Fr; subst. inversion Inc; subst. eapply IH; eauto. }
    eapply Permutation_Forall; [apply P|]. apply Forall_forall. intros m Hm. apply in_map_iff in Hm.
    destruct Hm as ([k m0] & <- & Hin). cbn [snd]. apply (Sn k). apply In_get; auto. apply Rn.
  Qed.

  Lemma accepted_wf evs es : accepted evs es -> Forall (fun e => ~ In lbrace (e_name e) /\ Forall ok_label (e_labels e)) es.
  Proof.
    induction 1 as [|evs es A IH|evs es data order new A IH Sy|evs es data order A IH N]; auto.
    apply Forall_app. split; auto. apply Forall_forall. intros e He. eapply says_wf; eauto.
  Qed.

  Lemma snoc_cases {A} (a b : list A) x y : a ++ [x] = b ++ [y] -> a = b /\ x = y.
  Proof. apply app_inj_tail. Qed.

  Lemma history_rel evs es : accepted evs es -> forall set outs, orders_ok evs ->
    mon_run gs [] evs = Some (set, outs) ->
    Forall wf_entry es ->
    (gets evs = 0 \/ Forall (fun e => increasing (e_labels e)) es) ->
    Rel set es /\ (Forall (fun e => increasing (e_labels e)) es -> all_stable set).
  Proof.
    induction 1 as [|evs es A IH|evs es data order new A IH Sy|evs es data order A IH N]; intros set outs O' R W C.
    - cbn in R. inversion R; subst. split; [apply rel_nil|]. intros _ k m. discriminate.
    - rewrite mon_run_app in R. destruct (mon_run gs [] evs) as [[s o]|] eqn:E; [|discriminate].
      cbn [mon_run mon_step] in R. destruct (SetToBytes gs s) as [b s'] eqn:Es. inversion R; subst s' outs.
      rewrite gets_app in C. cbn [gets filter length] in C. destruct C as [C|C]; [unfold gets in C; simpl in C; lia|].
      destruct (IH s o) as [Rl St]; auto. { intros d ord Hin. apply (O' d). apply in_app_iff; auto. }
      specialize (St C). destruct (rel_render s es Rl St) as [R1 R2]. rewrite Es in R1, R2. cbn [snd] in *. auto.
    - rewrite mon_run_app in R. destruct (mon_run gs [] evs) as [[s o]|] eqn:E; [|discriminate].
      apply Forall_app in W. destruct W as [W1 W2].
      destruct (IH s o) as [Rl St]; auto.
      { intros d ord Hin. apply (O' d). apply in_app_iff; auto. }
      { destruct C as [C|C]; [left; rewrite gets_app in C; lia|right; apply Forall_app in C; apply C]. }
      cbn [mon_run mon_step] in R. destruct (ParseMetrics gs data) as [| |new'] eqn:Ep.
      + exfalso. eapply ParseMetrics_bad; eauto.
      + discriminate.
      + inversion R; subst set.
        destruct (valid_message data s es new' order Rl Ep) as (news & Sy' & R1 & R2).
        { intros news Sy'. rewrite (says_fun _ _ _ Sy' Sy). auto. }
        { apply (O' data). apply in_app_iff. right; left; auto. }
        rewrite (says_fun _ _ _ Sy' Sy) in *. split; auto. intros Inc. apply Forall_app in Inc. apply R2; [apply St|]; apply Inc.
    - rewrite mon_run_app in R. destruct (mon_run gs [] evs) as [[s o]|] eqn:E; [|discriminate].
      destruct (IH s o) as [Rl St]; auto.
      { intros d ord Hin. apply (O' d). apply in_app_iff; auto. }
      { destruct C as [C|C]; [left; rewrite gets_app in C; lia|auto]. }
      cbn [mon_run mon_step] in R. destruct (ParseMetrics gs data) as [| |new'] eqn:Ep.
      + inversion R; subst. auto.
      + discriminate.
      + exfalso. destruct (ParseMetrics_ok gs Hs _ _ Ep) as (es' & Sy & _). apply (N es'). auto.
  Qed.

  Lemma get_answer evs es set outs answer : accepted evs es -> orders_ok evs ->
    mon_run gs [] (evs ++ [EGet]) = Some (set, outs ++ [answer]) ->
    Forall wf_entry es -> (gets evs = 0 \/ Forall (fun e => increasing (e_labels e)) es) ->
    right_answer es answer.
  Proof.
    intros A O' R W C. rewrite mon_run_app in R.
    destruct (mon_run gs [] evs) as [[s o]|] eqn:E; [|discriminate].
    cbn [mon_run mon_step] in R. destruct (SetToBytes gs s) as [b s'] eqn:Es. inversion R as [[R1 R2]].
    apply app_inj_tail in R2. destruct R2 as [_ <-].
    destruct (history_rel evs es A s o O' E W C) as [Rl _].
    pose proof (answer_right s es Rl W) as X. rewrite Es in X. exact X.
  Qed.

  Lemma sorted_answers evs es set outs answer : accepted evs es -> orders_ok evs ->
    mon_run gs [] (evs ++ [EGet]) = Some (set, outs ++ [answer]) ->
    Forall (fun e => increasing (e_labels e)) es -> right_answer es answer.
  Proof.
    intros A O' R Inc. eapply get_answer; eauto. pose proof (accepted_wf _ _ A) as W.
    rewrite Forall_forall in *. intros e He. destruct (W e He). split; auto. split; auto.
    apply increasing_nodup. auto.
  Qed.

  Lemma first_answer evs es set outs answer : accepted evs es -> orders_ok evs ->
    mon_run gs [] (evs ++ [EGet]) = Some (set, outs ++ [answer]) ->
    gets evs = 0 -> Forall (fun e => NoDup (map fst (e_labels e))) es -> right_answer es answer.
  Proof.
    intros A O' R G ND. eapply get_answer; eauto. pose proof (accepted_wf _ _ A) as W.
    rewrite Forall_forall in *. intros e He. destruct (W e He). split; auto.
  Qed.

  (** Every history that does not crash is accepted, in exactly one way. *)
  Lemma accepted_total : forall evs set outs, mon_run gs [] evs = Some (set, outs) -> exists es, accepted evs es.
  Proof.
    intros evs. induction evs as [|e evs IH] using rev_ind; intros set outs R; [exists []; constructor|].
    rewrite mon_run_app in R. destruct (mon_run gs [] evs) as [[s o]|] eqn:E; [|discriminate].
    destruct (IH s o eq_refl) as (es & A). destruct e as [data order|]; [|exists es; constructor; auto].
    cbn [mon_run mon_step] in R. destruct (ParseMetrics gs data) as [| |new'] eqn:Ep; [| discriminate |].
    - exists es. apply acc_invalid; auto. apply (ParseMetrics_bad gs). auto.
    - destruct (ParseMetrics_ok gs Hs _ _ Ep) as (es' & Sy & _). exists (es ++ es'). apply acc_valid; auto.
  Qed.

  Lemma accepted_unique evs es es' : accepted evs es -> accepted evs es' -> es = es'.
  Proof.
    intros A. revert es'. induction A as [|evs es A IH|evs es data order new A IH Sy|evs es data order A IH N]; intros es' A'.
    - inversion A'; auto; exfalso; eapply app_cons_not_nil; eauto.
    - inversion A' as [X|evs2 es2 A2 X|evs2 es2 d2 o2 n2 A2 Sy2 X|evs2 es2 d2 o2 A2 N2 X].
      + exfalso; eapply app_cons_not_nil; eauto.
      + apply app_inj_tail in X. destruct X as [-> _]. auto.
      + apply app_inj_tail in X. destruct X; discriminate.
      + apply app_inj_tail in X. destruct X; discriminate.
    - inversion A' as [X|evs2 es2 A2 X|evs2 es2 d2 o2 n2 A2 Sy2 X|evs2 es2 d2 o2 A2 N2 X].
      + exfalso; eapply app_cons_not_nil; eauto.
      + apply app_inj_tail in X. destruct X; discriminate.
      + apply app_inj_tail in X. destruct X as [-> X]. inversion X; subst. f_equal; auto. eapply says_fun; eauto.
      + apply app_inj_tail in X. destruct X as [-> X]. inversion X; subst. exfalso. eapply N2; eauto.
    - inversion A' as [X|evs2 es2 A2 X|evs2 es2 d2 o2 n2 A2 Sy2 X|evs2 es2 d2 o2 A2 N2 X].
      + exfalso; eapply app_cons_not_nil; eauto.
      + apply app_inj_tail in X. destruct X; discriminate.
      + apply app_inj_tail in X. destruct X as [-> X]. inversion X; subst. exfalso. eapply N; eauto.
      + apply app_inj_tail in X. destruct X as [-> X]. inversion X; subst. auto.
  Qed.

  (** The rendered text never outgrows the line (so the buffer is never reallocated). *)
  Lemma join_len_perm ls ls' : Permutation ls ls' -> length (labels_text ls) = length (labels_text ls').
  Proof.
    intros P. unfold labels_text. rewrite !labels_loop_join, !app_length. f_equal. f_equal.
    assert (E : forall l, l <> [] -> length (join_labels l) = list_sum (map (fun x : bytes * bytes => length (fst x) + length (snd x) + 4) l) - 1).
    { clear. induction l as [|[n v] r IH]; intros N; [congruence|]. destruct r as [|l r].
      - cbn [join_labels map list_sum fold_right fst snd]. rewrite label_item_len. lia.
      - change (join_labels ((n, v) :: l :: r)) with (label_item n v ++ [comma] ++ join_labels (l :: r)).
        rewrite !app_length, label_item_len, IH by congruence. cbn [map list_sum fold_right fst snd length]. lia. }
    destruct ls as [|l r].
    - apply Permutation_nil in P. subst. reflexivity.
    - destruct ls' as [|l' r']; [apply Permutation_sym, Permutation_nil in P; discriminate|].
      rewrite !E by congruence. f_equal.
      assert (PM : forall a b : list nat, Permutation a b -> list_sum a = list_sum b).
      { induction 1; cbn [list_sum fold_right] in *; try unfold list_sum in *; lia. }
      apply PM. apply Permutation_map. exact P.
  Qed.

  Lemma numbers_len num v ms : numbers num v ms ->
    length (FormatInt v ++ (if (0 <? ms)%Z then [sp] ++ FormatInt ms else [])) <= length num.
  Proof.
    destruct 1 as [t v N T|t v t' ms N T T'].
    - pose proof (FormatInt_short _ _ T). rewrite app_length. simpl. lia.
    - pose proof (FormatInt_short _ _ T). pose proof (FormatInt_short _ _ T').
      rewrite !app_length. destruct (0 <? ms)%Z; rewrite ?app_length; simpl; lia.
  Qed.

  Lemma render_fits line m : ParseMetric line = MOk m -> length (fst (ToBytes gs m)) <= length line.
  Proof.
    intros E. destruct (ParseMetric_sound _ _ E) as (e & R).
    destruct (ParseMetric_complete _ _ R) as (m' & E' & A0 & A1 & A1' & A2 & A3 & A4 & _).
    assert (m' = m) by congruence. subst m'.
    destruct (sort_views_spec gs Hs m) as [P _].
    assert (PL : Permutation (Labels m) (Labels (sort_views gs m))) by (unfold Labels; apply Permutation_map; exact P).
    unfold ToBytes. cbn [fst]. rewrite sort_views_name, A1. cbn [sort_views m_value m_ms]. rewrite A3, A4.
    destruct R as (_ & _ & _ & lp & num & El & Hlp & Hn).
    assert (Ln : length (FormatInt (e_value e) ++ (if (0 <? e_ms e)%Z then [sp] ++ FormatInt (e_ms e) else [])) <= length num).
    { apply numbers_len. exact Hn. }
    unfold metric_bytes. rewrite El, !app_length. rewrite app_length in Ln. simpl length.
    assert (Ll : match Labels (sort_views gs m) with [] => 0 | _ => length (labels_text (Labels (sort_views gs m))) end + 1 <= length lp).
    { rewrite A2 in PL. inversion Hlp as [x X1 X2|u ls x Hu Hh X1 X2|X1 X2].
      - rewrite <- X2 in PL. apply Permutation_nil in PL. cbn [Labels sort_views] in PL. rewrite PL. simpl. lia.
      - destruct (label_items_ok _ _ Hu) as (Eu & _ & Nl).
        destruct (Labels (sort_views gs m)) as [|l0 r0] eqn:ELs.
        { apply Permutation_sym, Permutation_nil in PL. congruence. }
        rewrite <- (join_len_perm _ _ PL). subst ls. unfold labels_text. rewrite labels_loop_join, <- Eu.
        rewrite !app_length. simpl. lia.
      - rewrite <- X2 in PL. apply Permutation_nil in PL. cbn [Labels sort_views] in PL. rewrite PL. simpl. lia. }
    cbn [app] in Ln. destruct (Labels (sort_views gs m)); cbn [length] in *; lia.
  Qed.

  (** ** Crashes *)

  Lemma ParseMetrics_panic data : ParseMetrics gs data = PsPanic <->
    exists lines a l b, message_lines data lines /\ lines = a ++ l :: b /\
      Forall (fun l => exists e, reads l e) a /\ ParseMetric l = MPanic.
  Proof.
    split.
    - intros H. pose proof (parse_lines_spec gs (split_nl data) []) as X. unfold ParseMetrics in H. rewrite H in X.
      destruct X as (a & l & b & E & P & F). exists (filter nonempty (split_nl data)), a, l, b.
      split; [apply message_lines_iff; auto|]. split; auto. split; auto.
      eapply Forall_impl; [|exact F]. cbn beta. intros x Hx. apply ParseMetric_ok. auto.
    - intros (lines & a & l & b & M & E & F & P). apply message_lines_iff in M. subst lines.
      pose proof (parse_lines_spec gs (split_nl data) []) as X. unfold ParseMetrics.
      (* a more precise run of the loop *)
      assert (Y : forall lines set, filter nonempty lines = a ++ l :: b -> parse_lines gs lines set = PsPanic).
      { clear X E. revert F. induction a as [|x a IH]; intros F.
        - induction lines as [|q lines IHl]; intros set Ef; [discriminate|].
          destruct q as [|c q]; [cbn [parse_lines]; apply IHl; auto|].
          cbn [filter nonempty app] in Ef. inversion Ef; subst. cbn [parse_lines]. rewrite P. reflexivity.
        - inversion F as [|x0 a0 Hx Fa]; subst. specialize (IH Fa).
          induction lines as [|q lines IHl]; intros set Ef; [discriminate|].
          destruct q as [|c q]; [cbn [parse_lines]; apply IHl; auto|].
          cbn [filter nonempty app] in Ef. inversion Ef as [[E1 E2]]. cbn [parse_lines].
          apply ParseMetric_ok in Hx. destruct Hx as (m & Hm). rewrite E1, Hm. apply IH. auto. }
      apply Y. auto.
  Qed.
End Top.
