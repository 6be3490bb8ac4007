(** What the monitor serves whatever the order of the labels (C50).

    Rendering a metric writes over the line it was parsed from (prometheus/metric.go:37-46), and with it over its labels, if they were
    not in order.  This file says how far the damage goes: which lines of an answer are right all the same, and what is right in the others. *)
From Verif Require Import Base Convert NumSpec NumProofs Prom RulesSpec RulesProofs PromSpec PromParse PromProofs PromMonitor PromTop.
Local Open Scope nat_scope.

(** ** Specification *)
(** The last entry for a metric, if its labels came in order, or if it came after the last GET. *)
Definition unharmed (evs : list mevent) (es : list entry) (e : entry) : Prop :=
  exists a e0 b, es = a ++ e0 :: b /\ e_name e0 = e_name e /\ Permutation (e_labels e0) (e_labels e) /\
    Forall (fun e' => ~ (e_name e' = e_name e /\ Permutation (e_labels e') (e_labels e))) b /\
    (increasing (e_labels e0) \/
     exists evs1 evs2 es1, evs = evs1 ++ evs2 /\ accepted evs1 es1 /\ ~ In EGet evs2 /\ length es1 <= length a).
(** What is answered to a GET after the events [evs], by which the entries [es] were accepted: one line per metric, in the order of their
    identities, each with the right name, value, time and number of labels, and with the right labels if it is unharmed. *)
Definition answered (evs : list mevent) (es : list entry) (answer : bytes) : Prop :=
  exists served : list (entry * list (bytes * bytes)),
    answer = concat (map (fun s => served_line (e_name (fst s)) (snd s) (e_value (fst s)) (e_ms (fst s)) ++ [nl]) served) /\
    (forall i j a b, i < j -> nth_error served i = Some a -> nth_error served j = Some b ->
       bltb (identity (e_name (fst a)) (e_labels (fst a))) (identity (e_name (fst b)) (e_labels (fst b))) = true) /\
    Forall (fun s => increasing (e_labels (fst s)) /\ length (snd s) = length (e_labels (fst s)) /\
              (unharmed evs es (fst s) -> snd s = e_labels (fst s))) served /\
    (forall name ls v ms, increasing ls -> (In (Entry name ls v ms) (map fst served) <-> latest es name ls v ms)).

(** ** Proofs *)
Section Damage.
  Variable gs : forall A : Type, (A -> A -> bool) -> list A -> list A.
  Hypothesis Hs : sorts gs.

  (** What is known of the metric filed for the [i]-th entry [e], [n] entries having been accepted before the last GET. *)
  Record Q (n : nat) (m : metric) (e : entry) (i : nat) : Prop := mkQ {
    q_name : Name m = e_name e;
    q_value : m_value m = e_value e;
    q_ms : m_ms m = e_ms e;
    q_len : length (m_labels m) = length (e_labels e);
    q_in : m_name m <= length (m_line m);
    q_sorted : increasing (e_labels e) -> stable m /\ Labels m = e_labels e;
    q_fresh : n <= i -> Permutation (e_labels e) (Labels m) /\ increasing (Labels m) }.

  Record GRel (n : nat) (set : mset) (es : list entry) : Prop := mkGR {
    g_nodup : NoDup (map fst set);
    g_get : forall k, match map_get k set with
      | Some m => exists a e b, es = a ++ e :: b /\ ekey e k /\ Q n m e (length a) /\ Forall (fun e' => ~ ekey e' k) b
      | None => Forall (fun e' => ~ ekey e' k) es
      end }.

  Lemma grel_nil n : GRel n [] [].
  Proof. constructor; [constructor|]. intros k. cbn [map_get]. constructor. Qed.

  Lemma Q_labels n m e i : Q n m e i -> length (Labels m) = length (e_labels e).
  Proof. intros H. unfold Labels. rewrite map_length. apply H. Qed.

  (** A line just parsed and filed. *)
  Lemma parsed_Q line m e : ParseMetric line = MOk m -> reads line e -> NoDup (map fst (e_labels e)) ->
    ekey e (key gs m) /\ forall i, Q 0 (sort_views gs m) e i.
  Proof.
    intros E R ND. pose proof (parsed_matches _ _ _ E R) as Mt.
    destruct (parsed_ekey gs Hs m e Mt ND) as (Ek & (H1 & H2 & H3 & H4) & Inc). split; [exact Ek|]. intros i.
    assert (Ls : length (m_labels (sort_views gs m)) = length (e_labels e)).
    { apply Permutation_length in H2. unfold Labels in H2. rewrite map_length in H2. symmetry. exact H2. }
    constructor; auto.
    - destruct (ParseMetric_complete _ _ R) as (m' & E' & A0 & A1 & A1' & _).
      assert (m' = m) by congruence. subst m'. cbn [sort_views m_name m_line]. rewrite A0, A1'.
      destruct R as (_ & _ & _ & lp & num & -> & _). rewrite !app_length. lia.
    - intros I0. pose proof (parsed_stable _ _ _ E R I0) as St. rewrite sort_views_id by (auto; apply St). split; [exact St|].
      destruct (ParseMetric_complete _ _ R) as (m' & E' & _ & _ & _ & A2 & _). congruence.
  Qed.

  Lemma grel_update n set es m e : GRel n set es -> ekey e (key gs m) -> Q n (sort_views gs m) e (length es) -> GRel n (Update gs set m) (es ++ [e]).
  Proof.
    intros [ND G] Ek Hq. constructor; [apply put_NoDup; auto|].
    intros k. unfold Update. cbv zeta. fold (key gs m). change (snd (metricKey gs m)) with (sort_views gs m).
    destruct (beqs (key gs m) k) eqn:E.
    - apply beqs_eq in E. subst k. rewrite get_put_same. exists es, e, []. auto.
    - apply beqs_neq in E. rewrite get_put_other by auto. specialize (G k).
      assert (Ne : ~ ekey e k) by (intros X; apply E; eapply ekey_fun; eauto).
      destruct (map_get k set) as [m0|].
      + destruct G as (a & e0 & b & -> & G1 & G2 & G3). exists a, e0, (b ++ [e]). split; [rewrite <- app_assoc; reflexivity|].
        split; auto. split; auto. apply Forall_app. split; auto.
      + apply Forall_app. split; auto.
  Qed.

  Lemma Q_weak n m e i j : Q 0 m e i -> Q n m e j.
  Proof. intros [A B C D E F G]. constructor; auto. intros _. apply G. lia. Qed.

  Lemma grel_parsed : forall ls ms, Forall2 (fun l m => ParseMetric l = MOk m) ls ms -> forall new, Forall2 reads ls new -> Forall wf_entry new ->
    forall set es, GRel 0 set es -> GRel 0 (fold_left (Update gs) ms set) (es ++ new).
  Proof.
    induction 1 as [|l m ls ms Hp F IH]; intros new Fr W set es R; inversion Fr as [|? e ? new' Re Fr']; subst; cbn [fold_left].
    - rewrite app_nil_r. exact R.
    - inversion W as [|? ? We W']; subst. change (e :: new') with ([e] ++ new'). rewrite app_assoc. apply IH; auto.
      destruct (parsed_Q _ _ _ Hp Re ltac:(apply We)) as [Ek Hq]. apply grel_update; auto.
  Qed.

  Lemma grel_own new news : GRel 0 new news -> forall k m, In (k, m) new -> metricKey gs m = (k, m).
  Proof.
    intros [ND G] k m Hin. pose proof (In_get k m new ND Hin) as Eg. specialize (G k). rewrite Eg in G.
    destruct G as (a & e & b & _ & (ls & [P I0] & ->) & Hq & _). destruct (q_fresh _ _ _ _ Hq ltac:(lia)) as [Pm Im].
    rewrite metricKey_id by auto. f_equal. rewrite (q_name _ _ _ _ Hq). f_equal. apply increasing_unique; auto.
    eapply Permutation_trans; [apply Permutation_sym; exact Pm|exact P].
  Qed.

  Lemma grel_merge n set es new news order : GRel n set es -> GRel 0 new news -> Permutation (map snd new) order ->
    GRel n (fold_left (Update gs) order set) (es ++ news).
  Proof.
    intros [ND G] R' P. pose proof (grel_own _ _ R') as Own. destruct R' as [ND' G'].
    constructor; [apply fold_NoDup; auto|].
    intros k. specialize (G' k). destruct (map_get k new) as [m|] eqn:Eg.
    - destruct G' as (a & e & b & -> & Ek & Hq & Fb).
      assert (Hin : In (k, m) new) by (apply get_In; auto).
      pose proof (Own _ _ Hin) as Hk.
      assert (Hio : In m order) by (eapply Permutation_in; [exact P|]; apply (in_map snd) in Hin; exact Hin).
      assert (Uniq : forall m', In m' order -> key gs m' = k -> m' = m).
      { intros m' H' Hk'. apply (Permutation_in _ (Permutation_sym P)) in H'. apply in_map_iff in H'.
        destruct H' as ([k2 m2] & E2 & Hin2). cbn [snd] in E2. subst m2.
        pose proof (Own _ _ Hin2) as Hk2. unfold key in Hk'. rewrite Hk2 in Hk'. cbn [fst] in Hk'. subst k2.
        pose proof (In_get k m' new ND' Hin2). congruence. }
      assert (NDo : NoDup order).
      { eapply Permutation_NoDup; [exact P|]. clear - ND' Own. induction new as [|[k0 m0] r IH]; cbn [map]; [constructor|].
        inversion ND'; subst. constructor.
        - intros X. apply in_map_iff in X. destruct X as ([k1 m1] & E1 & Hin1). cbn [snd] in E1. subst m1.
          pose proof (Own k0 m0 (or_introl eq_refl)) as A. pose proof (Own k1 m0 (or_intror Hin1)) as B.
          rewrite A in B. inversion B; subst k1. apply H1. apply (in_map fst) in Hin1. exact Hin1.
        - apply IH; auto. intros k m Hin. apply Own. right; auto. }
      apply in_split in Hio. destruct Hio as (o1 & o2 & ->).
      rewrite (fold_get_last gs k o1 m o2).
      + assert (Sm : sort_views gs m = m) by (unfold metricKey in Hk; injection Hk as _ Hk; exact Hk).
        rewrite Sm. exists (es ++ a), e, b. split; [rewrite <- app_assoc; reflexivity|]. split; auto. split; auto.
        eapply Q_weak; eauto.
      + unfold key. rewrite Hk. reflexivity.
      + intros m' H' Hk'. assert (m' = m) by (apply Uniq; auto; apply in_app_iff; right; right; auto). subst m'.
        apply NoDup_remove_2 in NDo. apply NDo. apply in_app_iff. right; auto.
    - rewrite fold_get_none.
      + specialize (G k). destruct (map_get k set) as [m0|].
        * destruct G as (a & e0 & b & -> & G1 & G2 & G3).
          exists a, e0, (b ++ news). split; [rewrite <- app_assoc; reflexivity|]. split; auto. split; auto.
          apply Forall_app. split; auto.
        * apply Forall_app. split; auto.
      + intros m' H' Hk'. apply (Permutation_in _ (Permutation_sym P)) in H'. apply in_map_iff in H'.
        destruct H' as ([k2 m2] & E2 & Hin2). cbn [snd] in E2. subst m2.
        pose proof (Own _ _ Hin2) as Hk2. unfold key in Hk'. rewrite Hk2 in Hk'. cbn [fst] in Hk'. subst k2.
        apply get_None in Eg. apply Eg. apply (in_map fst) in Hin2. exact Hin2.
  Qed.

  (** Rendering: names stay, labels in order stay. *)
  Lemma Q_render n m e i N : Q n m e i -> i < N -> Q N (snd (ToBytes gs m)) e i.
  Proof.
    intros [A B C D E F G] L. constructor.
    - rewrite <- A. unfold ToBytes. cbv zeta. cbn [snd]. unfold Name at 1. cbn [m_line m_name sort_views].
      destruct (Nat.leb _ _); [|reflexivity].
      unfold metric_bytes. change (Name (sort_views gs m)) with (Name m). rewrite <- !app_assoc.
      assert (Ln : length (Name m) = m_name m) by (unfold Name; rewrite firstn_length; lia).
      rewrite <- Ln. rewrite firstn_app, Nat.sub_diag, firstn_all. cbn [firstn]. apply app_nil_r.
    - unfold ToBytes. cbn [snd m_value sort_views]. exact B.
    - unfold ToBytes. cbn [snd m_ms sort_views]. exact C.
    - unfold ToBytes. cbn [snd m_labels]. rewrite <- D. symmetry. apply Permutation_length. apply (sort_views_spec gs Hs m).
    - unfold ToBytes. cbv zeta. cbn [snd m_name m_line]. change (m_name (sort_views gs m)) with (m_name m).
      destruct (Nat.leb_spec (length (metric_bytes (Name (sort_views gs m)) (Labels (sort_views gs m)) (m_value (sort_views gs m)) (m_ms (sort_views gs m)))) (length (m_line m))); [|exact E].
      rewrite app_length, skipn_length. lia.
    - intros I0. destruct (F I0) as [St El]. destruct (stable_render gs Hs m St) as [St' Ee]. split; [exact St'|].
      pose proof (f_equal e_labels Ee) as X. cbn [entry_of e_labels] in X. congruence.
    - intros X. lia.
  Qed.

  Lemma grel_render n set es : GRel n set es -> GRel (length es) (snd (SetToBytes gs set)) es.
  Proof.
    intros [ND G]. unfold SetToBytes. fold (keys_of gs set).
    assert (HG : forall k, map_get k (snd (render_keys gs (keys_of gs set) set)) =
       option_map (fun m => snd (ToBytes gs m)) (map_get k set)).
    { intros k. rewrite render_get by (apply keys_nodup; auto).
      destruct (existsb (beqs k) (keys_of gs set)) eqn:E; auto.
      destruct (map_get k set) as [m|] eqn:Em; auto. exfalso. apply not_true_iff_false in E. apply E.
      apply existsb_exists. exists k. split; [|apply beqs_refl]. eapply Permutation_in; [apply keys_perm; exact Hs|].
      apply get_In in Em. apply (in_map fst) in Em. exact Em. }
    constructor; [rewrite render_keys_same; auto|].
    intros k. rewrite HG. specialize (G k). destruct (map_get k set) as [m|] eqn:Em; cbn [option_map]; auto.
    destruct G as (a & e & b & E & G1 & G2 & G3). exists a, e, b. split; auto. split; auto. split; auto.
    eapply Q_render; eauto. rewrite E, app_length. cbn. lia.
  Qed.

  (** Histories. *)
  Lemma history_grel evs es : accepted evs es -> forall set outs, orders_ok evs ->
    mon_run gs [] evs = Some (set, outs) -> Forall wf_entry es ->
    exists n, GRel n set es /\
      (forall evs1 evs2 es1, evs = evs1 ++ evs2 -> accepted evs1 es1 -> ~ In EGet evs2 -> n <= length es1).
  Proof.
    induction 1 as [|evs es A IH|evs es data order new A IH Sy|evs es data order A IH N]; intros set outs O' R W.
    - cbn in R. inversion R; subst. exists 0. split; [apply grel_nil|]. intros; lia.
    - rewrite mon_run_app in R. destruct (mon_run gs [] evs) as [[s o]|] eqn:E; [|discriminate].
      cbn [mon_run mon_step] in R. destruct (SetToBytes gs s) as [b s'] eqn:Es. inversion R; subst s' outs.
      destruct (IH s o) as (n & G & _); auto. { intros d ord Hin. apply (O' d). apply in_app_iff; auto. }
      exists (length es). split; [pose proof (grel_render _ _ _ G) as X; rewrite Es in X; exact X|].
      intros evs1 evs2 es1 Ee A1 Ng. destruct evs2 as [|x evs2] using rev_ind.
      + rewrite app_nil_r in Ee. subst evs1. assert (X : es = es1) by (eapply accepted_unique; [constructor; exact A|exact A1]). subst. lia.
      + rewrite app_assoc in Ee. apply app_inj_tail in Ee. destruct Ee as [_ <-]. exfalso. apply Ng. apply in_app_iff. right; left; reflexivity.
    - rewrite mon_run_app in R. destruct (mon_run gs [] evs) as [[s o]|] eqn:E; [|discriminate].
      apply Forall_app in W. destruct W as [W1 W2].
      destruct (IH s o) as (n & G & Hn); auto. { intros d ord Hin. apply (O' d). apply in_app_iff; auto. }
      cbn [mon_run mon_step] in R. destruct (ParseMetrics gs data) as [| |new'] eqn:Ep; [exfalso; eapply ParseMetrics_bad; eauto|discriminate|].
      inversion R; subst set. exists n. split.
      + destruct (ParseMetrics_ok gs Hs _ _ Ep) as (news & Sy' & _ & ms & F1 & En & F2).
        rewrite (says_fun _ _ _ Sy' Sy) in *. eapply grel_merge; [exact G| |apply (O' data); apply in_app_iff; right; left; auto].
        rewrite En. destruct Sy as (lines & M & Fr). apply message_lines_iff in M. subst lines.
        change new with ([] ++ new). eapply grel_parsed; eauto. apply grel_nil.
      + intros evs1 evs2 es1 Ee A1 Ng. destruct evs2 as [|x evs2] using rev_ind.
        * rewrite app_nil_r in Ee. subst evs1.
          assert (X : es ++ new = es1) by (eapply accepted_unique; [apply acc_valid; eauto|exact A1]). subst es1.
          rewrite app_length. specialize (Hn evs [] es (eq_sym (app_nil_r _)) A (fun X => X)). lia.
        * rewrite app_assoc in Ee. apply app_inj_tail in Ee. destruct Ee as [-> _]. eapply Hn; eauto.
          intros X. apply Ng. apply in_app_iff; auto.
    - rewrite mon_run_app in R. destruct (mon_run gs [] evs) as [[s o]|] eqn:E; [|discriminate].
      destruct (IH s o) as (n & G & Hn); auto. { intros d ord Hin. apply (O' d). apply in_app_iff; auto. }
      cbn [mon_run mon_step] in R. destruct (ParseMetrics gs data) as [| |new'] eqn:Ep; [|discriminate|].
      + inversion R; subst. exists n. split; auto. intros evs1 evs2 es1 Ee A1 Ng. destruct evs2 as [|x evs2] using rev_ind.
        * rewrite app_nil_r in Ee. subst evs1.
          assert (X : es = es1) by (eapply accepted_unique; [apply acc_invalid; eauto|exact A1]). subst es1.
          exact (Hn evs [] es (eq_sym (app_nil_r _)) A (fun X => X)).
        * rewrite app_assoc in Ee. apply app_inj_tail in Ee. destruct Ee as [-> _]. eapply Hn; eauto.
          intros X. apply Ng. apply in_app_iff; auto.
      + exfalso. destruct (ParseMetrics_ok gs Hs _ _ Ep) as (es' & Sy & _). apply (N es'). auto.
  Qed.
  (** What one key stands for. *)
  Record shows (n : nat) (set : mset) (es : list entry) (k : bytes) (s : entry * list (bytes * bytes)) : Prop := mkSh {
    sh_m : exists m a e b, map_get k set = Some m /\ es = a ++ e :: b /\ Q n m e (length a) /\ Forall (fun e' => ~ ekey e' k) b /\
      ordered_labels (e_labels e) (e_labels (fst s)) /\ k = identity (e_name (fst s)) (e_labels (fst s)) /\
      e_name (fst s) = e_name e /\ e_value (fst s) = e_value e /\ e_ms (fst s) = e_ms e /\ snd s = Labels (sort_views gs m) }.

  Lemma all_shown n set es : GRel n set es -> exists served, Forall2 (shows n set es) (keys_of gs set) served.
  Proof.
    intros [ND G].
    assert (Hget : forall k, In k (keys_of gs set) -> exists m, map_get k set = Some m).
    { intros k Hk. destruct (map_get k set) as [m|] eqn:E; eauto. exfalso. apply get_None in E. apply E.
      eapply Permutation_in; [apply Permutation_sym, keys_perm; exact Hs|auto]. }
    induction (keys_of gs set) as [|k r IH]; [exists []; constructor|].
    destruct IH as (served & F); [intros; apply Hget; right; auto|].
    destruct (Hget k (or_introl eq_refl)) as (m & Em). specialize (G k). rewrite Em in G.
    destruct G as (a & e & b & E & (ls & Ol & Ek) & Hq & Fb).
    exists ((Entry (e_name e) ls (e_value e) (e_ms e), Labels (sort_views gs m)) :: served). constructor; [|exact F].
    constructor. exists m, a, e, b. cbn [fst snd e_name e_labels e_value e_ms]. repeat (split; [solve [auto]|]). reflexivity.
  Qed.

  (** Filed under the same key: the same metric. *)
  Lemma ekey_same e name ls : wf_entry e -> ~ In lbrace name -> Forall ok_label ls -> increasing ls ->
    (ekey e (identity name ls) <-> e_name e = name /\ Permutation (e_labels e) ls).
  Proof.
    intros (W1 & W2 & W3) Nn Wl Inc. split.
    - intros (ls' & [P I0] & E). destruct (identity_inj _ _ _ _ Nn W1 Wl (Permutation_Forall P W2) E) as [-> ->]. auto.
    - intros [<- P]. exists ls. split; [split; auto|reflexivity].
  Qed.

  Lemma shows_text n set es k s : shows n set es k s ->
    text_of gs set k = served_line (e_name (fst s)) (snd s) (e_value (fst s)) (e_ms (fst s)) ++ [nl].
  Proof.
    intros [(m & a & e & b & Em & _ & Hq & _ & _ & _ & -> & -> & -> & ->)]. unfold text_of. rewrite Em.
    unfold ToBytes. cbv zeta. cbn [fst]. rewrite metric_bytes_served. change (Name (sort_views gs m)) with (Name m).
    rewrite (q_name _ _ _ _ Hq). cbn [sort_views m_value m_ms]. rewrite (q_value _ _ _ _ Hq), (q_ms _ _ _ _ Hq). reflexivity.
  Qed.

  Lemma answer_answered evs es set outs answer : accepted evs es -> orders_ok evs ->
    mon_run gs [] (evs ++ [EGet]) = Some (set, outs ++ [answer]) ->
    Forall (fun e => NoDup (map fst (e_labels e))) es -> answered evs es answer.
  Proof.
    intros A O' R NDl. rewrite mon_run_app in R.
    destruct (mon_run gs [] evs) as [[s o]|] eqn:E; [|discriminate].
    cbn [mon_run mon_step] in R. destruct (SetToBytes gs s) as [b s'] eqn:Es. inversion R as [[R1 R2]].
    apply app_inj_tail in R2. destruct R2 as [_ <-]. clear R R1 set.
    assert (W : Forall wf_entry es).
    { pose proof (accepted_wf _ _ A) as W. rewrite Forall_forall in *. intros e He. destruct (W e He). split; auto. }
    destruct (history_grel evs es A s o O' E W) as (n & G & Hn). destruct (all_shown n s es G) as (served & F).
    assert (Hnd : NoDup (map fst s)) by apply G.
    assert (Wf : forall x, In x es -> wf_entry x) by (apply Forall_forall; exact W).
    assert (Wserved : forall k s0, shows n s es k s0 -> ~ In lbrace (e_name (fst s0)) /\ Forall ok_label (e_labels (fst s0)) /\ increasing (e_labels (fst s0))).
    { intros k s0 [(m & a & e & b0 & _ & Ee & _ & _ & [P I0] & _ & Nm & _)].
      assert (We : wf_entry e) by (apply Wf; rewrite Ee; apply in_app_iff; right; left; auto).
      split; [rewrite Nm; apply We|]. split; [eapply Permutation_Forall; [exact P|apply We]|exact I0]. }
    exists served. split; [|split; [|split]].
    - assert (Eb : b = fst (SetToBytes gs s)) by (rewrite Es; reflexivity). rewrite Eb. unfold SetToBytes. fold (keys_of gs s).
      rewrite render_text by (apply keys_nodup; auto). f_equal. clear - F.
      induction F as [|k s0 ks sv H F IH]; [reflexivity|]. cbn [map]. rewrite (shows_text _ _ _ _ _ H), IH. reflexivity.
    - intros i j x y L Hx Hy.
      assert (Hk : forall i x, nth_error served i = Some x -> exists k, nth_error (keys_of gs s) i = Some k /\ k = identity (e_name (fst x)) (e_labels (fst x))).
      { clear - F. induction F as [|k s0 ks sv H F IH]; intros i x Hx; [destruct i; discriminate|].
        destruct i as [|i]; cbn in Hx; [|exact (IH i x Hx)]. injection Hx as <-. exists k. split; [reflexivity|].
        destruct H as [(m & a & e & b & _ & _ & _ & _ & _ & Ek & _)]. exact Ek. }
      destruct (Hk _ _ Hx) as (k1 & N1 & <-). destruct (Hk _ _ Hy) as (k2 & N2 & <-).
      eapply keys_ascending; eauto.
    - apply Forall_forall. intros x Hx.
      assert (Hk : exists k, shows n s es k x).
      { clear - F Hx. induction F as [|k s0 ks sv H F IH]; [destruct Hx|]. destruct Hx as [<-|Hx]; eauto. }
      destruct Hk as (k & Hk). destruct (Wserved k x Hk) as (W1 & W2 & W3). split; [exact W3|].
      destruct Hk as [(m & a & e & b0 & Em & Ee & Hq & Fb & [P I0] & Ek & Nm & Nv & Nt & Sn)].
      split.
      + rewrite Sn. unfold Labels. rewrite map_length, <- (Permutation_length P), <- (q_len _ _ _ _ Hq).
        symmetry. apply Permutation_length. apply (sort_views_spec gs Hs m).
      + intros (a' & e' & b' & Ee' & En' & P' & Fb' & C).
        assert (X : e = e' /\ b0 = b').
        { apply (last_unique (fun y => e_name y = e_name (fst x) /\ Permutation (e_labels y) (e_labels (fst x))) a e b0 a' e' b'); auto; [congruence|].
          apply Forall_forall. intros y Hy Hp. rewrite Forall_forall in Fb. apply (Fb y Hy). rewrite Ek.
          apply ekey_same; auto. apply Wf. rewrite Ee. apply in_app_iff. right; right; exact Hy. }
        destruct X as [<- <-].
        assert (La : length a = length a').
        { rewrite Ee in Ee'. apply f_equal with (f := @length entry) in Ee'. rewrite !app_length in Ee'. cbn in Ee'. lia. }
        rewrite Sn. destruct C as [C|(evs1 & evs2 & es1 & Ev & A1 & Ng & Ln)].
        * destruct (q_sorted _ _ _ _ Hq C) as [St El]. rewrite sort_views_id by (auto; apply St). rewrite El.
          apply increasing_unique; auto.
        * pose proof (Hn _ _ _ Ev A1 Ng) as Hle. destruct (q_fresh _ _ _ _ Hq ltac:(lia)) as [Pm Im].
          rewrite sort_views_id by auto. apply increasing_unique; auto.
          eapply Permutation_trans; [apply Permutation_sym; exact Pm|exact P].
    - intros name ls v ms Inc. split.
      + intros Hin. apply in_map_iff in Hin. destruct Hin as (x & Ex & Hx).
        assert (Hk : exists k, shows n s es k x).
        { clear - F Hx. induction F as [|k s0 ks sv H F IH]; [destruct Hx|]. destruct Hx as [<-|Hx]; eauto. }
        destruct Hk as (k & Hk). destruct (Wserved k x Hk) as (W1 & W2 & W3).
        destruct Hk as [(m & a & e & b0 & Em & Ee & Hq & Fb & [P I0] & Ek & Nm & Nv & Nt & Sn)].
        rewrite Ex in *. cbn [e_name e_labels e_value e_ms] in *.
        exists a, e, b0. split; [exact Ee|]. split; [congruence|]. split; [exact P|]. split; [congruence|]. split; [congruence|].
        apply Forall_forall. intros y Hy Hp. rewrite Forall_forall in Fb. apply (Fb y Hy). rewrite Ek.
        apply ekey_same; auto. apply Wf. rewrite Ee. apply in_app_iff. right; right; exact Hy.
      + intros (a & e & b0 & Ee & E1 & E2 & E3 & E4 & Fb).
        assert (We : wf_entry e) by (apply Wf; rewrite Ee; apply in_app_iff; right; left; auto).
        assert (Wl : Forall ok_label ls) by (eapply Permutation_Forall; [exact E2|apply We]).
        assert (Nn : ~ In lbrace name) by (rewrite <- E1; apply We).
        assert (Ke : ekey e (identity name ls)) by (apply ekey_same; auto).
        pose proof (g_get _ _ _ G (identity name ls)) as Gk.
        destruct (map_get (identity name ls) s) as [m|] eqn:Em.
        2:{ exfalso. rewrite Forall_forall in Gk. apply (Gk e); auto. rewrite Ee. apply in_app_iff. right; left; auto. }
        assert (Hin : In (identity name ls) (keys_of gs s)).
        { eapply Permutation_in; [apply keys_perm; exact Hs|]. apply get_In in Em. apply (in_map fst) in Em. exact Em. }
        assert (Hx : exists x, In x served /\ shows n s es (identity name ls) x).
        { clear - F Hin. induction F as [|k s0 ks sv H F IH]; [destruct Hin|]. destruct Hin as [->|Hin].
          - exists s0. split; [left; reflexivity|exact H].
          - destruct (IH Hin) as (x & Hx & Sx). exists x. split; [right; exact Hx|exact Sx]. }
        destruct Hx as (x & Hx & Sx). apply in_map_iff. exists x. split; [|exact Hx].
        destruct (Wserved _ x Sx) as (W1 & W2 & W3).
        destruct Sx as [(m' & a' & e' & b' & Em' & Ee' & Hq & Fb' & [P I0] & Ek & Nm & Nv & Nt & Sn)].
        destruct (identity_inj _ _ _ _ Nn W1 Wl W2 Ek) as [En El].
        assert (X : e = e' /\ b0 = b').
        { apply (last_unique (fun y => e_name y = name /\ Permutation (e_labels y) ls) a e b0 a' e' b'); auto; [congruence|split; [congruence|rewrite El; exact P]|].
          apply Forall_forall. intros y Hy Hp. rewrite Forall_forall in Fb'. apply (Fb' y Hy).
          apply ekey_same; auto. apply Wf. rewrite Ee'. apply in_app_iff. right; right; exact Hy. }
        destruct X as [<- <-]. destruct (fst x) as [xn xl xv xm]. cbn [e_name e_labels e_value e_ms] in *. congruence.
  Qed.
End Damage.
