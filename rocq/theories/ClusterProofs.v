From Verif Require Import Base LinesSpec Text Rules RulesSpec RouteProofs FilterWorker FilterSpec FilterProofs Listener ListenerSpec Retry RetrySpec Writer WriterSpec EndToEnd EndToEndProofs Nats Cluster.
Local Open Scope nat_scope.

Lemma flat_nil {A B} (l : list A) : flat_map (fun _ => @nil B) l = [].
Proof. induction l; auto. Qed.

Lemma on_subjects_split subjects acts : NoDup subjects ->
  Permutation (flat_map (fun s => on_subjects [s] acts) subjects) (on_subjects subjects acts).
Proof.
  intros Nd. unfold on_subjects. eapply perm_trans; [apply perm_swap_flat|]. apply perm_flat_pointwise.
  intros a _. destruct a as [x|x|s d ok]; try (rewrite flat_nil; apply Permutation_refl).
  destruct ok; [|rewrite flat_nil; apply Permutation_refl]. cbn [existsb].
  erewrite (flat_map_ext _ (fun s0 => if beqs s s0 then [d] else [])) by (intros y; rewrite orb_false_r; reflexivity).
  rewrite <- (map_filter_flat (fun _ => d) (fun s0 => beqs s s0)).
  pose proof (nodup_count subjects s Nd) as L.
  destruct (existsb (beqs s) subjects).
  - destruct (filter (fun s0 => beqs s s0) subjects) as [|y [|z l]]; try discriminate. apply Permutation_refl.
  - destruct (filter (fun s0 => beqs s s0) subjects) as [|y l]; try discriminate. apply Permutation_refl.
Qed.

(** The filter publishes on the subjects of its rules and the junk subject only. *)
Lemma filter_subjects gs c n fl s x : sorts gs -> fexec gs c (startFilter c n) fl s -> quiet s -> Forall (time_ok c) (taken fl) ->
  ~ In x (fc_junk c :: map r_subject (fc_rules c)) -> on_subjects [x] (performed fl) = [].
Proof.
  intros GS X Q T N. destruct (pool_quiet gs c n fl s X Q) as (_ & P & _).
  assert (F : Forall (fun p : bytes * bytes => fst p <> x) (published (performed fl))).
  { eapply Permutation_Forall; [apply Permutation_sym; exact P|]. apply Forall_flat_map. apply Forall_forall. intros [[oks now] m] Hj.
    rewrite Forall_forall in T. destruct (T _ Hj) as [B1 B2]. destruct (routing gs c oks now m GS B1 B2) as (fs & _ & ->).
    unfold outputs. apply Forall_forall. intros p Hp E. apply filter_In in Hp. destruct Hp as [Hp _]. apply N. apply in_app_iff in Hp.
    destruct Hp as [Hp|[Hp|[]]].
    - apply in_map_iff in Hp. destruct Hp as ([i r] & <- & Hp). cbn [fst snd] in *. right. apply in_map_iff. exists r. split; auto. eapply in_combine_r; eauto.
    - subst p. cbn in E. left. auto. }
  clear - F. unfold on_subjects, published in *. induction (performed fl) as [|a l IH]; auto. cbn [flat_map] in *. apply Forall_app in F. destruct F as [F1 F2].
  rewrite IH by auto. destruct a as [y|y|sb d ok]; auto. destruct ok; auto. cbn [existsb]. inversion F1 as [|? ? H _]; subst. cbn in H.
  destruct (beqs sb x) eqn:E; auto. apply beqs_eq in E. congruence.
Qed.

Lemma source_lines src : source src -> Permutation (flat_map lines_of (snd src)) (fst src) /\ Forall nl_ended (snd src).
Proof.
  intros [(lc & us & H)|(lc & qs & H)].
  - destruct (udp_source_lines _ _ _ _ H) as [-> E]. auto.
  - apply (http_source_lines _ _ _ _ H).
Qed.

Lemma sources_lines srcs : Forall source srcs -> Permutation (flat_map lines_of (flat_map snd srcs)) (flat_map fst srcs) /\ Forall nl_ended (flat_map snd srcs).
Proof.
  induction 1 as [|src srcs H _ [IH1 IH2]]; [split; constructor|]. destruct (source_lines src H) as [A B]. cbn [flat_map]. rewrite flat_map_app.
  split; [apply Permutation_app; auto|apply Forall_app; auto].
Qed.

Section C.
  Variables (gs : forall A : Type, (A -> A -> bool) -> list A -> list A) (subs : list subscription) (pubs : list pub) (c : fcfg) (input : bytes)
    (srcs : list (list bytes * list bytes)) (fis : list finst).
  Hypothesis Hc : cluster gs subs pubs c input srcs fis.

  Lemma fi_all f : In f fis -> filter_ok gs subs pubs c f.
  Proof. intros H. pose proof (cl_filters _ _ _ _ _ _ _ Hc) as F. rewrite Forall_forall in F. auto. Qed.

  Lemma input_pubs : Permutation (on input pubs) (flat_map snd srcs).
  Proof.
    eapply perm_trans; [apply (cl_pubs _ _ _ _ _ _ _ Hc)|]. rewrite beqs_refl.
    assert (E : flat_map (fun f => on_subjects [input] (performed (fi_labels f))) fis = []).
    { transitivity (flat_map (fun _ : finst => @nil bytes) fis); [|apply flat_nil]. apply flat_map_ext'. intros f Hf. destruct (fi_all f Hf) as (X & Q & _ & T & _).
      eapply filter_subjects; eauto; [apply (cl_sort _ _ _ _ _ _ _ Hc)|apply (cl_noloop _ _ _ _ _ _ _ Hc)]. }
    rewrite E, app_nil_r. apply Permutation_refl.
  Qed.

  Lemma filters_received : Permutation (flat_map (fun f => received (fi_labels f)) fis) (flat_map snd srcs).
  Proof.
    eapply perm_trans; [|exact input_pubs].
    assert (E : flat_map (fun f => received (fi_labels f)) fis = flat_map (inbox subs pubs) (map fi_id fis)).
    { rewrite flat_map_map. apply flat_map_ext'. intros f Hf. destruct (fi_all f Hf) as (_ & _ & R & _). exact R. }
    rewrite E. clear E.
    assert (E : on input pubs = flat_map (fun s => on s pubs) [input]) by (cbn; rewrite app_nil_r; auto).
    rewrite E. apply inboxes. intros p Hp. apply (group_length subs p (lit "filter")).
    - pose proof (cl_picks _ _ _ _ _ _ _ Hc) as F. rewrite Forall_forall in F. auto.
    - repeat constructor. intros [].
    - apply (cl_ids _ _ _ _ _ _ _ Hc).
    - intros i. rewrite (cl_group _ _ _ _ _ _ _ Hc i). split.
      + intros H. exists input. split; [left; auto|exact H].
      + intros (s & [<-|[]] & H). exact H.
    - intros s [<-|[]]. pose proof (cl_some _ _ _ _ _ _ _ Hc) as Ne. destruct fis as [|f r] eqn:Ef; [congruence|]. exists (fi_id f).
      apply (cl_group _ _ _ _ _ _ _ Hc). left. auto.
  Qed.

  Lemma filters_ready f : In f fis -> Forall (ready_batch c) (taken (fi_labels f)).
  Proof.
    intros Hf. destruct (fi_all f Hf) as (X & Q & _ & T & _). destruct (pool_quiet gs c _ _ _ X Q) as (Rc & _).
    apply Forall_forall. intros j Hj.
    assert (Hm : In (snd j) (flat_map snd srcs)).
    { eapply Permutation_in; [exact filters_received|]. apply in_flat_map. exists f. split; auto. rewrite Rc. apply in_map_iff. eauto. }
    destruct (sources_lines srcs (cl_sources _ _ _ _ _ _ _ Hc)) as [L E]. rewrite Forall_forall in T, E. split; [auto|]. split; [auto|].
    apply Forall_forall. intros x Hx. pose proof (cl_sound _ _ _ _ _ _ _ Hc) as So. rewrite Forall_forall in So. apply So.
    eapply Permutation_in; [exact L|]. apply in_flat_map. eauto.
  Qed.

  Lemma handled_sent : Permutation (map snd (all_handled fis)) (flat_map fst srcs).
  Proof.
    destruct (sources_lines srcs (cl_sources _ _ _ _ _ _ _ Hc)) as [L _]. eapply perm_trans; [|exact L].
    eapply perm_trans; [|apply Permutation_flat_map; exact filters_received]. rewrite flat_map_flat_map.
    unfold all_handled. rewrite flat_map_concat_map, concat_map, map_map, <- flat_map_concat_map.
    erewrite flat_map_ext'; [apply Permutation_refl|]. intros f Hf. cbn beta. destruct (fi_all f Hf) as (X & Q & _).
    destruct (pool_quiet gs c _ _ _ X Q) as (Rc & _). rewrite handled_lines, Rc. reflexivity.
  Qed.

  Lemma filters_out subjects : exists outs, Forall2 (fun h o => forwarded c subjects (fst h) (snd h) o) (all_handled fis) outs /\
    Permutation (flat_map (fun f => flat_map lines_of (on_subjects subjects (performed (fi_labels f)))) fis) (concat outs).
  Proof.
    assert (G : forall l, (forall f, In f l -> In f fis) -> exists outs, Forall2 (fun h o => forwarded c subjects (fst h) (snd h) o) (all_handled l) outs /\
      Permutation (flat_map (fun f => flat_map lines_of (on_subjects subjects (performed (fi_labels f)))) l) (concat outs)); [|apply G; auto].
    induction l as [|f l IH]; intros Hl; [exists []; split; constructor|]. destruct IH as (outs & F & P); [intros; apply Hl; right; auto|].
    assert (Hf : In f fis) by (apply Hl; left; auto). destruct (fi_all f Hf) as (X & Q & _ & _ & Nf).
    destruct (filter_lines gs c _ _ _ subjects (cl_sort _ _ _ _ _ _ _ Hc) X Q (filters_ready f Hf) Nf) as (outss & F1 & P1).
    exists (concat outss ++ outs). split.
    - unfold all_handled. cbn [flat_map]. apply Forall2_app; auto. apply handled_outs. exact F1.
    - cbn [flat_map]. rewrite concat_app. apply Permutation_app; auto.
  Qed.

  Lemma writers_written ws msgs : Forall plain_writer ws -> Permutation (flat_map (fun w => map snd (messages (ww_trace w))) ws) msgs ->
    Forall nl_ended msgs -> Permutation (in_writer ws) (flat_map lines_of msgs).
  Proof.
    intros W D E. eapply perm_trans; [|apply Permutation_flat_map; exact D]. rewrite flat_map_flat_map.
    assert (En : Forall nl_ended (flat_map (fun w => map snd (messages (ww_trace w))) ws)) by (eapply Permutation_Forall; [apply Permutation_sym; exact D|exact E]).
    unfold in_writer. clear - W En. induction W as [|w ws (Ok & Ru & Ln) W IH]; auto. cbn [flat_map] in *. apply Forall_app in En. destruct En as [E1 E2].
    apply Permutation_app; [|auto]. rewrite (writer_lines w Ok Ru E1 Ln). apply Permutation_refl.
  Qed.

  (** Some writers that together got every message on the subjects once. *)
  Lemma cluster_lines subjects ws : NoDup subjects -> ~ In input subjects -> Forall plain_writer ws ->
    Permutation (flat_map (fun w => map snd (messages (ww_trace w))) ws) (flat_map (fun s => on s pubs) subjects) ->
    exists outs, Permutation (map snd (all_handled fis)) (flat_map fst srcs) /\
      Forall2 (fun h o => forwarded c subjects (fst h) (snd h) o) (all_handled fis) outs /\ Permutation (in_writer ws) (concat outs).
  Proof.
    intros Nd Ni W D. destruct (filters_out subjects) as (outs & F & P). exists outs. split; [exact handled_sent|]. split; [exact F|].
    eapply perm_trans; [|exact P].
    assert (M : Permutation (flat_map (fun s => on s pubs) subjects) (flat_map (fun f => on_subjects subjects (performed (fi_labels f))) fis)).
    { eapply perm_trans; [apply perm_flat_pointwise; intros s Hs; apply (cl_pubs _ _ _ _ _ _ _ Hc)|].
      erewrite (flat_map_ext' _ (fun s => flat_map (fun f => on_subjects [s] (performed (fi_labels f))) fis)).
      2: { intros s Hs. cbn beta. destruct (beqs s input) eqn:E; auto. apply beqs_eq in E. subst. contradiction. }
      eapply perm_trans; [apply perm_swap_flat|]. apply perm_flat_pointwise. intros f _. apply on_subjects_split. exact Nd. }
    rewrite <- flat_map_flat_map. apply writers_written; auto.
    - eapply perm_trans; [exact D|exact M].
    - apply Forall_flat_map. apply Forall_forall. intros f Hf. destruct (fi_all f Hf) as (X & Q & _ & _ & Nf).
      eapply filter_ended; eauto; [apply (cl_sort _ _ _ _ _ _ _ Hc)|apply filters_ready; auto].
  Qed.
End C.

(** ** Who gets what *)

Lemma fed_all subs pubs ws : Forall (fed subs pubs) ws -> Forall plain_writer (flat_map wi_workers ws) /\
  Permutation (flat_map (fun x => map snd (messages (ww_trace x))) (flat_map wi_workers ws)) (flat_map (inbox subs pubs) (flat_map wi_ids ws)).
Proof.
  induction 1 as [|w ws [A B] _ [IH1 IH2]]; [split; constructor|]. cbn [flat_map]. rewrite !flat_map_app.
  split; [apply Forall_app; auto|apply Permutation_app; auto].
Qed.

Lemma lone_inboxes subs pubs subjects w : writer_of subs subjects [] w ->
  Permutation (flat_map (inbox subs pubs) (wi_ids w)) (flat_map (fun s => on s pubs) subjects).
Proof.
  unfold writer_of, writer_subs. rewrite map_map. intros E. apply inboxes. intros p _. apply plain_length. exact E.
Qed.

Lemma group_inboxes subs pubs subjects group ws : Forall (picks_member subs) pubs -> NoDup subjects -> whole_group subs subjects group ws ->
  Permutation (flat_map (inbox subs pubs) (flat_map wi_ids ws)) (flat_map (fun s => on s pubs) subjects).
Proof.
  intros Pk Nd (Ng & Ne & W & Ni & All). apply inboxes. intros p Hp. rewrite Forall_forall in Pk, W.
  assert (Ew : forall w, In w ws -> map (nth_error subs) (wi_ids w) = map (fun s => Some (Subn s (Some group))) subjects).
  { intros w Hw. pose proof (W w Hw) as E. unfold writer_of, writer_subs in E. rewrite map_map in E. destruct group; [congruence|exact E]. }
  apply (group_length subs p group); auto.
  - intros i. split.
    + intros H. apply in_flat_map in H. destruct H as (w & Hw & Hi). pose proof (Ew w Hw) as E.
      assert (X : In (nth_error subs i) (map (nth_error subs) (wi_ids w))) by (apply in_map; auto). rewrite E in X. apply in_map_iff in X.
      destruct X as (s & X & Hs). exists s. split; auto. unfold member. auto.
    + intros (s & Hs & M). eapply All; eauto.
  - intros s Hs. destruct ws as [|w r]; [congruence|]. pose proof (Ew w (or_introl eq_refl)) as E.
    assert (X : In (Some (Subn s (Some group))) (map (fun s => Some (Subn s (Some group))) subjects)) by (apply in_map_iff; eauto). rewrite <- E in X. apply in_map_iff in X.
    destruct X as (i & X & _). exists i. exact X.
Qed.

Lemma cluster_written gs subs pubs c input srcs fis subjects ws : cluster gs subs pubs c input srcs fis ->
  NoDup subjects -> ~ In input subjects -> good_readers subs subjects ws -> Forall (fed subs pubs) ws ->
  exists outs, Permutation (map snd (all_handled fis)) (flat_map fst srcs) /\
    Forall2 (fun h o => forwarded c subjects (fst h) (snd h) o) (all_handled fis) outs /\ Permutation (written ws) (concat outs).
Proof.
  intros Hc Nd Ni G F. destruct (fed_all _ _ _ F) as [W P]. apply (cluster_lines gs subs pubs c input srcs fis Hc subjects); auto.
  eapply perm_trans; [exact P|]. destruct G as [(w & -> & G)|(g & G)].
  - cbn [flat_map]. rewrite app_nil_r. apply lone_inboxes. exact G.
  - eapply group_inboxes; eauto. apply (cl_picks _ _ _ _ _ _ _ Hc).
Qed.

Lemma cluster_unchanged gs subs pubs c input srcs fis subjects sel ws : cluster gs subs pubs c input srcs fis ->
  NoDup subjects -> ~ In input subjects -> good_readers subs subjects ws -> Forall (fed subs pubs) ws ->
  Forall (fun h => passes c (fst h) (snd h)) (all_handled fis) -> Forall (selects c subjects sel) (flat_map fst srcs) ->
  Permutation (written ws) (filter sel (flat_map fst srcs)).
Proof.
  intros Hc Nd Ni G F Ps Sl. destruct (cluster_written _ _ _ _ _ _ _ _ _ Hc Nd Ni G F) as (outs & Pm & F2 & P). eapply perm_trans; [exact P|].
  rewrite (outs_filter c subjects sel _ _ F2 Ps).
  - apply perm_filter. exact Pm.
  - apply Forall_forall. intros x Hx. rewrite Forall_forall in Sl. apply Sl. eapply Permutation_in; eauto.
Qed.

Lemma cluster_stored subs pubs ws : Forall (fed subs pubs) ws -> Forall (fun w => Forall settled_ok (wi_workers w)) ws -> Permutation (stored ws) (written ws).
Proof.
  intros F So. destruct (fed_all _ _ _ F) as [W _]. apply acknowledged_lines; auto. apply Forall_flat_map. exact So.
Qed.
