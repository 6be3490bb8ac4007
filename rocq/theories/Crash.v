(** The pipeline at any moment, with components killed and started again at any time.

    A kill is the end of a component's history at an arbitrary point (cmd/influx-spout/main.go:39-48: the program never calls
    Stop, it just ends); starting it again is a new history from the initial state.  NATS is taken to deliver a message at most
    once. *)
From Verif Require Import Base LinesSpec Text Rules RulesSpec FilterWorker FilterSpec FilterProofs Listener ListenerSpec ListenerProofs Retry RetrySpec RetryMain Splitter Batch HttpProofs
  Writer WriterSpec WriterTop EndToEnd EndToEndProofs.
Local Open Scope Z_scope.

(** ** Specification *)

(** [a] is part of [b], with multiplicity. *)
Definition part {A} (a b : list A) : Prop := exists rest, Permutation (a ++ rest) b.

(** A UDP listener up to any moment: the lines it was sent, and the messages it handed to NATS. *)
Definition udp_moment (src : list bytes * list bytes) : Prop :=
  exists lc us pf t0, 0 <= lc_max_size lc <= 1048576 /\ Forall (fun u => Z.of_nat (length (u_data u)) <= 65536) us /\
    fst src = sent_lines us /\ snd src = ls_pub (udp_run pf lc (newListener lc t0) us).

(** A filter process up to any moment: its number of workers, its history and where that led. *)
Record frun := FR { fr_workers : nat; fr_labels : list flabel; fr_state : fsys }.

(** Histories of listeners [srcs], filters [fs] (all with the configuration [c]) and workers of writers [ws] reading
    [subs]; each message went to at most one filter, and of what the filters published on these subjects each message went to at
    most one writer. *)
Record histories (gs : forall A : Type, (A -> A -> bool) -> list A -> list A) (c : fcfg) (subs : list bytes)
    (srcs : list (list bytes * list bytes)) (fs : list frun) (ws : list wworker) : Prop := {
  hi_sort : sorts gs;
  hi_sources : Forall udp_moment srcs;
  hi_sound : Forall (sound_line c) (flat_map fst srcs);
  hi_filters : Forall (fun f => fexec gs c (startFilter c (fr_workers f)) (fr_labels f) (fr_state f) /\ Forall (time_ok c) (taken (fr_labels f))) fs;
  hi_received : part (flat_map (fun f => received (fr_labels f)) fs) (flat_map snd srcs);
  hi_writers : Forall plain_writer ws;
  hi_messages : part (flat_map (fun w => map snd (messages (ww_trace w))) ws) (flat_map (fun f => on_subjects subs (performed (fr_labels f))) fs) }.

(** The lines the filters took up, each with the clock reading of its batch. *)
Definition taken_up (fs : list frun) : list (Z * bytes) := flat_map (fun f => handled (fr_labels f)) fs.

(** ** Proofs *)

Lemma part_refl {A} (a : list A) : part a a.
Proof. exists []. rewrite app_nil_r. apply Permutation_refl. Qed.
Lemma part_trans {A} (a b c : list A) : part a b -> part b c -> part a c.
Proof.
  intros (r1 & P1) (r2 & P2). exists (r1 ++ r2). rewrite app_assoc. eapply perm_trans; [|exact P2]. apply Permutation_app_tail. exact P1.
Qed.
Lemma part_perm {A} (a b c : list A) : Permutation a b -> part b c -> part a c.
Proof. intros P (r & Q). exists r. eapply perm_trans; [|exact Q]. apply Permutation_app_tail. exact P. Qed.
Lemma part_perm_r {A} (a b c : list A) : part a b -> Permutation b c -> part a c.
Proof. intros (r & Q) P. exists r. eapply perm_trans; eauto. Qed.
Lemma part_app {A} (a b c d : list A) : part a c -> part b d -> part (a ++ b) (c ++ d).
Proof.
  intros (r1 & P1) (r2 & P2). exists (r1 ++ r2). eapply perm_trans; [|apply Permutation_app; [exact P1|exact P2]].
  rewrite <- !app_assoc. apply Permutation_app_head. rewrite !app_assoc. apply Permutation_app_tail. apply Permutation_app_comm.
Qed.
Lemma part_l {A} (a b : list A) : part a (a ++ b).
Proof. exists b. apply Permutation_refl. Qed.
Lemma part_flat_map {A B} (f : A -> list B) a b : part a b -> part (flat_map f a) (flat_map f b).
Proof. intros (r & P). exists (flat_map f r). rewrite <- flat_map_app. apply Permutation_flat_map. exact P. Qed.
Lemma part_flat {A B} (f g : A -> list B) l : (forall x, In x l -> part (f x) (g x)) -> part (flat_map f l) (flat_map g l).
Proof.
  induction l as [|x l IH]; intros H; [apply part_refl|]. cbn [flat_map]. apply part_app; [apply H; left; reflexivity|]. apply IH. intros y Hy. apply H. right. exact Hy.
Qed.
Lemma part_in {A} (a b : list A) x : part a b -> In x a -> In x b.
Proof. intros (r & P) H. eapply Permutation_in; [exact P|]. apply in_app_iff. left. exact H. Qed.

Lemma moment_lines src : udp_moment src -> part (flat_map lines_of (snd src)) (fst src) /\ Forall nl_ended (snd src).
Proof.
  intros (lc & us & pf & t0 & Hc & Hu & -> & ->). destruct (udp_messages pf lc t0 us Hc Hu) as (groups & pend & E & _ & Pub & _ & F).
  pose proof (arrived_ended us) as A. rewrite <- E in A. apply Forall_app in A. destruct A as [A1 A2]. split.
  - exists (flat_map lines_of pend). rewrite Pub. unfold sent_lines. rewrite <- E. rewrite flat_map_app, flat_map_concat, flat_map_map.
    apply Permutation_app_tail. clear - A1. induction groups as [|g gs IH]; [apply perm_nil|]. cbn [flat_map concat] in *. apply Forall_app in A1. destruct A1 as [A1 A2].
    apply Permutation_app; [|auto]. rewrite lines_of_concat_ended by auto. apply Permutation_refl.
  - apply Forall_forall. intros m Hm. rewrite Forall_forall in F. destruct (F m Hm) as (_ & _ & p & ->). right. eauto.
Qed.

Lemma on_subjects_part subs acts : part (flat_map lines_of (on_subjects subs acts)) (out_lines subs (published acts)) /\
  forall d, In d (on_subjects subs acts) -> exists s, In (s, d) (published acts).
Proof.
  induction acts as [|a acts [I1 I2]]; [split; [apply part_refl|intros d []]|].
  unfold on_subjects, published, out_lines in *. cbn [flat_map]. destruct a as [st|i|s d [|]]; cbn [app]; auto.
  - split.
    + rewrite flat_map_app. cbn [flat_map fst snd]. apply part_app; [|exact I1]. destruct (existsb _ _); cbn [flat_map]; rewrite ?app_nil_r; apply part_refl.
    + intros d' Hd. apply in_app_iff in Hd. destruct Hd as [Hd|Hd].
      * destruct (existsb _ _); [destruct Hd as [<-|[]]|destruct Hd]. exists s. left. reflexivity.
      * destruct (I2 d' Hd) as (s' & Hs). exists s'. right. exact Hs.
  - split.
    + cbn [flat_map]. eapply part_trans; [exact I1|]. cbn [fst snd]. destruct (existsb _ _); [|apply part_refl].
      exists (lines_of d). apply Permutation_app_comm.
    + intros d' Hd. destruct (I2 d' Hd) as (s' & Hs). exists s'. right. exact Hs.
Qed.

(** One filter at any moment. *)
Lemma filter_moment gs c subs f : sorts gs -> fexec gs c (startFilter c (fr_workers f)) (fr_labels f) (fr_state f) ->
  Forall (ready_batch c) (taken (fr_labels f)) ->
  Forall nl_ended (on_subjects subs (performed (fr_labels f))) /\
  exists outs, Forall2 (fun h o => forwarded c subs (fst h) (snd h) o) (handled (fr_labels f)) outs /\
    part (flat_map lines_of (on_subjects subs (performed (fr_labels f)))) (concat outs).
Proof.
  intros GS X R. destruct (pool_invariant gs c _ _ _ X) as (_ & B & D & _). rewrite D in B.
  set (out := fun j : job => let '(oks, now, m) := j in published (snd (processBatch gs c oks now (newFilterWorker c) m))) in *.
  assert (Pp : Permutation (published (performed (fr_labels f)) ++ published (flat_map todo_of (s_workers (fr_state f)))) (flat_map out (taken (fr_labels f)))).
  { apply perm_published in B. rewrite published_flat in B. unfold published in B at 1. rewrite flat_map_app in B. eapply perm_trans; [exact B|].
    erewrite flat_map_ext; [apply Permutation_refl|]. intros [[oks now] m]. reflexivity. }
  destruct (on_subjects_part subs (performed (fr_labels f))) as [O1 O2]. split.
  - apply Forall_forall. intros d Hd. destruct (O2 d Hd) as (sb & Hs).
    assert (Hx : In (sb, d) (flat_map out (taken (fr_labels f)))) by (eapply Permutation_in; [exact Pp|apply in_app_iff; left; exact Hs]).
    apply in_flat_map in Hx. destruct Hx as ([[oks now] m] & Hj & Hx). rewrite Forall_forall in R. specialize (R _ Hj).
    destruct (batch_lines gs c subs oks now m GS R) as [_ Bl]. rewrite Forall_forall in Bl. apply (Bl _ Hx).
  - assert (G : forall js, Forall (ready_batch c) js -> exists outss, Forall2 (outs_of c subs) js outss /\
      Permutation (out_lines subs (flat_map out js)) (concat (concat outss))).
    { induction 1 as [|[[oks now] m] js H R' IH]; [exists []; split; auto; constructor|]. destruct IH as (outss & F & I0).
      destruct (batch_lines gs c subs oks now m GS H) as [(outs & F' & Bl) _]. exists (outs :: outss). split; [constructor; auto|].
      cbn [flat_map concat]. unfold out_lines in *. rewrite flat_map_app, concat_app. apply Permutation_app; auto. }
    destruct (G _ R) as (outss & F & I0). exists (concat outss). split; [apply handled_outs; exact F|].
    eapply part_trans; [exact O1|]. eapply part_perm_r; [|exact I0]. exists (out_lines subs (published (flat_map todo_of (s_workers (fr_state f))))).
    unfold out_lines. rewrite <- flat_map_app. apply Permutation_flat_map. exact Pp.
Qed.

(** A worker of a writer at any moment: what was acknowledged is part of what was sent. *)
Lemma acknowledged_part w : ww_ok w -> part (acknowledged (ww_trace w)) (bodies (ww_trace w)).
Proof.
  intros (Hs & Hc & Hr). unfold acknowledged, bodies.
  assert (F : part (map snd (delivered (retries (ww_trace w)))) (map snd (failures (ww_trace w)))).
  { destruct (Z_le_gt_dec 1 (wc_retry (ww_cfg w))) as [R|R].
    - destruct (pair_conservation _ Hs _ _ _ _ _ Hc R Hr) as (P & _). symmetry in P. eapply part_perm_r; [|apply Permutation_map; exact P].
      exists (map snd (buf (r_q (w_retry (ww_state w))) ++ passing (ww_state w) ++ rejected (retries (ww_trace w)) ++ expired (retries (ww_trace w)) ++ evicted (retries (ww_trace w)))).
      rewrite <- map_app. apply Permutation_map. set (a := buf _). set (b := passing _). set (dl := delivered _). rewrite (app_assoc a b), (app_assoc a b), !app_assoc.
      repeat apply Permutation_app_tail. rewrite <- !app_assoc. rewrite (app_assoc a b dl). apply Permutation_app_comm.
    - assert (R' : (wc_retry (ww_cfg w) <= 0)%Z) by lia. destruct (pair_off _ Hs _ _ _ _ _ Hc R' Hr) as [E _]. rewrite E. exists (map snd (failures (ww_trace w))). apply Permutation_refl. }
  unfold failures in F. rewrite map_map in F. eapply part_trans; [apply part_app; [apply part_refl|exact F]|].
  eapply part_perm_r; [apply part_refl|]. rewrite <- map_app. apply Permutation_map. symmetry. apply filter_part.
Qed.

Lemma influxdb_part ws : Forall plain_writer ws -> part (in_influxdb ws) (in_writer ws).
Proof.
  intros W. unfold in_influxdb, in_writer. apply part_flat. intros w Hw. rewrite Forall_forall in W. destruct (W w Hw) as (Ok & _).
  eapply part_trans; [apply part_flat_map; apply acknowledged_part; exact Ok|]. apply part_l.
Qed.

Lemma any_moment gs c subs srcs fs ws : histories gs c subs srcs fs ws ->
  exists outs, part (map snd (taken_up fs)) (flat_map fst srcs) /\
    Forall2 (fun h o => forwarded c subs (fst h) (snd h) o) (taken_up fs) outs /\
    part (in_writer ws) (concat outs) /\ part (in_influxdb ws) (in_writer ws).
Proof.
  intros [GS S1 So Fl Rc W Ms].
  assert (Ls : part (flat_map lines_of (flat_map snd srcs)) (flat_map fst srcs) /\ Forall nl_ended (flat_map snd srcs)).
  { clear - S1. induction S1 as [|src srcs H S1 [IH1 IH2]]; [split; [apply part_refl|constructor]|]. destruct (moment_lines src H) as [A B]. cbn [flat_map]. rewrite flat_map_app.
    split; [apply part_app; auto|apply Forall_app; auto]. }
  destruct Ls as [L1 L2].
  assert (Tk : part (flat_map (fun f => map (fun j : job => snd j) (taken (fr_labels f))) fs) (flat_map (fun f => received (fr_labels f)) fs)).
  { apply part_flat. intros f Hf. rewrite Forall_forall in Fl. destruct (Fl f Hf) as [X _]. destruct (pool_invariant gs c _ _ _ X) as (E & _). rewrite E. apply part_l. }
  pose proof (part_trans _ _ _ Tk Rc) as Tm. pose proof (part_flat_map lines_of _ _ Tm) as Tl. pose proof (part_trans _ _ _ Tl L1) as Th.
  assert (Eh : map snd (taken_up fs) = flat_map lines_of (flat_map (fun f => map (fun j : job => snd j) (taken (fr_labels f))) fs)).
  { unfold taken_up. clear. induction fs as [|f fs IH]; [reflexivity|]. cbn [flat_map]. rewrite map_app, flat_map_app, IH, handled_lines. reflexivity. }
  assert (Rb : forall f, In f fs -> Forall (ready_batch c) (taken (fr_labels f))).
  { intros f Hf. rewrite Forall_forall in Fl. destruct (Fl f Hf) as [_ T]. apply Forall_forall. intros j Hj. rewrite Forall_forall in T.
    assert (Hm : In (snd j) (flat_map (fun f => map (fun j : job => snd j) (taken (fr_labels f))) fs)) by (apply in_flat_map; exists f; split; [exact Hf|apply (in_map (fun j0 : job => snd j0)); exact Hj]).
    split; [auto|]. split.
    - rewrite Forall_forall in L2. apply L2. eapply part_in; eauto.
    - apply Forall_forall. intros x Hx. rewrite Forall_forall in So. apply So. eapply part_in; [exact Th|]. apply in_flat_map. eauto. }
  assert (G : Forall nl_ended (flat_map (fun f => on_subjects subs (performed (fr_labels f))) fs) /\
    exists outs, Forall2 (fun h o => forwarded c subs (fst h) (snd h) o) (taken_up fs) outs /\
      part (flat_map lines_of (flat_map (fun f => on_subjects subs (performed (fr_labels f))) fs)) (concat outs)).
  { clear - GS Fl Rb. unfold taken_up. induction fs as [|f fs IH]; [split; [constructor|exists []; split; [constructor|apply part_refl]]|].
    inversion Fl as [|? ? [X _] Fl']; subst. destruct IH as [I1 (outs & I2 & I3)]; [exact Fl'|intros f0 Hf; apply Rb; right; exact Hf|].
    destruct (filter_moment gs c subs f GS X (Rb f (or_introl eq_refl))) as [J1 (outs1 & J2 & J3)]. cbn [flat_map]. split; [apply Forall_app; auto|].
    exists (outs1 ++ outs). split; [apply Forall2_app; auto|]. rewrite flat_map_app, concat_app. apply part_app; auto. }
  destruct G as [G1 (outs & G2 & G3)]. exists outs. split; [rewrite Eh; exact Th|]. split; [exact G2|]. split; [|apply influxdb_part; exact W].
  eapply part_trans; [|exact G3]. pose proof (part_flat_map lines_of _ _ Ms) as Ml. eapply part_trans; [|exact Ml]. rewrite flat_map_flat_map.
  assert (En : Forall nl_ended (flat_map (fun w => map snd (messages (ww_trace w))) ws)).
  { apply Forall_forall. intros x Hx. rewrite Forall_forall in G1. apply G1. eapply part_in; eauto. }
  unfold in_writer. clear - W En. induction W as [|w ws (Ok & Ru & Ln) W IH]; [apply part_refl|]. cbn [flat_map] in *. apply Forall_app in En. destruct En as [E1 E2].
  apply part_app; [|auto]. rewrite (writer_lines w Ok Ru E1 Ln). apply part_refl.
Qed.

Lemma part_filter {A} (p : A -> bool) (a b : list A) : part a b -> part (filter p a) (filter p b).
Proof.
  intros (r & P). exists (filter p r). assert (E : filter p (a ++ r) = filter p a ++ filter p r) by (clear; induction a as [|x a IH]; [reflexivity|cbn [app filter]; destruct (p x); cbn [app]; rewrite IH; reflexivity]).
  rewrite <- E. apply perm_filter. exact P.
Qed.

Lemma any_moment_selected gs c subs srcs fs ws sel : histories gs c subs srcs fs ws ->
  Forall (fun h => passes c (fst h) (snd h)) (taken_up fs) -> Forall (selects c subs sel) (flat_map fst srcs) ->
  part (in_influxdb ws) (filter sel (flat_map fst srcs)).
Proof.
  intros H P Sl. destruct (any_moment _ _ _ _ _ _ H) as (outs & Th & F & Pw & Pi). eapply part_trans; [exact Pi|]. eapply part_trans; [exact Pw|].
  rewrite (outs_filter c subs sel _ _ F P); [apply part_filter; exact Th|].
  apply Forall_forall. intros x Hx. rewrite Forall_forall in Sl. apply Sl. eapply part_in; eauto.
Qed.

(** What a listener killed after any read takes with it. *)
Lemma listener_killed pf c now us u : 0 <= lc_max_size c <= 1048576 -> Forall (fun u => Z.of_nat (length (u_data u)) <= 65536) (us ++ [u]) ->
  exists lost, sent_lines (us ++ [u]) = flat_map lines_of (ls_pub (udp_run pf c (newListener c now) (us ++ [u]))) ++ flat_map lines_of lost /\
    (exists kept, arrived (us ++ [u]) = kept ++ lost) /\
    (lost = [] \/ Z.of_nat (length lost) < lc_max_count c /\ Z.of_nat (length (concat lost)) + 65536 < lc_max_size c).
Proof.
  intros Hc Hu. assert (Hc0 : 0 <= lc_max_size c) by lia.
  destruct (udp_reference pf c now (us ++ [u]) Hc0 Hu) as (Rp & Rb & Rw). cbv zeta in *.
  pose proof (udp_limits pf c now us u Hc0 Hu) as L. cbv zeta in L.
  destruct (udp_messages pf c now (us ++ [u]) Hc Hu) as (_ & _ & _ & _ & _ & _ & F).
  set (gr := sp_groups (sp_run c (us ++ [u]))) in *. set (pend := sp_pend (sp_run c (us ++ [u]))) in *.
  assert (E : concat gr ++ pend = arrived (us ++ [u])) by apply sp_conserve.
  exists pend. pose proof (arrived_ended (us ++ [u])) as A. rewrite <- E in A. apply Forall_app in A. destruct A as [A1 A2].
  split; [|split].
  - unfold sent_lines. rewrite <- E, flat_map_app. f_equal. rewrite <- (lines_of_concat_ended (concat gr) A1).
    pose proof (flat_split_concat gr) as Fs. unfold bytes in Fs. unfold bytes. rewrite <- Fs. unfold bytes in Rp. rewrite <- Rp.
    apply lines_of_concat_ended. apply Forall_forall. intros m Hm. rewrite Forall_forall in F. destruct (F m Hm) as (_ & _ & p & ->). right. eauto.
  - exists (concat gr). symmetry. exact E.
  - destruct pend as [|x pend'] eqn:Ep; [left; reflexivity|right].
    assert (Nx : x <> []). { assert (Ix : In x (arrived (us ++ [u]))) by (rewrite <- E; apply in_app_iff; right; left; reflexivity).
      pose proof (arrived_shape (us ++ [u])) as Sh. rewrite Forall_forall in Sh. destruct (Sh x Ix) as (p & ->). intros X. destruct p; discriminate X. }
    destruct L as [L|(L1 & L2 & L3)].
    + exfalso. rewrite Rb in L. cbn [concat] in L. destruct x; [congruence|discriminate L].
    + rewrite <- Rw, <- Rb. split; [exact L1|exact L3].
Qed.
