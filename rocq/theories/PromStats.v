(** From the counters of a component to the monitor. *)
From Verif Require Import Base Convert NumSpec NumProofs Prom RulesSpec RulesProofs PromSpec PromParse PromProofs PromMonitor PromTop.
Local Open Scope nat_scope.

Section Snapshot.
  Variable gs : forall A : Type, (A -> A -> bool) -> list A -> list A.
  Hypothesis Hs : sorts gs.

  Lemma fold_put_new {M} (f : M -> bytes) : forall l (init : list (bytes * M)),
    NoDup (map fst init ++ map f l) ->
    fold_left (fun s c => map_put (f c) c s) l init = init ++ map (fun c => (f c, c)) l.
  Proof.
    assert (P : forall k (m : M) set, ~ In k (map fst set) -> map_put k m set = set ++ [(k, m)]).
    { clear. intros k m set. induction set as [|[k0 m0] r IH]; intros N; [reflexivity|]. cbn [map_put map app] in *.
      destruct (beqs k0 k) eqn:B; [apply beqs_eq in B; subst; exfalso; apply N; left; auto|].
      f_equal. apply IH. intros X. apply N. right; auto. }
    induction l as [|c l IH]; intros init ND; cbn [fold_left map]; [symmetry; apply app_nil_r|].
    cbn [map] in ND. rewrite P.
    - rewrite IH.
      + rewrite <- app_assoc. reflexivity.
      + rewrite map_app, <- app_assoc. exact ND.
    - intros X. apply NoDup_remove_2 in ND. apply ND. apply in_app_iff. left; auto.
  Qed.

  Lemma join_no_nl ls : Forall plain_label ls -> ~ In nl (join_labels ls).
  Proof.
    induction 1 as [|[n v] r (H1 & H2 & H3 & H4 & H5) F IH]; [intros []|]. cbn [fst snd] in *.
    assert (Hi : ~ In nl (label_item n v)).
    { unfold label_item. intros X. cbn [app] in X. apply in_app_iff in X. destruct X as [X|X]; [auto|].
      destruct X as [X|X]; [discriminate|]. destruct X as [X|X]; [discriminate|].
      apply in_app_iff in X. destruct X as [X|X]; [auto|]. destruct X as [X|[]]; discriminate. }
    destruct r as [|l r]; [exact Hi|].
    change (join_labels ((n, v) :: l :: r)) with (label_item n v ++ [comma] ++ join_labels (l :: r)).
    intros X. cbn [app] in X. apply in_app_iff in X. destruct X as [X|X]; [auto|]. destruct X as [X|X]; [discriminate|auto].
  Qed.

  Lemma served_no_nl name ls v ms : plain_name name -> Forall plain_label ls -> int64 v -> int64 ms ->
    ~ In nl (served_line name ls v ms).
  Proof.
    intros (_ & _ & _ & Nn) F Hv Hm. pose proof (join_no_nl ls F) as J.
    destruct (FormatInt_facts v Hv) as (_ & _ & Fv & _). destruct (FormatInt_facts ms Hm) as (_ & _ & Fm & _).
    unfold served_line. cbn [app]. intros X. apply in_app_iff in X. destruct X as [X|X].
    - destruct ls as [|l r]; auto. unfold identity in X. cbn [app] in X. apply in_app_iff in X. destruct X as [X|X]; [auto|]. destruct X as [X|X]; [discriminate|].
      apply in_app_iff in X. destruct X as [X|X]; [auto|]. destruct X as [X|[]]; discriminate.
    - destruct X as [X|X]; [discriminate|]. apply in_app_iff in X. destruct X as [X|X]; auto.
      destruct (0 <? ms)%Z; [|destruct X]. destruct X as [X|X]; auto. discriminate.
  Qed.

  Lemma plain_ok l : plain_label l -> ok_label l.
  Proof. intros (H1 & _ & _ & H4 & _). split; auto. Qed.

  Lemma plain_reads name ls v ms : plain_name name -> Forall plain_label ls -> int64 v -> int64 ms ->
    reads (MetricToBytes gs name ls v ms) (Entry name (sort_labels gs ls) v (Z.max 0 ms)) /\
    ~ In nl (MetricToBytes gs name ls v ms).
  Proof.
    intros N F Hv Hm. destruct (sort_labels_spec gs ls Hs) as [P _].
    assert (F' : Forall plain_label (sort_labels gs ls)) by (eapply Permutation_Forall; eauto).
    unfold MetricToBytes. rewrite metric_bytes_served. split.
    - destruct N as (N1 & N2 & N3 & N4). apply served_reads; auto.
      + eapply Forall_impl; [|exact F']. apply plain_ok.
      + eapply Forall_impl; [|exact F']. intros l Hl. apply Hl.
    - apply served_no_nl; auto.
  Qed.

  Lemma millis_int64 nanos : int64 nanos -> int64 (timeToMillis nanos).
  Proof.
    unfold int64, timeToMillis, minInt64, maxInt64, two63. intros H.
    pose proof (Z.quot_abs nanos 1000000 ltac:(lia)) as Q. change (Z.abs 1000000) with 1000000%Z in Q.
    pose proof (Z.quot_le_upper_bound (Z.abs nanos) 1000000 9223372036854 ltac:(lia)) as U. lia.
  Qed.

  Lemma key_names ls n n' : ~ In lbrace n -> ~ In lbrace n' -> n ++ LabelsToBytes gs ls = n' ++ LabelsToBytes gs ls -> n = n'.
  Proof. intros _ _ E. apply app_inv_tail in E. auto. Qed.

  Definition snap_entry (ls : list (bytes * bytes)) (nanos : Z) (c : bytes * Z) : entry :=
    Entry (fst c) ls (wrap64 (snd c)) (Z.max 0 (timeToMillis nanos)).

  Lemma filter_all (l : list bytes) : Forall (fun x => x <> []) l -> filter nonempty l = l.
  Proof. induction 1 as [|x l Hx F IH]; [reflexivity|]. cbn [filter]. destruct x; [congruence|]. cbn [nonempty]. f_equal. auto. Qed.

  Lemma lines_message (lines : list bytes) : Forall (fun l => ~ In nl l) lines -> Forall (fun x : bytes => x <> []) lines ->
    message_lines (concat (map (fun l => l ++ [nl]) lines)) lines.
  Proof.
    intros F N. split; auto. exists (lines ++ [[]]). split.
    - rewrite removelast_last, last_last, app_nil_r. reflexivity.
    - split; [destruct lines; discriminate|]. split; [apply Forall_app; split; auto|].
      rewrite filter_app. cbn [filter app]. rewrite app_nil_r. symmetry. apply filter_all; auto.
  Qed.

  (** Every counter of a snapshot arrives, with its value. *)
  Lemma snapshot_says snap nanos ls : NoDup (map fst snap) -> Forall (fun c : bytes * Z => plain_name (fst c)) snap ->
    Forall plain_label ls -> int64 nanos ->
    exists es, says (SnapshotToPrometheus gs snap nanos ls) es /\
      Permutation es (map (snap_entry (sort_labels gs ls) nanos) snap).
  Proof.
    intros ND Fn Fl Hn. pose proof (millis_int64 _ Hn) as Hm.
    set (f := fun c : bytes * Z => fst c ++ LabelsToBytes gs ls).
    assert (NDk : NoDup (map f snap)).
    { clear - ND. induction snap as [|c r IH]; cbn [map] in *; [constructor|]. inversion ND; subst. constructor; auto.
      intros X. apply in_map_iff in X. destruct X as (c' & E & Hin). unfold f in E. apply app_inv_tail in E.
      apply H1. apply in_map_iff. exists c'. auto. }
    unfold SnapshotToPrometheus. pose proof (fold_put_new f snap [] NDk) as Ef. unfold f at 1 in Ef. rewrite Ef. clear Ef. cbn [app].
    set (set0 := map (fun c => (f c, c)) snap).
    assert (Ek : map fst set0 = map f snap) by (unfold set0; rewrite map_map; reflexivity).
    assert (NDs : NoDup (map fst set0)) by (rewrite Ek; auto).
    destruct (Hs bytes bltb (map fst set0) bltb_weak) as [P _]. set (ks := gs bytes bltb (map fst set0)) in *.
    assert (Hcs : exists cs, ks = map f cs /\ Permutation snap cs).
    { rewrite Ek in P. apply Permutation_sym in P. apply Permutation_map_inv in P. destruct P as (cs & E & P').
      exists cs. split; auto. }
    destruct Hcs as (cs & Eks & Pcs).
    assert (Hget : forall c, In c cs -> map_get (f c) set0 = Some c).
    { intros c Hc. apply In_get; auto. unfold set0. apply in_map_iff. exists c. split; auto.
      eapply Permutation_in; [apply Permutation_sym; exact Pcs|auto]. }
    set (txt := fun c : bytes * Z => MetricToBytes gs (fst c) ls (wrap64 (snd c)) (timeToMillis nanos)).
    assert (Etxt : map (fun k => match map_get k set0 with
                         | Some c => MetricToBytes gs (fst c) ls (wrap64 (snd c)) (timeToMillis nanos) ++ [nl]
                         | None => [] end) ks = map (fun l => l ++ [nl]) (map txt cs)).
    { rewrite Eks, !map_map. apply map_ext_in. intros c Hc. rewrite Hget by auto. reflexivity. }
    match goal with |- context [concat ?x] => replace x with (map (fun l : bytes => l ++ [nl]) (map txt cs)) by (symmetry; exact Etxt) end.
    assert (Fcs : Forall (fun c : bytes * Z => plain_name (fst c)) cs) by (eapply Permutation_Forall; eauto).
    assert (R : forall c, In c cs -> reads (txt c) (snap_entry (sort_labels gs ls) nanos c) /\ ~ In nl (txt c)).
    { intros c Hc. rewrite Forall_forall in Fcs. apply plain_reads; auto. apply wrap64_range. }
    exists (map (snap_entry (sort_labels gs ls) nanos) cs). split.
    - exists (map txt cs). split.
      + apply lines_message.
        * apply Forall_forall. intros x Hx. apply in_map_iff in Hx. destruct Hx as (c & <- & Hc). apply R; auto.
        * apply Forall_forall. intros x Hx. apply in_map_iff in Hx. destruct Hx as (c & <- & Hc).
          destruct (R c Hc) as [(L & _) _]. intros E. rewrite E in L. simpl in L. lia.
      + clear - R. induction cs as [|c cs IH]; cbn [map]; constructor.
        * apply R. left; auto.
        * apply IH. intros c' H. apply R. right; auto.
    - apply Permutation_map. apply Permutation_sym. exact Pcs.
  Qed.

  Lemma counter_says name value nanos ls : plain_name name -> Forall plain_label ls -> int64 value -> int64 nanos ->
    says (CounterToPrometheus gs name value nanos ls)
      [Entry name (sort_labels gs ls) value (Z.max 0 (timeToMillis nanos))].
  Proof.
    intros N F Hv Hn. destruct (plain_reads name ls value (timeToMillis nanos) N F Hv (millis_int64 _ Hn)) as [R Nn].
    exists [CounterToPrometheus gs name value nanos ls]. split; [|constructor; auto].
    apply message_lines_iff. rewrite split_nl_none by exact Nn. cbn [filter].
    destruct (CounterToPrometheus gs name value nanos ls) eqn:E; [|reflexivity].
    exfalso. destruct R as (L & _). unfold CounterToPrometheus in E. rewrite E in L. simpl in L. lia.
  Qed.

  (** A message that says something is accepted by the monitor (no error, no panic). *)
  Lemma says_parses data es : says data es -> exists set, ParseMetrics gs data = PsOk set.
  Proof.
    intros H. destruct (ParseMetrics gs data) as [| |set] eqn:E; eauto; exfalso.
    - eapply ParseMetrics_bad; eauto.
    - apply (ParseMetrics_panic gs) in E. destruct E as (lines & a & l & b & M & E & _ & P).
      destruct H as (lines' & M' & F). apply message_lines_iff in M, M'. subst lines'. rewrite <- M, E in F.
      apply Forall2_app_inv_l in F. destruct F as (e1 & e2 & _ & F2 & _). inversion F2; subst.
      destruct (ParseMetric_complete _ _ H1) as (m & Em & _). congruence.
  Qed.

  (** ** The monitor of a deployment: every message comes from stats/prometheus.go *)

  Definition report_text (r : report) : bytes :=
    match r with
    | RSnapshot snap nanos ls => SnapshotToPrometheus gs snap nanos ls
    | RCounter name value nanos ls => CounterToPrometheus gs name value nanos ls
    end.

  Lemma report_says r : report_ok r -> exists es, says (report_text r) es /\ reported r es.
  Proof.
    destruct r as [snap nanos ls|name value nanos ls]; cbn [report_ok report_text reported].
    - intros (H1 & H2 & H3 & H4 & H5). destruct (snapshot_says snap nanos ls H1 H2 H3 H5) as (es & Sy & P).
      exists es. split; auto. exists (sort_labels gs ls). split; [|exact P].
      split; [apply sort_labels_spec; auto|apply sort_labels_increasing; auto].
    - intros (H1 & H3 & H4 & H5 & H6). eexists. split; [apply counter_says; auto|].
      exists (sort_labels gs ls). split; [|reflexivity].
      split; [apply sort_labels_spec; auto|apply sort_labels_increasing; auto].
  Qed.

  Lemma reported_increasing r es : reported r es -> Forall (fun e => increasing (e_labels e)) es.
  Proof.
    destruct r as [snap nanos ls|name value nanos ls]; cbn [reported].
    - intros (ls' & [_ Hi] & P). eapply Permutation_Forall; [apply Permutation_sym; exact P|].
      apply Forall_forall. intros e He. apply in_map_iff in He. destruct He as (c & <- & _). exact Hi.
    - intros (ls' & [_ Hi] & ->). constructor; [exact Hi|constructor].
  Qed.

  (** A history of the deployment: a report arrives (with the order of the map iteration), or a GET. *)
  Definition devent_event (e : (report * (list metric -> list metric)) + unit) : mevent :=
    match e with inl (r, order) => EMsg (report_text r) order | inr _ => EGet end.

  Lemma deployment_accepted (evs : list ((report * (list metric -> list metric)) + unit)) :
    (forall r o, In (inl (r, o)) evs -> report_ok r) ->
    (exists set outs, mon_run gs [] (map devent_event evs) = Some (set, outs)) /\
    exists ess, Forall2 reported (flat_map (fun e => match e with inl (r, _) => [r] | inr _ => [] end) evs) ess /\
      accepted (map devent_event evs) (concat ess).
  Proof.
    induction evs as [|e evs IH] using rev_ind; intros Ok.
    { split; [exists [], []; reflexivity|]. exists []. split; constructor. }
    destruct IH as ((set & outs & E) & ess & F & A).
    { intros r o Hi. apply (Ok r o). apply in_app_iff. left; auto. }
    rewrite map_app, flat_map_app. cbn [map flat_map app]. destruct e as [[r o]|[]]; cbn [devent_event].
    - destruct (report_says r) as (es & Sy & R). { apply (Ok r o). apply in_app_iff. right; left; auto. }
      destruct (says_parses _ _ Sy) as (new & En). split.
      + rewrite mon_run_app, E. cbn [mon_run mon_step]. rewrite En. eauto.
      + exists (ess ++ [es]). split; [apply Forall2_app; [exact F|constructor; [exact R|constructor]]|].
        rewrite concat_app. cbn [concat]. rewrite app_nil_r. apply acc_valid; auto.
    - split.
      + rewrite mon_run_app, E. cbn [mon_run mon_step]. destruct (SetToBytes gs set) as [out set']. eauto.
      + exists ess. rewrite app_nil_r. split; auto. apply acc_get; auto.
  Qed.

  Lemma deployment_right (evs : list ((report * (list metric -> list metric)) + unit)) :
    (forall r o, In (inl (r, o)) evs -> report_ok r /\ forall l, Permutation l (o l)) ->
    exists set outs answer ess, mon_run gs [] (map devent_event (evs ++ [inr tt])) = Some (set, outs ++ [answer]) /\
      Forall2 reported (flat_map (fun e => match e with inl (r, _) => [r] | inr _ => [] end) evs) ess /\
      right_answer (concat ess) answer.
  Proof.
    intros Ok. destruct (deployment_accepted evs) as ((set & outs & E) & ess & F & A).
    { intros r o Hi. apply (Ok r o Hi). }
    assert (R : exists set' answer, mon_run gs [] (map devent_event evs ++ [EGet]) = Some (set', outs ++ [answer])).
    { rewrite mon_run_app, E. cbn [mon_run mon_step]. destruct (SetToBytes gs set) as [out set']. eauto. }
    destruct R as (set' & answer & R). exists set', outs, answer, ess. split; [rewrite map_app; exact R|]. split; auto.
    eapply sorted_answers; eauto.
    - intros data order Hi. apply in_map_iff in Hi. destruct Hi as (e & Ee & Hi). destruct e as [[r o]|[]]; [|discriminate].
      cbn [devent_event] in Ee. inversion Ee; subst. apply (Ok r order Hi).
    - clear - F. induction F as [|r es rs ess R F IH]; cbn [concat]; [constructor|].
      apply Forall_app. split; auto. eapply reported_increasing; eauto.
  Qed.

  (** ** Label slices *)

  Lemma set_at_len {A} (l : list A) i x : length (set_at l i x) = length l.
  Proof. revert i; induction l; destruct i; simpl; auto. Qed.

  Lemma nth_set_at_same {A} (l : list A) i x d : i < length l -> nth i (set_at l i x) d = x.
  Proof. revert i; induction l; destruct i; simpl; intros; auto; try lia. apply IHl. lia. Qed.

  Lemma nth_set_at_other {A} (l : list A) i j x d : i <> j -> nth j (set_at l i x) d = nth j l d.
  Proof. revert i j; induction l; destruct i, j; simpl; intros; auto; try lia. Qed.

  Variable rc : nat -> nat.

  (** A slice that fills its array and holds exactly the labels base, in some order. *)
  Definition full (h : heap) (s : lslice) (base : list label) : Prop :=
    ls_arr s < length h /\ length (nth (ls_arr s) h []) = ls_len s /\ Permutation base (content h s).

  Lemma sort_slice_full h s base : full h s base -> full (sort_slice gs h s) s base /\
    content (sort_slice gs h s) s = sort_labels gs (content h s) /\ length (sort_slice gs h s) = length h /\
    forall i, i <> ls_arr s -> nth i (sort_slice gs h s) [] = nth i h [].
  Proof.
    intros (H1 & H2 & H3). unfold sort_slice. set (arr := nth (ls_arr s) h []) in *.
    assert (Ef : firstn (ls_len s) arr = arr) by (rewrite <- H2; apply firstn_all).
    assert (Es : skipn (ls_len s) arr = []) by (rewrite <- H2; apply skipn_all).
    rewrite Ef, Es, app_nil_r.
    destruct (sort_labels_spec gs arr Hs) as [P _].
    assert (L : length (sort_labels gs arr) = length arr) by (symmetry; apply Permutation_length; auto).
    assert (C : content (set_at h (ls_arr s) (sort_labels gs arr)) s = sort_labels gs arr).
    { unfold content. rewrite nth_set_at_same by auto. rewrite <- H2, <- L. apply firstn_all. }
    assert (C0 : content h s = arr) by exact Ef.
    split; [split; [rewrite set_at_len; auto|split]|].
    - rewrite nth_set_at_same by auto. transitivity (length arr); [exact L|exact H2].
    - rewrite C. rewrite C0 in H3. eapply Permutation_trans; eauto.
    - split; [rewrite C, C0; auto|]. split; [apply set_at_len|]. intros i Hi. apply nth_set_at_other. auto.
  Qed.

  Lemma with_full h s base n v : full h s base ->
    let (h', s') := With rc h s n v in
    full h' s base /\ content h' s' = content h s ++ [(n, v)] /\ ls_arr s' <> ls_arr s /\
    ls_arr s' < length h' /\ ls_len s' = ls_len s + 1 /\ ls_len s' <= length (nth (ls_arr s') h' []).
  Proof.
    intros (H1 & H2 & H3). unfold With. rewrite H2. destruct (Nat.ltb_spec (ls_len s) (ls_len s)) as [X|_]; [lia|].
    set (x := content h s ++ [(n, v)] ++ repeat ([], []) (rc (Nat.max (ls_len s + 1) (2 * ls_len s)) - (ls_len s + 1))).
    assert (Lc : length (content h s) = ls_len s) by (unfold content; rewrite firstn_length; lia).
    assert (Ec : content (h ++ [x]) s = content h s) by (unfold content; rewrite app_nth1 by auto; auto).
    assert (En : nth (length h) (h ++ [x]) [] = x) by (rewrite app_nth2, Nat.sub_diag by lia; reflexivity).
    split; [split; [rewrite app_length; simpl; lia|split]|].
    - rewrite app_nth1 by auto. exact H2.
    - rewrite Ec. exact H3.
    - split.
      + unfold content at 1. cbn [ls_arr ls_len]. rewrite En. unfold x. rewrite app_assoc. apply firstn_app_len.
        rewrite app_length. simpl. lia.
      + cbn [ls_arr ls_len]. split; [lia|]. split; [rewrite app_length; simpl; lia|]. split; auto.
        rewrite En. unfold x. rewrite !app_length. simpl. lia.
  Qed.

  Lemma counter_text_spec h s name value nanos : ls_arr s < length h -> ls_len s <= length (nth (ls_arr s) h []) ->
    fst (counter_text gs h s name value nanos) = CounterToPrometheus gs name value nanos (content h s) /\
    (forall i, i <> ls_arr s -> nth i (snd (counter_text gs h s name value nanos)) [] = nth i h []) /\
    length (snd (counter_text gs h s name value nanos)) = length h.
  Proof.
    intros H1 H2. unfold counter_text. cbn [fst snd]. split; [|split].
    - unfold CounterToPrometheus, MetricToBytes. f_equal. unfold content, sort_slice.
      rewrite nth_set_at_same by auto.
      destruct (sort_labels_spec gs (firstn (ls_len s) (nth (ls_arr s) h [])) Hs) as [P _].
      apply firstn_app_len. apply Permutation_length in P. transitivity (length (firstn (ls_len s) (nth (ls_arr s) h []))); [rewrite firstn_length; lia|exact P].
    - intros i Hi. unfold sort_slice. apply nth_set_at_other. auto.
    - unfold sort_slice. apply set_at_len.
  Qed.

  (** The counters of one round: each carries the base labels and its own. *)
  Lemma per_item_spec name lname nanos base : forall items h s, full h s base ->
    full (snd (per_item gs rc h s name lname items nanos)) s base /\
    Forall2 (fun (item : bytes * Z) txt => exists ls, Permutation (base ++ [(lname, fst item)]) ls /\
               txt = CounterToPrometheus gs name (snd item) nanos ls)
            items (fst (per_item gs rc h s name lname items nanos)).
  Proof.
    induction items as [|[item value] r IH]; intros h s F; cbn [per_item].
    { split; [exact F|constructor]. }
    pose proof (with_full h s base lname item F) as X. destruct (With rc h s lname item) as [h1 s'].
    destruct X as (F1 & Ec & Na & La & Ll & Lc).
    destruct (counter_text_spec h1 s' name value nanos La Lc) as (T1 & T2 & T3).
    destruct (counter_text gs h1 s' name value nanos) as [txt h2]. cbn [fst snd] in *.
    assert (F2 : full h2 s base).
    { destruct F1 as (A1 & A2 & A3). split; [lia|]. unfold content in *. rewrite T2 by auto. auto. }
    specialize (IH h2 s F2). destruct (per_item gs rc h2 s name lname r nanos) as [txts h3]. cbn [fst snd] in *.
    destruct IH as [G1 G2]. split; auto. constructor; auto.
    exists (content h1 s'). cbn [fst snd]. split; auto. rewrite Ec. apply Permutation_app_tail. apply F.
  Qed.

  (** All rounds. *)
  Lemma rounds_spec name lname base : forall rounds h s, full h s base ->
    Forall2 (fun (round : list (bytes * Z) * list (bytes * Z) * Z) (out : bytes * list bytes) =>
      let '(snap, items, nanos) := round in
      (exists ls, Permutation base ls /\ fst out = SnapshotToPrometheus gs snap nanos ls) /\
      Forall2 (fun (item : bytes * Z) txt => exists ls, Permutation (base ++ [(lname, fst item)]) ls /\
                 txt = CounterToPrometheus gs name (snd item) nanos ls) items (snd out))
      rounds (stat_rounds gs rc h s name lname rounds).
  Proof.
    induction rounds as [|[[snap items] nanos] r IH]; intros h s F; cbn [stat_rounds]; [constructor|].
    unfold stat_round. destruct (sort_slice_full h s base F) as (F1 & Ec & Ll & Oth).
    pose proof (per_item_spec name lname nanos base items (sort_slice gs h s) s F1) as [G1 G2].
    destruct (per_item gs rc (sort_slice gs h s) s name lname items nanos) as [txts h2]. cbn [fst snd] in *.
    constructor; [|apply IH; auto]. cbn [fst snd]. split; auto.
    exists (content (sort_slice gs h s) s). split; auto. apply F1.
  Qed.

  Lemma base3_full hostname component name :
    let (h, s) := base3 hostname component name in full h s (NewLabels hostname component name).
  Proof. unfold base3, new_slice, full, content. cbn. split; [lia|]. split; auto. Qed.

  Lemma base_writer_full hostname name addr port db : rc 6 = 6 ->
    let (h, s) := base_writer rc hostname name addr port db in
    full h s (NewLabels hostname (lit "writer") name ++
      [(lit "influxdb_address", addr); (lit "influxdb_port", port); (lit "influxdb_dbname", db)]).
  Proof.
    intros R. unfold base_writer, new_slice. unfold With at 1. cbn [ls_arr ls_len length nth Nat.ltb Nat.leb app].
    change (Nat.max (3 + 1) (2 * 3)) with 6. change (length (NewLabels hostname (lit "writer") name)) with 3.
    cbn [Nat.max Nat.add Nat.mul]. rewrite R. cbv -[lit]. split; [repeat constructor|]. split; [reflexivity|apply Permutation_refl].
  Qed.

  (** The statisticians of the filter, the downsampler and the writer. *)
  Lemma component_rounds hostname component name cname lname rounds :
    let (h, s) := base3 hostname component name in
    Forall2 (labelled_round gs (NewLabels hostname component name) cname lname) rounds (stat_rounds gs rc h s cname lname rounds).
  Proof.
    pose proof (base3_full hostname component name) as F. destruct (base3 hostname component name) as [h s].
    pose proof (rounds_spec cname lname _ rounds h s F) as G.
    exact G.
  Qed.

  Lemma writer_rounds hostname name addr port db cname lname rounds : rc 6 = 6 ->
    let (h, s) := base_writer rc hostname name addr port db in
    Forall2 (labelled_round gs (NewLabels hostname (lit "writer") name ++
      [(lit "influxdb_address", addr); (lit "influxdb_port", port); (lit "influxdb_dbname", db)]) cname lname)
      rounds (stat_rounds gs rc h s cname lname rounds).
  Proof.
    intros R. pose proof (base_writer_full hostname name addr port db R) as F. destruct (base_writer rc hostname name addr port db) as [h s].
    pose proof (rounds_spec cname lname _ rounds h s F) as G.
    exact G.
  Qed.
End Snapshot.

(** ** Crashes *)

Lemma message_panic gs set data order : mon_step gs set (EMsg data order) = None <->
  exists lines a l b, message_lines data lines /\ lines = a ++ l :: b /\
    Forall (fun l => exists e, reads l e) a /\ truncated l.
Proof.
  cbn [mon_step]. pose proof (ParseMetrics_panic gs data) as P. split.
  - intros H. destruct (ParseMetrics gs data); try discriminate. destruct (proj1 P eq_refl) as (lines & a & l & b & H1 & H2 & H3 & H4).
    exists lines, a, l, b. split; auto. split; auto. split; auto. apply ParseMetric_panic. auto.
  - intros (lines & a & l & b & H1 & H2 & H3 & H4). rewrite (proj2 P); auto.
    exists lines, a, l, b. split; auto. split; auto. split; auto. apply ParseMetric_panic. auto.
Qed.

Lemma no_brace_no_panic line : ~ In lbrace line -> ParseMetric line <> MPanic.
Proof.
  intros N E. apply ParseMetric_panic in E. destruct E as (_ & name & t & -> & _). apply N. apply in_app_iff. right; left; auto.
Qed.

Lemma run_crash gs : forall evs set, mon_run gs set evs = None ->
  exists data order lines l, In (EMsg data order) evs /\ message_lines data lines /\ In l lines /\ truncated l.
Proof.
  induction evs as [|e evs IH]; intros set H; cbn [mon_run] in H; [discriminate|].
  destruct (mon_step gs set e) as [[set' o]|] eqn:E.
  - destruct (mon_run gs set' evs) as [[s' o']|] eqn:E'; [discriminate|].
    destruct (IH _ E') as (data & order & lines & l & H1 & H2). exists data, order, lines, l. split; [right; auto|auto].
  - destruct e as [data order|].
    + apply message_panic in E. destruct E as (lines & a & l & b & M & E & _ & T).
      exists data, order, lines, l. split; [left; auto|]. split; auto. split; auto. subst lines. apply in_app_iff. right; left; auto.
    + cbn [mon_step] in E. destruct (SetToBytes gs set); discriminate.
Qed.

(** ** The right answer is determined by what was accepted *)

Lemma strict_nodup {A} (less : A -> A -> bool) (l : list A) : (forall a, less a a = false) ->
  (forall i j a b, i < j -> nth_error l i = Some a -> nth_error l j = Some b -> less a b = true) -> NoDup l.
Proof.
  intros Irr H. apply NoDup_nth_error. intros i j Hi E. destruct (Nat.lt_trichotomy i j) as [L|[L|L]]; auto; exfalso.
  - destruct (nth_error l i) as [a|] eqn:Ea; [|apply nth_error_Some in Hi; congruence].
    pose proof (H i j a a L Ea (eq_sym E)). rewrite Irr in H0. discriminate.
  - destruct (nth_error l i) as [a|] eqn:Ea; [|apply nth_error_Some in Hi; congruence].
    pose proof (H j i a a L (eq_sym E) Ea). rewrite Irr in H0. discriminate.
Qed.

Lemma right_answer_unique es a a' : right_answer es a -> right_answer es a' -> a = a'.
Proof.
  intros (s & -> & O1 & F1 & I1) (s' & -> & O2 & F2 & I2).
  set (less := fun x y : entry => bltb (identity (e_name x) (e_labels x)) (identity (e_name y) (e_labels y))).
  assert (Irr : forall x, less x x = false) by (intros; apply bltb_irrefl).
  enough (s' = s) by (subst; reflexivity).
  apply (sorted_unique less); auto.
  - apply NoDup_Permutation; [apply (strict_nodup less); auto|apply (strict_nodup less); auto|].
    rewrite Forall_forall in F1, F2. intros [n ls v ms]. split; intros H.
    + apply I2; [apply (F1 _ H)|]. apply I1; [apply (F1 _ H)|]. exact H.
    + apply I1; [apply (F2 _ H)|]. apply I2; [apply (F2 _ H)|]. exact H.
  - intros i j x y L Hx Hy. unfold less. apply bltb_asym. eauto.
Qed.

(** A history that is not answered right. *)
Definition unsorted_message : bytes := lit "t{bb=""1"",a=""22""} 7".

Lemma unsorted_says : says unsorted_message [Entry (lit "t") [(lit "bb", lit "1"); (lit "a", lit "22")] 7 0].
Proof.
  exists [unsorted_message]. split; [apply message_lines_iff; vm_compute; reflexivity|]. constructor; [|constructor].
  assert (Q : forall s : bytes, ~ In dq s -> no_eqdq s) by (intros s N p q ->; apply N; apply in_app_iff; right; right; left; reflexivity).
  split; [vm_compute; lia|]. cbn [e_name e_labels e_value e_ms].
  split; [cbn; intuition discriminate|]. split; [cbn; intuition discriminate|].
  exists (lit "{bb=""1"",a=""22""} "), (lit "7"). split; [reflexivity|]. split.
  - apply (part_some (label_item (lit "bb") (lit "1") ++ [comma] ++ label_item (lit "a") (lit "22"))).
    + constructor; [apply Q; cbn; intuition discriminate|cbn; intuition discriminate|].
      constructor; [apply Q; cbn; intuition discriminate|cbn; intuition discriminate].
    + discriminate.
  - constructor; [cbn; intuition discriminate|vm_compute; reflexivity].
Qed.

Lemma unsorted_wrong : exists set outs answer es,
  accepted [EMsg unsorted_message (fun l => l); EGet] es /\
  mon_run (@isort) [] ([EMsg unsorted_message (fun l => l); EGet] ++ [EGet]) = Some (set, outs ++ [answer]) /\
  ~ right_answer es answer.
Proof.
  assert (A : accepted [EMsg unsorted_message (fun l => l)] ([] ++ [Entry (lit "t") [(lit "bb", lit "1"); (lit "a", lit "22")] 7 0])).
  { apply (acc_valid [] [] unsorted_message (fun l => l)); [constructor|apply unsorted_says]. }
  eexists. exists [lit "t{a=""22"",bb=""1""} 7" ++ [nl]], (lit "t{a==""2"",b=""""1""} 7" ++ [nl]). eexists.
  split; [apply (acc_get [EMsg unsorted_message (fun l => l)]); exact A|].
  split; [vm_compute; reflexivity|]. intros R.
  assert (R1 : right_answer ([] ++ [Entry (lit "t") [(lit "bb", lit "1"); (lit "a", lit "22")] 7 0]) (lit "t{a=""22"",bb=""1""} 7" ++ [nl])).
  { eapply (first_answer (@isort) isort_sorts [EMsg unsorted_message (fun l => l)] _ _ []); [exact A| | | |].
    - intros d o [H|[]]. inversion H; subst. intros; apply Permutation_refl.
    - vm_compute. reflexivity.
    - reflexivity.
    - constructor; [|constructor]. cbn. repeat constructor; cbn; intuition discriminate. }
  pose proof (right_answer_unique _ _ _ R R1) as E. vm_compute in E. discriminate.
Qed.
