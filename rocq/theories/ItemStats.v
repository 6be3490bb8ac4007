(** From the per-rule and per-subject counters of a component to the lines served by the monitor. *)
From Verif Require Import Base Convert NumSpec NumProofs Prom RulesSpec RulesProofs PromSpec PromParse PromProofs PromMonitor PromTop PromStats LinesSpec Url.
Local Open Scope Z_scope.

(** A round that can be reported: plain names and labels, numbers and time in range. *)
Definition round_ok (lname : bytes) (round : list (bytes * Z) * list (bytes * Z) * Z) : Prop :=
  let '(snap, items, nanos) := round in
  NoDup (map fst snap) /\ Forall (fun c : bytes * Z => plain_name (fst c)) snap /\ int64 nanos /\
  Forall (fun i : bytes * Z => plain_label (lname, fst i) /\ int64 (snd i)) items.

(** The messages of some rounds, in order. *)
Definition round_messages (outs : list (bytes * list bytes)) : list bytes := flat_map (fun o => fst o :: snd o) outs.

(** ** Lines of an answer *)

Lemma concat_lines Ls : Forall (fun l => ~ In nl l) Ls -> lines_of (concat (map (fun l => l ++ [nl]) Ls)) = map (fun l => l ++ [nl]) Ls.
Proof.
  induction 1 as [|l Ls N F IH]; [reflexivity|]. cbn [map concat]. rewrite <- app_assoc. cbn [app]. rewrite lines_of_nl_app by exact N. rewrite IH. reflexivity.
Qed.

Lemma line_in Ls pre y post : Forall (fun l => ~ In nl l) Ls -> nl_ended pre -> ~ In nl y ->
  concat (map (fun l => l ++ [nl]) Ls) = pre ++ y ++ nl :: post -> In y Ls.
Proof.
  intros F Hp Hy E. apply (f_equal lines_of) in E. rewrite (concat_lines _ F), (lines_of_app _ _ Hp), (lines_of_nl_app _ _ Hy) in E.
  assert (I : In (y ++ [nl]) (map (fun l => l ++ [nl]) Ls)) by (rewrite E; apply in_or_app; right; left; reflexivity).
  apply in_map_iff in I. destruct I as (l & El & I). apply app_inj_tail in El. destruct El as [-> _]. exact I.
Qed.

Lemma format_no_nl v : ~ In nl (FormatInt v).
Proof. intros I. apply FormatInt_plain in I. destruct I as [[A B]|I]; [vm_compute in A; congruence|discriminate]. Qed.

Lemma join_no_nl ls : Forall plain_label ls -> ~ In nl (join_labels ls).
Proof.
  intros F I. induction F as [|[n v] ls (P1 & P2 & P3 & P4 & P5) F IH]; [exact I|]. cbn [fst snd] in *.
  assert (X : ~ In nl (label_item n v)).
  { unfold label_item. rewrite !in_app_iff. cbn [In]. intuition discriminate. }
  destruct ls as [|l ls]; cbn [join_labels] in I; [exact (X I)|].
  rewrite !in_app_iff in I. destruct I as [I|[I|I]]; [exact (X I)|destruct I as [I|[]]; discriminate|exact (IH I)].
Qed.

Lemma served_no_nl n ls v ms : ~ In nl n -> Forall plain_label ls -> ~ In nl (served_line n ls v ms).
Proof.
  intros N F. unfold served_line, identity. pose proof (join_no_nl ls F) as J. pose proof (format_no_nl v). pose proof (format_no_nl ms).
  rewrite !in_app_iff. intros [I|[I|[I|I]]]; [|destruct I as [I|[]]; discriminate|contradiction|].
  - destruct ls; [contradiction|]. rewrite !in_app_iff in I. destruct I as [I|[I|[I|I]]]; try contradiction; destruct I as [I|[]]; discriminate.
  - destruct (0 <? ms); [|destruct I]. apply in_app_or in I. destruct I as [[I|[]]|I]; [discriminate|contradiction].
Qed.

(** The identity at the head of a line determines name and labels. *)
Lemma identity_prefix n ls n' ls' x x' : ~ In lbrace n -> ~ In lbrace n' -> Forall ok_label ls -> Forall ok_label ls' -> ls <> [] -> ls' <> [] ->
  identity n ls ++ x = identity n' ls' ++ x' -> n = n' /\ ls = ls' /\ x = x'.
Proof.
  unfold identity. intros N N' F F' Q Q' E. rewrite <- !app_assoc in E. cbn [app] in E. apply split_sep in E; [|exact N|exact N']. destruct E as [-> E].
  
  pose proof (label_items_join _ Q F) as L. pose proof (label_items_join _ Q' F') as L'.
  set (k := S (length (join_labels ls) + length (join_labels ls'))).
  pose proof (labels_complete _ _ L k [] [] (rbrace :: x) 0%nat 0%nat [] eq_refl eq_refl ltac:(unfold k; lia)) as X.
  pose proof (labels_complete _ _ L' k [] [] (rbrace :: x') 0%nat 0%nat [] eq_refl eq_refl ltac:(unfold k; lia)) as Y.
  cbv zeta in X, Y. destruct (X eq_refl) as (vs & E1 & M1 & _), (Y eq_refl) as (vs' & E2 & M2 & _). cbn [app] in *.
  rewrite E in E1, M1. rewrite E2 in E1. injection E1 as E3 E4. subst vs'.
  assert (ls = ls') by congruence. subst ls'. split; [reflexivity|]. split; [reflexivity|].
  apply app_inv_head in E. injection E as E. exact E.
Qed.

Lemma plain_ok l : plain_label l -> ok_label l.
Proof. intros (P1 & P2 & P3 & P4 & P5). split; assumption. Qed.

(** The entries of reasonable reports are plain. *)
Lemma reported_plain r es e : report_ok r -> reported r es -> In e es -> plain_name (e_name e) /\ Forall plain_label (e_labels e).
Proof.
  destruct r as [counters nanos ls|name v nanos ls]; cbn [report_ok reported].
  - intros (_ & P & L & _) (ls' & [Q _] & Pe) I. apply (Permutation_in _ Pe) in I. apply in_map_iff in I. destruct I as (c & <- & I). cbn [e_name e_labels].
    rewrite Forall_forall in P. split; [apply P; exact I|]. eapply Permutation_Forall; [exact Q|exact L].
  - intros (P & L & _) (ls' & [Q _] & ->) [<-|[]]. cbn [e_name e_labels]. split; [exact P|]. eapply Permutation_Forall; [exact Q|exact L].
Qed.

Lemma reports_plain reps ess e : Forall report_ok reps -> Forall2 reported reps ess -> In e (concat ess) -> plain_name (e_name e) /\ Forall plain_label (e_labels e).
Proof.
  intros O F. revert O. induction F as [|r es reps ess R F IH]; intros O I; [destruct I|]. inversion O as [|? ? O1 O2]; subst.
  cbn [concat] in I. apply in_app_or in I. destruct I as [I|I]; [eapply reported_plain; eauto|auto].
Qed.

(** In a right answer about plain entries, the line that begins with a metric's identity is that of its latest entry. *)
Lemma answer_line es answer n ls v ms : (forall e, In e es -> plain_name (e_name e) /\ Forall plain_label (e_labels e)) ->
  right_answer es answer -> increasing ls -> ls <> [] -> latest es n ls v ms ->
  (exists pre post, nl_ended pre /\ answer = pre ++ served_line n ls v ms ++ nl :: post) /\
  (forall pre x post, nl_ended pre -> ~ In nl x -> answer = pre ++ identity n ls ++ sp :: x ++ nl :: post -> identity n ls ++ sp :: x = served_line n ls v ms).
Proof.
  intros Pl (served & -> & Ord & Inc & Hin) Li Ln La.
  assert (Ps : forall e, In e served -> plain_name (e_name e) /\ Forall plain_label (e_labels e)).
  { intros [n0 ls0 v0 ms0] I. cbn [e_name e_labels]. rewrite Forall_forall in Inc. specialize (Inc _ I). cbn [e_labels] in Inc.
    apply (Hin _ _ _ _ Inc) in I. destruct I as (a & e & b & -> & <- & Q & _). destruct (Pl e) as [P1 P2]; [apply in_or_app; right; left; reflexivity|].
    split; [exact P1|]. eapply Permutation_Forall; eauto. }
  assert (Pn : plain_name n /\ Forall plain_label ls).
  { destruct La as (a & e & b & -> & <- & Q & _). destruct (Pl e) as [P1 P2]; [apply in_or_app; right; left; reflexivity|].
    split; [exact P1|]. eapply Permutation_Forall; eauto. }
  pose proof (proj2 (Hin _ _ _ _ Li) La) as I. split.
  - apply in_split in I. destruct I as (s1 & s2 & ->).
    rewrite map_app, concat_app. cbn [map concat e_name e_labels e_value e_ms].
    eexists. eexists. split; [|rewrite <- app_assoc; cbn [app]; reflexivity].
    apply nl_ended_concat. apply Forall_forall. intros l Hl. apply in_map_iff in Hl. destruct Hl as (e & <- & _). right. eexists. reflexivity.
  - intros pre x post Hp Hx E. destruct Pn as [Pn Pls].
    assert (Y : In (identity n ls ++ sp :: x) (map (fun e => served_line (e_name e) (e_labels e) (e_value e) (e_ms e)) served)).
    { eapply line_in with (pre := pre) (post := post); [|exact Hp| |].
      - apply Forall_forall. intros l Hl. apply in_map_iff in Hl. destruct Hl as (e & <- & He). destruct (Ps e He) as [Q1 Q2]. apply served_no_nl; [apply Q1|exact Q2].
      - unfold identity. pose proof (join_no_nl ls Pls) as J. destruct Pn as (N1 & N2 & N3 & N4). rewrite !in_app_iff. cbn [In]. intuition discriminate.
      - rewrite map_map. rewrite <- app_assoc. cbn [app]. exact E. }
    apply in_map_iff in Y. destruct Y as ([n0 ls0 v0 ms0] & Ee & He). cbn [e_name e_labels e_value e_ms] in *.
    destruct (Ps _ He) as [Q1 Q2]. cbn [e_name e_labels] in *. destruct ls0 as [|l0 r0].
    + exfalso. unfold served_line, identity in Ee. cbn [app] in Ee. rewrite <- app_assoc in Ee. cbn [app] in Ee.
      destruct Q1 as (_ & A1 & A2 & _), Pn as (_ & B1 & B2 & _). clear - Ee A1 A2 B1 B2.
      revert n Ee B1 B2. induction n0 as [|c n0 IH]; intros [|d n] Ee B1 B2; cbn [app] in Ee; injection Ee as E1 E2; try discriminate.
      * apply B1. left. symmetry. exact E1.
      * apply A2. left. exact E1.
      * apply (IH (fun H => A1 (or_intror H)) (fun H => A2 (or_intror H)) n E2 (fun H => B1 (or_intror H)) (fun H => B2 (or_intror H))).
    + assert (Ee' : identity n0 (l0 :: r0) ++ sp :: FormatInt v0 ++ (if 0 <? ms0 then [sp] ++ FormatInt ms0 else []) = identity n ls ++ sp :: x) by exact Ee.
      apply identity_prefix in Ee'; [|apply Q1|apply Pn|eapply Forall_impl; [intros; apply plain_ok; eassumption|exact Q2]|eapply Forall_impl; [intros; apply plain_ok; eassumption|exact Pls]|discriminate|exact Ln].
      destruct Ee' as (-> & <- & Ex). injection Ex as <-.
      rewrite Forall_forall in Inc. specialize (Inc _ He). cbn [e_labels] in Inc.
      apply (Hin _ _ _ _ Inc) in He. apply (Hin _ _ _ _ Li) in I.
      assert (U : v0 = v /\ ms0 = ms).
      { destruct La as (a1 & e1 & b1 & E1 & F1 & G1 & <- & <- & H1), He as (a2 & e2 & b2 & E2 & F2 & G2 & <- & <- & H2).
        rewrite E1 in E2. clear - E2 F1 G1 H1 F2 G2 H2. revert a2 E2. induction a1 as [|y a1 IH]; intros [|z a2] E2; cbn [app] in E2; injection E2 as E3 E4.
        - subst. auto.
        - exfalso. subst b1. rewrite Forall_forall in H1. apply (H1 e2); [apply in_or_app; right; left; reflexivity|auto].
        - exfalso. subst b2. rewrite Forall_forall in H2. apply (H2 e1); [apply in_or_app; right; left; reflexivity|auto].
        - eapply IH; eauto. }
      destruct U as [-> ->]. unfold served_line. reflexivity.
Qed.

Section S.
  Variable gs : forall A : Type, (A -> A -> bool) -> list A -> list A.
  Hypothesis Hs : sorts gs.
  Variables (base : list (bytes * bytes)) (cname lname : bytes).
  Hypothesis Hbase : Forall plain_label base.
  Hypothesis Hnd : NoDup (map fst base).
  Hypothesis Hl : ~ In lname (map fst base).
  Hypothesis Hc : plain_name cname.

  Definition counter_of (nanos : Z) (item : bytes * Z) (r : report) : Prop :=
    exists ls, Permutation (base ++ [(lname, fst item)]) ls /\ r = RCounter cname (snd item) nanos ls.

  Lemma labels_ok s ls : plain_label (lname, s) -> Permutation (base ++ [(lname, s)]) ls -> Forall plain_label ls /\ NoDup (map fst ls).
  Proof.
    intros P Q. split.
    - eapply Permutation_Forall; [exact Q|]. apply Forall_app. split; [auto|constructor; [auto|constructor]].
    - eapply Permutation_NoDup; [apply Permutation_map; exact Q|]. rewrite map_app. cbn [map fst].
      eapply Permutation_NoDup; [apply Permutation_cons_append|]. constructor; auto.
  Qed.

  Lemma round_reports round out : round_ok lname round -> labelled_round gs base cname lname round out ->
    exists ls0 crs, Permutation base ls0 /\ map (report_text gs) (RSnapshot (fst (fst round)) (snd round) ls0 :: crs) = fst out :: snd out /\
      Forall report_ok (RSnapshot (fst (fst round)) (snd round) ls0 :: crs) /\
      Forall2 (counter_of (snd round)) (snd (fst round)) crs.
  Proof.
    destruct round as [[snap items] nanos]. cbn [fst snd]. intros (R1 & R2 & R3 & R4) ((ls0 & P0 & E0) & F).
    assert (X : exists crs, map (report_text gs) crs = snd out /\ Forall report_ok crs /\ Forall2 (counter_of nanos) items crs).
    { clear E0 R1 R2. induction F as [|i txt items txts (ls & P & E) F IH]; [exists []; repeat constructor|].
      inversion R4 as [|? ? [Q1 Q2] R4']; subst. destruct (IH R4') as (crs & M & O & C).
      destruct (labels_ok _ _ Q1 P) as [L1 L2].
      exists (RCounter cname (snd i) nanos ls :: crs). split; [cbn [map report_text]; rewrite M; reflexivity|]. split.
      - constructor; [|auto]. repeat (split; auto).
      - constructor; [|auto]. exists ls. auto. }
    destruct X as (crs & M & O & C). exists ls0, crs. split; [auto|]. split; [cbn [map report_text]; rewrite M, <- E0; reflexivity|].
    split; [|auto]. constructor; [|auto]. cbn [report_ok]. repeat (split; auto).
    - eapply Permutation_Forall; eauto.
    - eapply Permutation_NoDup; [apply Permutation_map; exact P0|auto].
  Qed.

  Lemma rounds_reports rounds outs : Forall (round_ok lname) rounds -> Forall2 (labelled_round gs base cname lname) rounds outs ->
    exists reps, map (report_text gs) reps = round_messages outs /\ Forall report_ok reps.
  Proof.
    intros O F. induction F as [|round out rounds outs L F IH]; [exists []; split; [reflexivity|constructor]|].
    inversion O as [|? ? O1 O2]; subst. destruct (IH O2) as (reps & M & R). destruct (round_reports _ _ O1 L) as (ls0 & crs & _ & M1 & R1 & _).
    exists ((RSnapshot (fst (fst round)) (snd round) ls0 :: crs) ++ reps). split.
    - rewrite map_app, M1, M. reflexivity.
    - apply Forall_app. auto.
  Qed.

  Lemma combine_events (reps : list report) : forall evs : list (bytes * (list metric -> list metric)), map (report_text gs) reps = map fst evs ->
    exists devs : list ((report * (list metric -> list metric)) + unit),
      map (devent_event gs) devs = map (fun e => EMsg (fst e) (snd e)) evs /\
      flat_map (fun e => match e with inl (r, _) => [r] | inr _ => [] end) devs = reps /\
      forall r o, In (inl (r, o)) devs -> In r reps /\ exists d, In (d, o) evs.
  Proof.
    induction reps as [|r reps IH]; intros [|[d o] evs] E; try discriminate.
    - exists []. repeat split; try reflexivity; destruct H.
    - cbn [map fst] in E. inversion E as [[E1 E2]]. destruct (IH evs E2) as (devs & A & B & C).
      exists (inl (r, o) :: devs). split; [cbn; rewrite A; reflexivity|]. split; [cbn; rewrite B; reflexivity|].
      intros r' o' [H|H]; [inversion H; subst; split; [left; auto|eexists; left; reflexivity]|].
      destruct (C r' o' H) as (C1 & d' & C2). split; [right; auto|eexists; right; eauto].
  Qed.

  Lemma in_unordered s v ls ls' : Permutation (base ++ [(lname, s)]) ls -> ordered_labels ls ls' -> Permutation ls' v ->
    forall s', Permutation (base ++ [(lname, s')]) v -> s = s'.
  Proof.
    intros P [Q _] R s' P'.
    assert (I : In (lname, s) (base ++ [(lname, s')])).
    { eapply Permutation_in; [apply Permutation_sym; exact P'|]. eapply Permutation_in; [exact R|].
      eapply Permutation_in; [exact Q|]. eapply Permutation_in; [exact P|]. apply in_or_app. right. left. auto. }
    apply in_app_or in I. destruct I as [I|[I|[]]]; [|inversion I; auto].
    exfalso. apply Hl. apply in_map_iff. exists (lname, s). auto.
  Qed.

  Lemma items_visible rounds snap items nanos outs evs :
    Forall (round_ok lname) (rounds ++ [(snap, items, nanos)]) ->
    Forall2 (labelled_round gs base cname lname) (rounds ++ [(snap, items, nanos)]) outs ->
    map fst evs = round_messages outs -> (forall d (o : list metric -> list metric), In (d, o) evs -> forall l, Permutation l (o l)) ->
    exists set answer es, mon_run gs [] (map (fun e => EMsg (fst e) (snd e)) evs ++ [EGet]) = Some (set, [answer]) /\
      right_answer es answer /\
      forall i1 s v i2, items = i1 ++ (s, v) :: i2 -> ~ In s (map fst i2) -> exists ls', ordered_labels (base ++ [(lname, s)]) ls' /\
        latest es cname ls' v (Z.max 0 (Z.quot nanos 1000000)) /\
        (exists pre post, nl_ended pre /\ answer = pre ++ served_line cname ls' v (Z.max 0 (Z.quot nanos 1000000)) ++ nl :: post) /\
        (forall pre x post, nl_ended pre -> ~ In nl x -> answer = pre ++ identity cname ls' ++ sp :: x ++ nl :: post ->
           identity cname ls' ++ sp :: x = served_line cname ls' v (Z.max 0 (Z.quot nanos 1000000))).
  Proof.
    intros O F Em Ho. apply Forall_app in O. destruct O as [O1 O2]. inversion O2 as [|? ? O3 _]; subst.
    apply Forall2_app_inv_l in F. destruct F as (outs1 & outs2 & F1 & F2 & ->).
    inversion F2 as [|? out ? ? L F3]; subst. inversion F3; subst. clear F2 F3.
    destruct (rounds_reports _ _ O1 F1) as (reps1 & M1 & R1).
    destruct (round_reports _ _ O3 L) as (ls0 & crs & P0 & M2 & R2 & C2). cbn [fst snd] in *.
    set (reps2 := RSnapshot snap nanos ls0 :: crs) in *.
    assert (Mr : map (report_text gs) (reps1 ++ reps2) = map fst evs).
    { rewrite Em, map_app, M1, M2. unfold round_messages. rewrite flat_map_app. cbn [flat_map]. rewrite app_nil_r. reflexivity. }
    destruct (combine_events _ _ Mr) as (devs & A & B & C).
    assert (Ok : Forall report_ok (reps1 ++ reps2)) by (apply Forall_app; auto).
    destruct (deployment_right gs Hs devs) as (set & outs & answer & ess & Rn & Rp & Ra).
    { intros r o I. destruct (C r o I) as (C1 & d & C3). split; [|eapply Ho; eauto]. rewrite Forall_forall in Ok. auto. }
    rewrite B in Rp. rewrite map_app, A in Rn. cbn [map devent_event] in Rn.
    assert (outs = []).
    { clear - Rn. destruct outs as [|x outs]; auto. exfalso.
      assert (X : forall evs set s o, mon_run gs set (map (fun e : bytes * (list metric -> list metric) => EMsg (fst e) (snd e)) evs ++ [EGet]) = Some (s, o) -> length o = 1%nat).
      { clear. induction evs as [|e evs IH]; intros set s o H.
        - cbn [map app mon_run mon_step] in H. destruct (SetToBytes gs set) as [out set']. inversion H; subst. reflexivity.
        - cbn [map app mon_run] in H. cbn [mon_step] in H. destruct (ParseMetrics gs (fst e)) as [| |new]; try discriminate.
          + destruct (mon_run gs set _) as [[s' o']|] eqn:E; [|discriminate]. inversion H; subst. cbn [app]. eapply IH; eauto.
          + match type of H with context [mon_run gs ?x ?y] => destruct (mon_run gs x y) as [[s' o']|] eqn:E end; [|discriminate].
            inversion H; subst. cbn [app]. eapply IH; eauto. }
      apply X in Rn. rewrite app_length in Rn. cbn [length] in Rn. lia. }
    subst outs. cbn [app] in Rn. exists set, answer, (concat ess). split; [exact Rn|]. split; [exact Ra|].
    intros i1 s v i2 Ei N2. subst items.
    assert (Rp0 := Rp). apply Forall2_app_inv_l in Rp. destruct Rp as (e1 & e2 & _ & Rp & ->). unfold reps2 in Rp.
    inversion Rp as [|? e0 ? e3 Rs Rp' ]; subst. apply Forall2_app_inv_l in C2. destruct C2 as (c1 & c2 & _ & C2 & ->).
    inversion C2 as [|? r ? c3 (lsr & Pr & Er) C3]; subst. cbn [fst snd] in *.
    apply Forall2_app_inv_l in Rp'. destruct Rp' as (e4 & e5 & _ & Rp' & ->). inversion Rp' as [|? e6 ? e7 Rr R7]; subst.
    destruct Rr as (ls' & Ol & Ee). subst e6. 
    assert (Ol' : ordered_labels (base ++ [(lname, s)]) ls').
    { destruct Ol as [Q1 Q2]. split; [eapply Permutation_trans; eauto|auto]. }
    exists ls'. split; [exact Ol'|].
    assert (La : latest (concat (e1 ++ e0 :: e4 ++ [Entry cname ls' v (Z.max 0 (Z.quot nanos 1000000))] :: e7)) cname ls' v (Z.max 0 (Z.quot nanos 1000000))).
    { exists (concat (e1 ++ e0 :: e4)), (Entry cname ls' v (Z.max 0 (Z.quot nanos 1000000))), (concat e7). split.
      - rewrite !concat_app. cbn [concat]. rewrite !concat_app. cbn [concat app]. rewrite <- !app_assoc. reflexivity.
      - cbn [e_name e_labels e_value e_ms]. repeat (split; [auto using Permutation_refl|]).
        apply Forall_forall. intros e He [_ Pe]. apply in_concat in He. destruct He as (x & Hx & He).
        assert (Y : exists i rr, In i i2 /\ counter_of nanos i rr /\ reported rr x).
        { clear - Hx C3 R7. revert e7 R7 Hx. induction C3 as [|i rr i2 c3 Q C3 IH]; intros e7 R7 Hx; inversion R7; subst; [destruct Hx|].
          destruct Hx as [<-|Hx]; [exists i, rr; split; [left; auto|auto]|].
          edestruct IH as (i' & r' & Hi & Q'); eauto. exists i', r'. split; [right; auto|auto]. }
        destruct Y as (i & rr & Hi & (lsi & Pi & ->) & lsi' & Oi & ->). destruct He as [<-|[]]. cbn [e_labels] in Pe.
        apply N2. apply in_map_iff. exists i. split; [|auto].
        eapply in_unordered; [exact Pi|exact Oi|exact Pe|]. apply Ol'. }
    split; [exact La|]. apply (answer_line _ _ _ _ _ _ (fun e He => reports_plain _ _ e Ok Rp0 He) Ra); [apply Ol'| |exact La].
    intros ->. destruct Ol' as [Q _]. apply Permutation_sym, Permutation_nil in Q. destruct base; discriminate.
  Qed.
End S.

(** The filter's rules, the downsampler's subjects. *)
Lemma three_items_visible gs : sorts gs -> forall rc hostname component name cname lname rounds snap items nanos evs,
  (forall l, In l [component; name; hostname] -> ~ In dq l /\ ~ In nl l) -> plain_name cname ->
  ~ In lname [lit "component"; lit "name"; lit "host"] ->
  Forall (round_ok lname) (rounds ++ [(snap, items, nanos)]) ->
  (let (h, s) := base3 hostname component name in map fst evs = round_messages (stat_rounds gs rc h s cname lname (rounds ++ [(snap, items, nanos)]))) ->
  (forall d (o : list metric -> list metric), In (d, o) evs -> forall l, Permutation l (o l)) ->
  exists set answer es, mon_run gs [] (map (fun e => EMsg (fst e) (snd e)) evs ++ [EGet]) = Some (set, [answer]) /\
    right_answer es answer /\
    forall i1 s v i2, items = i1 ++ (s, v) :: i2 -> ~ In s (map fst i2) -> exists ls',
      ordered_labels [(lit "component", component); (lit "name", name); (lit "host", hostname); (lname, s)] ls' /\
      latest es cname ls' v (Z.max 0 (Z.quot nanos 1000000)) /\
      (exists pre post, nl_ended pre /\ answer = pre ++ served_line cname ls' v (Z.max 0 (Z.quot nanos 1000000)) ++ nl :: post) /\
      (forall pre x post, nl_ended pre -> ~ In nl x -> answer = pre ++ identity cname ls' ++ sp :: x ++ nl :: post ->
         identity cname ls' ++ sp :: x = served_line cname ls' v (Z.max 0 (Z.quot nanos 1000000))).
Proof.
  intros Hs rc hostname component name cname lname rounds snap items nanos evs Pl Pc Nl O Em Ho.
  pose proof (component_rounds gs Hs rc hostname component name cname lname (rounds ++ [(snap, items, nanos)])) as F.
  destruct (base3 hostname component name) as [h s]. unfold NewLabels in F.
  refine (items_visible gs Hs _ cname lname _ _ _ Pc rounds snap items nanos _ evs O F Em Ho).
  - assert (Q : forall s : bytes, ~ In dq s -> no_eqdq s) by (intros s0 N p q ->; apply N; apply in_app_iff; right; right; left; reflexivity).
    assert (X : forall n l, In l [component; name; hostname] -> In n [lit "component"; lit "name"; lit "host"] -> plain_label (n, l)).
    { intros n l Il In_. destruct (Pl l Il). unfold plain_label. cbn [fst snd].
      destruct In_ as [<-|[<-|[<-|[]]]]; (split; [apply Q; cbn; intuition discriminate|]); split; try (cbn; intuition discriminate); split; auto; discriminate. }
    repeat constructor; apply X; cbn; auto.
  - cbn. repeat constructor; cbn; intuition discriminate.
  - cbn [map fst]. exact Nl.
Qed.
