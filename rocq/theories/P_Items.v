(** C75: per-rule (filter) and per-subject (downsampler) counters as the monitor serves them.
    Code: filter/filter.go:120-175 (startStatistician), downsampler/downsampler.go:118-150, stats, prometheus, monitor/monitor.go:100-190. *)
From Verif Require Import Base Convert NumSpec NumProofs Prom RulesSpec RulesProofs PromSpec PromParse PromProofs PromMonitor PromTop PromStats LinesSpec ItemStats.
Local Open Scope Z_scope.

(** The English property, for one deployment of one component: once all messages of all its statistics rounds have been
    received, a GET on the monitor shows, for every item (rule, subject) of the last round, a line with that item's label
    and that item's count. *)
Definition every_item_shown (gs : forall A : Type, (A -> A -> bool) -> list A -> list A) (rc : nat -> nat)
    (hostname component name cname lname : bytes) (rounds : list (list (bytes * Z) * list (bytes * Z) * Z))
    (snap items : list (bytes * Z)) (nanos : Z) : Prop :=
  forall evs : list (bytes * (list metric -> list metric)),
  (let (h, s) := base3 hostname component name in
   map fst evs = round_messages (stat_rounds gs rc h s cname lname (rounds ++ [(snap, items, nanos)]))) ->
  (forall d (o : list metric -> list metric), In (d, o) evs -> forall l, Permutation l (o l)) ->
  exists set answer, mon_run gs [] (map (fun e => EMsg (fst e) (snd e)) evs ++ [EGet]) = Some (set, [answer]) /\
    forall s v, In (s, v) items -> exists ls' pre post,
      ordered_labels [(lit "component", component); (lit "name", name); (lit "host", hostname); (lname, s)] ls' /\
      nl_ended pre /\ answer = pre ++ served_line cname ls' v (Z.max 0 (Z.quot nanos 1000000)) ++ nl :: post.

Lemma last_occurrence (items : list (bytes * Z)) s v : In (s, v) items ->
  exists i1 v' i2, items = i1 ++ (s, v') :: i2 /\ ~ In s (map fst i2).
Proof.
  induction items as [|[s0 v0] items IH]; [intros []|]. intros I0.
  destruct (in_dec (list_eq_dec Ascii.ascii_dec) s (map fst items)) as [X|X].
  - apply in_map_iff in X. destruct X as ([s1 v1] & E & X). cbn [fst] in E. subst s1.
    assert (Y : exists i1 v' i2, items = i1 ++ (s, v') :: i2 /\ ~ In s (map fst i2)).
    { clear - X. revert v1 X. induction items as [|[s0 v0] items IH]; intros v1 X; [destruct X|].
      destruct (in_dec (list_eq_dec Ascii.ascii_dec) s (map fst items)) as [Z0|Z0].
      - apply in_map_iff in Z0. destruct Z0 as ([s2 v2] & E & Z0). cbn [fst] in E. subst s2. destruct (IH v2 Z0) as (a & v' & b & -> & N).
        exists ((s0, v0) :: a), v', b. auto.
      - destruct X as [X|X]; [injection X as -> ->; exists [], v1, items; auto|].
        exfalso. apply Z0. apply in_map_iff. exists (s, v1). auto. }
    destruct Y as (a & v' & b & -> & N). exists ((s0, v0) :: a), v', b. auto.
  - destruct I0 as [I0|I0]; [injection I0 as -> ->; exists [], v, items; auto|].
    exfalso. apply X. apply in_map_iff. exists (s, v). auto.
Qed.

(** Proved, exactly: for every history of rounds with plain names it holds if and only if the items of the last round that
    share a label share their count (in particular when all labels differ: distinct subjects of the filter's rules). *)
Theorem C75_shown_iff_partial : forall gs, sorts gs -> forall rc hostname component name cname lname rounds snap items nanos,
  (forall l, In l [component; name; hostname] -> ~ In dq l /\ ~ In nl l) -> plain_name cname ->
  ~ In lname [lit "component"; lit "name"; lit "host"] ->
  Forall (round_ok lname) (rounds ++ [(snap, items, nanos)]) ->
  (every_item_shown gs rc hostname component name cname lname rounds snap items nanos <->
   forall s v v', In (s, v) items -> In (s, v') items -> v = v').
Proof.
  intros gs Hs rc hostname component name cname lname rounds snap items nanos P1 P2 P3 O. split.
  - intros H.
    assert (G : exists evs : list (bytes * (list metric -> list metric)),
      (let (h, s) := base3 hostname component name in
       map fst evs = round_messages (stat_rounds gs rc h s cname lname (rounds ++ [(snap, items, nanos)]))) /\
      (forall d (o : list metric -> list metric), In (d, o) evs -> forall l, Permutation l (o l))).
    { destruct (base3 hostname component name) as [h s].
      exists (map (fun d => (d, fun l : list metric => l)) (round_messages (stat_rounds gs rc h s cname lname (rounds ++ [(snap, items, nanos)])))).
      split; [rewrite map_map; cbn [fst]; apply map_id|]. intros d o I l. apply in_map_iff in I. destruct I as (x & E & _). injection E as _ <-. apply Permutation_refl. }
    destruct G as (evs & Em & Ho). specialize (H evs Em Ho). destruct H as (set & answer & R & H).
    destruct (three_items_visible gs Hs rc hostname component name cname lname rounds snap items nanos evs P1 P2 P3 O Em Ho) as (set' & answer' & es & R' & _ & V).
    assert (answer' = answer) by (rewrite R in R'; injection R' as _ <-; reflexivity). subst answer'.
    assert (I64 : forall s v, In (s, v) items -> int64 v).
    { intros s v I. apply Forall_app in O. destruct O as [_ O]. inversion O as [|? ? O1 _]; subst. destruct O1 as (_ & _ & _ & O4). rewrite Forall_forall in O4. apply (O4 (s, v) I). }
    assert (One : forall s v, In (s, v) items -> exists v', (exists i1 i2, items = i1 ++ (s, v') :: i2 /\ ~ In s (map fst i2)) /\ v = v').
    { intros s v I. destruct (last_occurrence items s v I) as (i1 & v' & i2 & E & N). exists v'. split; [eauto|].
      destruct (V i1 s v' i2 E N) as (ls' & Ol & _ & _ & U). destruct (H s v I) as (ls2 & pre & post & O2 & Np & A).
      assert (ls2 = ls').
      { apply increasing_unique; [apply O2|apply Ol|]. eapply Permutation_trans; [apply Permutation_sym; apply O2|apply Ol]. }
      subst ls2. set (ms := Z.max 0 (Z.quot nanos 1000000)) in *.
      assert (Ne : ls' <> []) by (intros ->; destruct O2 as [Q _]; apply Permutation_sym, Permutation_nil in Q; discriminate).
      assert (Sv : forall w, served_line cname ls' w ms = identity cname ls' ++ sp :: FormatInt w ++ (if 0 <? ms then [sp] ++ FormatInt ms else [])).
      { intros w. unfold served_line. destruct ls'; [congruence|reflexivity]. }
      assert (Nx : ~ In nl (FormatInt v ++ (if 0 <? ms then [sp] ++ FormatInt ms else []))).
      { rewrite in_app_iff. intros [X|X]; [exact (format_no_nl _ X)|]. destruct (0 <? ms); [|exact X]. apply in_app_or in X. destruct X as [[X|[]]|X]; [discriminate|exact (format_no_nl _ X)]. }
      rewrite (Sv v), <- app_assoc in A. cbn [app] in A. pose proof (U pre _ post Np Nx A) as E2. rewrite (Sv v') in E2. apply app_inv_head in E2. injection E2 as E2.
      apply app_inv_tail in E2. apply (f_equal ToInt) in E2. rewrite !ToInt_FormatInt in E2 by (first [eapply I64; exact I|apply (I64 s); rewrite E; apply in_or_app; right; left; reflexivity]).
      injection E2 as E2. exact E2. }
    intros s v v' I1 I2. destruct (One s v I1) as (w & (a & b & E & N) & ->), (One s v' I2) as (w' & (a' & b' & E' & N') & ->).
    rewrite E in E'. clear - E' N N'. revert a' E'. induction a as [|y a IH]; intros [|z a'] E'; cbn [app] in E'; injection E' as E1 E2.
    + congruence.
    + exfalso. apply N. rewrite E2, map_app. apply in_or_app. right. left. reflexivity.
    + exfalso. apply N'. rewrite <- E2, map_app. apply in_or_app. right. left. reflexivity.
    + eapply IH; eauto.
  - intros C evs Em Ho.
    destruct (three_items_visible gs Hs rc hostname component name cname lname rounds snap items nanos evs P1 P2 P3 O Em Ho)
      as (set & answer & es & R & _ & H).
    exists set, answer. split; [exact R|]. intros s v I. destruct (last_occurrence items s v I) as (i1 & v' & i2 & E & N).
    assert (v = v') by (apply (C s v v' I); rewrite E; apply in_or_app; right; left; reflexivity). subst v'.
    destruct (H i1 s v i2 E N) as (ls' & O1 & _ & (pre & post & A & B) & _). exists ls', pre, post. auto.
Qed.
Print Assumptions C75_shown_iff_partial.

(** In all cases: of the items with the same label, the last one's count is shown, in the only line with these labels. *)
Theorem C75_last_shown : forall gs, sorts gs -> forall rc hostname component name cname lname rounds snap items nanos evs,
  (forall l, In l [component; name; hostname] -> ~ In dq l /\ ~ In nl l) -> plain_name cname ->
  ~ In lname [lit "component"; lit "name"; lit "host"] ->
  Forall (round_ok lname) (rounds ++ [(snap, items, nanos)]) ->
  (let (h, s) := base3 hostname component name in
   map fst evs = round_messages (stat_rounds gs rc h s cname lname (rounds ++ [(snap, items, nanos)]))) ->
  (forall d (o : list metric -> list metric), In (d, o) evs -> forall l, Permutation l (o l)) ->
  exists set answer, mon_run gs [] (map (fun e => EMsg (fst e) (snd e)) evs ++ [EGet]) = Some (set, [answer]) /\
    forall i1 s v i2, items = i1 ++ (s, v) :: i2 -> ~ In s (map fst i2) -> exists ls',
      ordered_labels [(lit "component", component); (lit "name", name); (lit "host", hostname); (lname, s)] ls' /\
      (exists pre post, nl_ended pre /\ answer = pre ++ served_line cname ls' v (Z.max 0 (Z.quot nanos 1000000)) ++ nl :: post) /\
      (forall pre x post, nl_ended pre -> ~ In nl x -> answer = pre ++ identity cname ls' ++ sp :: x ++ nl :: post ->
         identity cname ls' ++ sp :: x = served_line cname ls' v (Z.max 0 (Z.quot nanos 1000000))).
Proof.
  intros gs Hs rc hostname component name cname lname rounds snap items nanos evs P1 P2 P3 O Em Ho.
  destruct (three_items_visible gs Hs rc hostname component name cname lname rounds snap items nanos evs P1 P2 P3 O Em Ho) as (set & answer & es & R & _ & H).
  exists set, answer. split; [exact R|]. intros i1 s v i2 E N. destruct (H i1 s v i2 E N) as (ls' & A & _ & B & C). eauto.
Qed.
Print Assumptions C75_last_shown.

(** Two rules with one subject, triggered 4 and 5 times: everything else as above. *)
Definition twice : list (bytes * Z) := [(lit "r1", 4); (lit "r1", 5)].

Theorem C75_refuted : 
  ~ every_item_shown (@isort) (fun n => n) (lit "h") (lit "filter") (lit "p") (lit "triggered") (lit "rule") [] [(lit "passed", 9)] twice 1000000.
Proof.
  intros H.
  remember (let (h, s) := base3 (lit "h") (lit "filter") (lit "p") in
    round_messages (stat_rounds (@isort) (fun n => n) h s (lit "triggered") (lit "rule") [([(lit "passed", 9)], twice, 1000000)])) as msgs eqn:Em.
  destruct (H (map (fun d => (d, fun l : list metric => l)) msgs)) as (set & answer & R & S4).
  - subst msgs. rewrite map_map. cbn [fst]. rewrite map_id. reflexivity.
  - intros d o I l. apply in_map_iff in I. destruct I as (x & E & _). inversion E. apply Permutation_refl.
  - assert (A : Some answer = option_map (fun r => hd [] (snd r)) (mon_run (@isort) [] (map (fun e => EMsg (fst e) (snd e)) (map (fun d => (d, fun l : list metric => l)) msgs) ++ [EGet])))
      by (rewrite R; reflexivity).
    clear R H. subst msgs. vm_compute in A. injection A as ->.
    destruct (S4 (lit "r1") 4 (or_introl eq_refl)) as (ls' & pre & post & _ & _ & E). clear S4.
    (* the digit 4 is nowhere in the answer *)
    match type of E with ?a = _ => assert (I : In "4"%char a) end.
    { rewrite E. apply in_or_app. right. apply in_or_app. left. unfold served_line. apply in_or_app. right. right. left. reflexivity. }
    clear E. cbv [In] in I. repeat (destruct I as [I|I]; [discriminate I|]). exact I.
Qed.
Print Assumptions C75_refuted.

(** What the monitor answers in that case: one line for both rules. *)
Example C75_lost : exists set, 
  (let (h, s) := base3 (lit "h") (lit "filter") (lit "p") in
   mon_run (@isort) [] (map (fun d => EMsg d (fun l => l)) (round_messages
     (stat_rounds (@isort) (fun n => n) h s (lit "triggered") (lit "rule") [([(lit "passed", 9)], twice, 1000000)])) ++ [EGet])) =
  Some (set, [lit "passed{component=""filter"",host=""h"",name=""p""} 9 1" ++ [nl] ++
              lit "triggered{component=""filter"",host=""h"",name=""p"",rule=""r1""} 5 1" ++ [nl]]).
Proof. vm_compute. eexists. reflexivity. Qed.

(** Two rules with two subjects over two rounds: the hypotheses of C75_shown_iff_partial are met, and the labels differ. *)
Example C75_case : every_item_shown (@isort) (fun n => n) (lit "h") (lit "filter") (lit "p") (lit "triggered") (lit "rule")
  [([(lit "passed", 1)], [(lit "r1", 1); (lit "r2", 0)], 1000000)] [(lit "passed", 9)] [(lit "r1", 4); (lit "r2", 5)] 2000000.
Proof.
  assert (Q : forall s : bytes, ~ In dq s -> no_eqdq s) by (intros s0 N p q ->; apply N; apply in_app_iff; right; right; left; reflexivity).
  assert (L : forall s : bytes, ~ In dq s -> ~ In nl s -> plain_label (lit "rule", s)).
  { intros s A B. split; [apply Q; cbn; intuition discriminate|]. split; [cbn; intuition discriminate|]. split; [discriminate|auto]. }
  assert (R : forall z : Z, 0 <= z < 1000000000 -> int64 z) by (intros z Hz; unfold int64, minInt64, maxInt64, two63; lia).
  apply C75_shown_iff_partial.
  - exact isort_sorts.
  - intros l [<-|[<-|[<-|[]]]]; split; cbn; intuition discriminate.
  - repeat split; try discriminate; cbn; intuition discriminate.
  - cbn; intuition discriminate.
  - assert (P : plain_name (lit "passed")) by (repeat split; try discriminate; cbn; intuition discriminate).
    assert (L1 : plain_label (lit "rule", lit "r1")) by (apply L; cbn; intuition discriminate).
    assert (L2 : plain_label (lit "rule", lit "r2")) by (apply L; cbn; intuition discriminate).
    assert (N : NoDup [lit "passed"]) by (constructor; [intros []|constructor]).
    cbn [app]. constructor; [|constructor; [|constructor]]; (split; [exact N|]); (split; [constructor; [exact P|constructor]|]);
      (split; [apply R; lia|]); (constructor; [split; [exact L1|apply R; cbn; lia]|constructor; [split; [exact L2|apply R; cbn; lia]|constructor]]).
  - intros s v v' [E|[E|[]]] [E'|[E'|[]]]; injection E as <- <-; first [discriminate E'|injection E' as <-; reflexivity].
Qed.
