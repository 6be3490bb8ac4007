(** What successive answers of /metrics show of counters that grow. *)
From Verif Require Import Base Convert NumSpec Prom RulesSpec RulesProofs PromSpec PromParse PromProofs PromMonitor PromTop PromStats
  Stats StatsSpec StatsProofs Reports.
Local Open Scope Z_scope.

(** A report says that metric [name] with labels [ls] (in any order) has value [v]. *)
Definition states (r : report) (name : bytes) (ls : list (bytes * bytes)) (v : Z) : Prop :=
  match r with
  | RSnapshot counters _ ls0 => In (name, v) counters /\ Permutation ls0 ls
  | RCounter n v0 _ ls0 => n = name /\ v0 = v /\ Permutation ls0 ls
  end.
(** No later report of a metric states a smaller value. *)
Definition growing (rs : list report) : Prop :=
  forall i j r r' name ls v v', (i < j)%nat -> nth_error rs i = Some r -> nth_error rs j = Some r' ->
    states r name ls v -> states r' name ls v' -> v <= v'.
(** All values fit in an int64. *)
Definition small (rs : list report) : Prop := forall r name ls v, In r rs -> states r name ls v -> 0 <= v < 2 ^ 63.

Notation event := ((report * (list metric -> list metric)) + unit)%type.
(** The reports among the events of a monitor; the others are GETs. *)
Definition reports (evs : list event) : list report := flat_map (fun e => match e with inl (r, _) => [r] | inr _ => [] end) evs.
Definition events_ok (evs : list event) : Prop := forall r o, In (inl (r, o)) evs -> report_ok r /\ forall l, Permutation l (o l).
(** The text of the metrics page with these entries. *)
Definition page (served : list entry) : bytes :=
  concat (map (fun e => served_line (e_name e) (e_labels e) (e_value e) (e_ms e) ++ [nl]) served).

Lemma wrap_small v : 0 <= v < 2 ^ 63 -> wrap64 v = v.
Proof. intros H. apply wrap64_id. unfold int64, minInt64, maxInt64, two63. change (2 ^ 63) with 9223372036854775808 in H. lia. Qed.

(** An entry of a report states its value. *)
Lemma entry_states r es e ls : reported r es -> small [r] -> In e es -> Permutation (e_labels e) ls -> states r (e_name e) ls (e_value e).
Proof.
  intros R Sm He P. destruct r as [cs nanos ls0|n v nanos ls0]; cbn [reported states] in *.
  - destruct R as (ls' & [P' _] & Pm). apply (Permutation_in _ Pm) in He. apply in_map_iff in He as ((n & v) & <- & Hi). cbn [e_name e_labels e_value fst snd] in *.
    rewrite wrap_small.
    + split; [exact Hi|]. exact (Permutation_trans P' P).
    + apply (Sm (RSnapshot cs nanos ls0) n ls0 v); [left; reflexivity|]. split; [exact Hi|apply Permutation_refl].
  - destruct R as (ls' & [P' _] & ->). destruct He as [<-|[]]. cbn [e_name e_labels e_value] in *. split; [reflexivity|]. split; [reflexivity|].
    exact (Permutation_trans P' P).
Qed.
Lemma states_once r name ls v v' : report_ok r -> states r name ls v -> states r name ls v' -> v = v'.
Proof.
  destruct r as [cs nanos ls0|n v0 nanos ls0]; cbn [report_ok states].
  - intros (ND & _) (A & _) (B & _). clear - ND A B. induction cs as [|[n0 v0] cs IH]; [destruct A|]. cbn [map fst] in ND. inversion ND as [|? ? N1 N2]; subst.
    destruct A as [A|A], B as [B|B].
    + congruence.
    + exfalso. apply N1. inversion A; subst. apply in_map_iff. exists (name, v'). auto.
    + exfalso. apply N1. inversion B; subst. apply in_map_iff. exists (name, v). auto.
    + auto.
  - intros _ (_ & A & _) (_ & B & _). congruence.
Qed.

(** Later entries of a metric are not smaller. *)
Lemma growing_tail r rs : growing (r :: rs) -> growing rs.
Proof. intros G i j a b name ls v v' L Ha Hb. apply (G (S i) (S j) a b name ls v v'); [lia|exact Ha|exact Hb]. Qed.
Lemma In_concat {A} (x : A) : forall ll, In x (concat ll) -> exists i l, nth_error ll i = Some l /\ In x l.
Proof.
  induction ll as [|l ll IH]; intros H; [destruct H|]. cbn [concat] in H. apply in_app_iff in H as [H|H].
  - exists O, l. split; [reflexivity|exact H].
  - destruct (IH H) as (i & l' & E & Hl). exists (S i), l'. split; [exact E|exact Hl].
Qed.
Lemma Forall2_nth_r {A B} (R : A -> B -> Prop) : forall l l', Forall2 R l l' -> forall i y, nth_error l' i = Some y -> exists x, nth_error l i = Some x /\ R x y.
Proof.
  induction 1 as [|x y l l' Rx F IH]; intros [|i] z Hz; cbn in Hz; try discriminate.
  - inversion Hz; subst. exists x. split; [reflexivity|exact Rx].
  - destruct (IH i z Hz) as (x' & E & R'). exists x'. split; [exact E|exact R'].
Qed.

Lemma entries_grow : forall rs ess, Forall2 reported rs ess -> Forall report_ok rs -> growing rs -> small rs ->
  forall x e y e' ls, concat ess = x ++ e :: y -> In e' y -> e_name e = e_name e' -> Permutation (e_labels e) ls -> Permutation (e_labels e') ls ->
  e_value e <= e_value e'.
Proof.
  intros rs ess F. induction F as [|r es rs ess R F IH]; intros Ok G Sm x e y e' ls E Hy Nm P P'.
  { destruct x; discriminate. }
  inversion Ok as [|? ? Okr Okrs]; subst. cbn [concat] in E.
  assert (Smr : small [r]) by (intros a n l v [<-|[]] X; apply (Sm r n l v); [left; reflexivity|exact X]).
  assert (Smrs : small rs) by (intros a n l v Ha X; apply (Sm a n l v); [right; exact Ha|exact X]).
  apply app_eq_app in E as (m & [(-> & E2)|(-> & E2)]).
  - (* es = x ++ m, e :: y = m ++ concat ess *)
    destruct m as [|e0 m]; cbn [app] in E2.
    + apply (IH Okrs (growing_tail _ _ G) Smrs [] e y e' ls); auto.
    + inversion E2; subst e0 y. assert (He : In e (x ++ e :: m)) by (apply in_app_iff; right; left; reflexivity).
      pose proof (entry_states r _ e ls R Smr He P) as S1. apply in_app_iff in Hy as [Hy|Hy].
      * assert (He' : In e' (x ++ e :: m)) by (apply in_app_iff; right; right; exact Hy).
        pose proof (entry_states r _ e' ls R Smr He' P') as S2. rewrite <- Nm in S2.
        rewrite (states_once r _ _ _ _ Okr S1 S2). lia.
      * apply In_concat in Hy as (k & l & Hk & Hl). destruct (Forall2_nth_r _ _ _ F _ _ Hk) as (r' & Hr' & R').
        assert (Smr' : small [r']) by (intros a n l0 v [<-|[]] X; apply (Smrs r' n l0 v); [apply nth_error_In in Hr'; exact Hr'|exact X]).
        pose proof (entry_states r' _ e' ls R' Smr' Hl P') as S2. rewrite <- Nm in S2.
        apply (G O (S k) r r' (e_name e) ls); auto. lia.
  - exact (IH Okrs (growing_tail _ _ G) Smrs m e y e' ls E2 Hy Nm P P').
Qed.

(** Among the entries there is a last one of every metric that occurs. *)
Lemma labels_dec (a b : list (bytes * bytes)) : {a = b} + {a <> b}.
Proof. apply list_eq_dec. intros [x y] [x' y']. destruct (list_eq_dec Ascii.ascii_dec x x') as [->|N]; [|right; congruence].
  destruct (list_eq_dec Ascii.ascii_dec y y') as [->|N]; [left; reflexivity|right; congruence]. Qed.
Lemma last_such {A} (P : A -> Prop) (dec : forall x, {P x} + {~ P x}) : forall l x, In x l -> P x ->
  exists a y b, l = a ++ y :: b /\ P y /\ Forall (fun z => ~ P z) b.
Proof.
  induction l as [|z l IH] using rev_ind; intros x Hx Px; [destruct Hx|]. destruct (dec z) as [Pz|Nz].
  - exists l, z, []. split; [reflexivity|]. split; [exact Pz|constructor].
  - apply in_app_iff in Hx as [Hx|[<-|[]]]; [|contradiction]. destruct (IH x Hx Px) as (a & y & b & -> & Py & F).
    exists a, y, (b ++ [z]). split; [rewrite <- app_assoc; reflexivity|]. split; [exact Py|]. apply Forall_app. split; [exact F|]. constructor; [exact Nz|constructor].
Qed.
Lemma last_entry name ls : increasing ls -> forall x e y, Forall (fun e => increasing (e_labels e)) (x ++ e :: y) ->
  e_name e = name -> Permutation (e_labels e) ls ->
  exists e', (e' = e \/ In e' y) /\ e_name e' = name /\ e_labels e' = ls /\ latest (x ++ e :: y) name ls (e_value e') (e_ms e').
Proof.
  intros Il x e y Fi Ne Pe. apply Forall_app in Fi as (_ & Fi).
  destruct (last_such (fun z => e_name z = name /\ e_labels z = ls)) with (l := e :: y) (x := e) as (a & e' & b & E & (H1 & H2) & F).
  - intros z. destruct (list_eq_dec Ascii.ascii_dec (e_name z) name) as [A|A]; [|right; intros [X _]; exact (A X)].
    destruct (labels_dec (e_labels z) ls) as [B|B]; [left; split; assumption|right; intros [_ X]; exact (B X)].
  - left. reflexivity.
  - split; [exact Ne|]. inversion Fi; subst. apply increasing_unique; auto.
  - exists e'. split; [|split; [exact H1|split; [exact H2|]]].
    + assert (X : In e' (e :: y)) by (rewrite E; apply in_app_iff; right; left; reflexivity). destruct X as [X|X]; [left; symmetry; exact X|right; exact X].
    + exists (x ++ a), e', b. split; [rewrite <- app_assoc; rewrite <- E; reflexivity|]. split; [exact H1|]. split; [rewrite H2; apply Permutation_refl|].
      split; [reflexivity|]. split; [reflexivity|]. rewrite E in Fi. apply Forall_app in Fi as (_ & Fi). inversion Fi as [|? ? _ Fb]; subst.
      rewrite Forall_forall in *. intros z Hz (X & Y). apply (F z Hz). split; [exact X|]. apply increasing_unique; auto.
Qed.

(** ** Two answers of one monitor *)
Lemma reports_app a b : reports (a ++ b) = reports a ++ reports b.
Proof. apply flat_map_app. Qed.
Lemma small_app a b : small (a ++ b) -> small a.
Proof. intros H r n l v Hr. apply H. apply in_app_iff. left. exact Hr. Qed.

Lemma reported_both r es es' e : reported r es -> reported r es' -> In e es -> In e es'.
Proof.
  destruct r as [cs nanos ls0|n v nanos ls0]; cbn [reported].
  - intros (l1 & [P1 I1] & Q1) (l2 & [P2 I2] & Q2) He.
    assert (l1 = l2) as -> by (apply increasing_unique; auto; exact (Permutation_trans (Permutation_sym P1) P2)).
    apply (Permutation_in _ (Permutation_sym Q2)). apply (Permutation_in _ Q1). exact He.
  - intros (l1 & [P1 I1] & ->) (l2 & [P2 I2] & ->) He.
    assert (l1 = l2) as -> by (apply increasing_unique; auto; exact (Permutation_trans (Permutation_sym P1) P2)). exact He.
Qed.
Lemma all_both : forall rs ess ess' e, Forall2 reported rs ess -> Forall2 reported rs ess' -> In e (concat ess) -> In e (concat ess').
Proof.
  intros rs ess ess' e F. revert ess'. induction F as [|r es rs ess R F IH]; intros ess' F' He; [destruct He|].
  inversion F' as [|? es' ? ess2 R' F2]; subst. cbn [concat] in *. apply in_app_iff in He as [He|He]; apply in_app_iff.
  - left. exact (reported_both r es es' e R R' He).
  - right. exact (IH ess2 F2 He).
Qed.
Lemma all_increasing rs ess : Forall2 reported rs ess -> Forall (fun e => increasing (e_labels e)) (concat ess).
Proof.
  induction 1 as [|r es rs ess R F IH]; cbn [concat]; [constructor|]. apply Forall_app. split; [eapply reported_increasing; exact R|exact IH].
Qed.
Lemma reports_In evs r : In r (reports evs) -> exists o, In (inl (r, o)) evs.
Proof.
  unfold reports. rewrite in_flat_map. intros ([[r0 o]|u] & He & Hi); cbn in Hi; [|destruct Hi]. destruct Hi as [<-|[]]. exists o. exact He.
Qed.

Lemma two_answers gs e1 e2 : sorts gs -> events_ok (e1 ++ e2) -> growing (reports (e1 ++ e2)) -> small (reports (e1 ++ e2)) ->
  exists set1 outs a1 set2 mid a2 s1 s2,
    mon_run gs [] (map (devent_event gs) (e1 ++ [inr tt])) = Some (set1, outs ++ [a1]) /\
    mon_run gs [] (map (devent_event gs) ((e1 ++ [inr tt]) ++ e2 ++ [inr tt])) = Some (set2, (outs ++ [a1]) ++ mid ++ [a2]) /\
    a1 = page s1 /\ a2 = page s2 /\
    forall name ls v ms, In (Entry name ls v ms) s1 -> exists v' ms', In (Entry name ls v' ms') s2 /\ v <= v'.
Proof.
  intros Hs Ok G Sm.
  assert (Ok1 : events_ok e1) by (intros r o Hi; apply (Ok r o); apply in_app_iff; left; exact Hi).
  destruct (deployment_right gs Hs e1 Ok1) as (set1 & outs & a1 & ess1 & M1 & F1 & R1).
  assert (Ok2 : events_ok ((e1 ++ [inr tt]) ++ e2)).
  { intros r o Hi. apply (Ok r o). rewrite !in_app_iff in *. destruct Hi as [[Hi|[Hi|[]]]|Hi]; [auto|discriminate|auto]. }
  destruct (deployment_right gs Hs ((e1 ++ [inr tt]) ++ e2) Ok2) as (set2 & outs2 & a2 & ess2 & M2 & F2 & R2).
  assert (Er : reports ((e1 ++ [inr tt]) ++ e2) = reports e1 ++ reports e2).
  { rewrite !reports_app. cbn [reports flat_map]. rewrite app_nil_r. reflexivity. }
  change (flat_map _ e1) with (reports e1) in F1. change (flat_map _ ((e1 ++ [inr tt]) ++ e2)) with (reports ((e1 ++ [inr tt]) ++ e2)) in F2.
  rewrite Er in F2. apply Forall2_app_inv_l in F2 as (ess1' & ess3 & F1' & F3 & ->).
  rewrite reports_app in G, Sm.
  assert (Okr : Forall report_ok (reports e1 ++ reports e2)).
  { rewrite <- reports_app. apply Forall_forall. intros r Hr. apply reports_In in Hr as (o & Ho). exact (proj1 (Ok r o Ho)). }
  assert (Fall : Forall2 reported (reports e1 ++ reports e2) (ess1' ++ ess3)) by (apply Forall2_app; assumption).
  destruct R1 as (s1 & P1 & _ & I1 & L1). destruct R2 as (s2 & P2 & _ & I2 & L2).
  assert (Mid : exists mid, outs2 = (outs ++ [a1]) ++ mid).
  { rewrite <- (app_assoc (e1 ++ [inr tt]) e2 [inr tt]), map_app, mon_run_app in M2. rewrite M1 in M2. rewrite map_app, mon_run_app in M2.
    destruct (mon_run gs set1 (map (devent_event gs) e2)) as [[set3 outs3]|]; [|discriminate]. cbn [map devent_event mon_run mon_step] in M2.
    destruct (SetToBytes gs set3) as [out set4]. exists outs3. inversion M2 as [[X Y]]. rewrite app_assoc in Y. apply app_inj_tail in Y as [Y _]. symmetry. exact Y. }
  destruct Mid as (mid & ->).
  exists set1, outs, a1, set2, mid, a2, s1, s2. split; [exact M1|]. split; [rewrite <- (app_assoc (e1 ++ [inr tt]) e2 [inr tt]) in M2; rewrite M2, <- !app_assoc; reflexivity|].
  split; [exact P1|]. split; [exact P2|].
  intros name ls v ms Hin. assert (Il : increasing ls) by (rewrite Forall_forall in I1; exact (I1 _ Hin)).
  apply (proj1 (L1 name ls v ms Il)) in Hin. destruct Hin as (a & e & b & Ea & Hn & Hp & Hv & Hm & _).
  assert (He : In e (concat (ess1' ++ ess3))).
  { rewrite concat_app. apply in_app_iff. left. apply (all_both _ _ _ e F1 F1'). rewrite Ea. apply in_app_iff. right. left. reflexivity. }
  apply in_split in He as (x & y & E).
  destruct (last_entry name ls Il x e y) as (e' & W & Hn' & Hl' & Lt).
  { rewrite <- E. apply (all_increasing _ _ Fall). }
  { exact Hn. }
  { exact Hp. }
  rewrite <- E in Lt. apply (proj2 (L2 name ls (e_value e') (e_ms e') Il)) in Lt.
  exists (e_value e'), (e_ms e'). split; [exact Lt|]. destruct W as [->|W]; [lia|]. rewrite <- Hv.
  apply (entries_grow _ _ Fall Okr G Sm x e y e' ls E W); [congruence|exact Hp|rewrite Hl'; apply Permutation_refl].
Qed.

(** ** The reports of a running filter *)

(** filter/filter.go:172-187: the reports of one round: the snapshot, and one counter per rule, told apart by
    the subject of the rule. *)
Definition filter_round (labels : list (bytes * bytes)) (subjects : list bytes) (nanos : Z) (snap : list (bytes * Z)) (counts : list Z) : list report :=
  RSnapshot snap nanos labels ::
  map (fun sc : bytes * Z => RCounter (lit "triggered") (wrap64 (snd sc)) nanos (labels ++ [(lit "rule", fst sc)])) (combine subjects counts).

(** A round: what happened since the end of the round before, the clock, and the numbers read. *)
Record round := mkRound { rd_log : slog; rd_nanos : Z; rd_snap : list (bytes * Z); rd_counts : list Z }.
(** The numbers were read from the counters in this round. *)
Definition read_in (rules : nat) (d : round) : Prop :=
  NoDup (map fst (rd_snap d)) /\
  Forall (fun nv : bytes * Z => In (fst nv) filter_names /\ shows (rd_log d) (fst nv) (snd nv)) (rd_snap d) /\
  Forall2 (fun i v => shows (rd_log d) (rule_stat i) v) (seq 0 rules) (rd_counts d).
Definition round_reports (labels : list (bytes * bytes)) (subjects : list bytes) (d : round) : list report :=
  filter_round labels subjects (rd_nanos d) (rd_snap d) (rd_counts d).

Lemma concat_two {A} : forall (lls : list (list A)) i j x y, (i < j)%nat -> nth_error (concat lls) i = Some x -> nth_error (concat lls) j = Some y ->
  exists k lk, nth_error lls k = Some lk /\
    ((exists i' j', (i' < j')%nat /\ nth_error lk i' = Some x /\ nth_error lk j' = Some y) \/
     (exists k' lk', (k < k')%nat /\ nth_error lls k' = Some lk' /\ In x lk /\ In y lk')).
Proof.
  induction lls as [|l lls IH]; intros i j x y Lt Hi Hj; [destruct i; discriminate|]. cbn [concat] in Hi, Hj.
  destruct (Nat.lt_ge_cases i (length l)) as [Li|Li].
  - rewrite nth_error_app1 in Hi by exact Li. exists O, l. split; [reflexivity|].
    destruct (Nat.lt_ge_cases j (length l)) as [Lj|Lj].
    + rewrite nth_error_app1 in Hj by exact Lj. left. exists i, j. auto.
    + rewrite nth_error_app2 in Hj by exact Lj. right. apply nth_error_In in Hj. apply In_concat in Hj as (k & lk & Hk & Hy).
      exists (S k), lk. split; [lia|]. split; [exact Hk|]. split; [apply nth_error_In in Hi; exact Hi|exact Hy].
  - rewrite nth_error_app2 in Hi by exact Li. rewrite nth_error_app2 in Hj by lia.
    destruct (IH (i - length l)%nat (j - length l)%nat x y ltac:(lia) Hi Hj) as (k & lk & Hk & [X|(k' & lk' & Lk & Hk' & X)]).
    + exists (S k), lk. split; [exact Hk|left; exact X].
    + exists (S k), lk. split; [exact Hk|]. right. exists (S k'), lk'. split; [lia|]. split; [exact Hk'|exact X].
Qed.
Lemma concat_split1 {A} : forall (lls : list (list A)) k lk, nth_error lls k = Some lk -> exists a b, concat lls = a ++ lk ++ b.
Proof.
  induction lls as [|l lls IH]; intros [|k] lk H; cbn in H; try discriminate.
  - inversion H; subst. exists [], (concat lls). reflexivity.
  - destruct (IH k lk H) as (a & b & E). exists (l ++ a), b. cbn [concat]. rewrite E, app_assoc. reflexivity.
Qed.
Lemma concat_split2 {A} : forall (lls : list (list A)) k k' lk lk', (k < k')%nat -> nth_error lls k = Some lk -> nth_error lls k' = Some lk' ->
  exists a m b, concat lls = a ++ lk ++ m ++ lk' ++ b.
Proof.
  induction lls as [|l lls IH]; intros [|k] [|k'] lk lk' Lt H H'; cbn in H, H'; try discriminate; try lia.
  - inversion H; subst. destruct (concat_split1 lls k' lk' H') as (a & b & E). exists [], a, b. cbn [concat app]. rewrite E. reflexivity.
  - destruct (IH k k' lk lk' ltac:(lia) H H') as (a & m & b & E). exists (l ++ a), m, b. cbn [concat]. rewrite E, app_assoc. reflexivity.
Qed.

Lemma triggered_not : ~ In (lit "triggered") filter_names.
Proof. vm_compute. intuition discriminate. Qed.

Lemma In_combine_seq {A} (f : nat -> A -> Prop) : forall (subjects : list bytes) (counts : list A) a s v, Forall2 f (seq a (length subjects)) counts -> In (s, v) (combine subjects counts) ->
  exists i, nth_error subjects i = Some s /\ f (a + i)%nat v.
Proof.
  induction subjects as [|s0 ss IH]; intros [|v0 vs] a s v F H; cbn [combine length seq] in *; try destruct H as [H|H]; try (destruct H; fail).
  - inversion H; subst. inversion F; subst. exists O. split; [reflexivity|]. rewrite Nat.add_0_r. assumption.
  - inversion F as [|? ? ? ? _ F']; subst. destruct (IH vs (S a) s v F' H) as (i & E & X). exists (S i). split; [exact E|].
    replace (a + S i)%nat with (S a + i)%nat by lia. exact X.
Qed.

(** What a report of a round states. *)
Lemma round_states labels subjects d r name ls v : read_in (length subjects) d -> (forall n x, shows (rd_log d) n x -> 0 <= x < 2 ^ 63) ->
  In r (round_reports labels subjects d) -> states r name ls v ->
  0 <= v < 2 ^ 63 /\
  ((In name filter_names /\ shows (rd_log d) name v) \/
   (name = lit "triggered" /\ exists i s, nth_error subjects i = Some s /\ Permutation (labels ++ [(lit "rule", s)]) ls /\ shows (rd_log d) (rule_stat i) v)).
Proof.
  intros (ND & Fs & Fc) Bd Hr St. destruct Hr as [<-|Hr].
  - cbn [states] in St. destruct St as (Hi & _). rewrite Forall_forall in Fs. destruct (Fs _ Hi) as (F1 & F2). cbn [fst snd] in *. split; [exact (Bd _ _ F2)|]. left. auto.
  - apply in_map_iff in Hr as ((s & x) & <- & Hi). cbn [states fst snd] in St. destruct St as (<- & <- & P).
    destruct (In_combine_seq _ subjects (rd_counts d) 0 s x Fc Hi) as (i & Es & Sh). cbn [Nat.add] in Sh.
    rewrite (wrap_small x (Bd _ _ Sh)). split; [exact (Bd _ _ Sh)|]. right. split; [reflexivity|]. exists i, s. auto.
Qed.

Lemma perm_last {A} (l l' : list A) x y : Permutation (l ++ [x]) l' -> Permutation (l ++ [y]) l' -> x = y.
Proof.
  intros P Q. assert (X : Permutation [x] [y]).
  { apply (Permutation_app_inv_l l). exact (Permutation_trans P (Permutation_sym Q)). }
  apply Permutation_length_1 in X. exact X.
Qed.

Lemma combine_In_l {A B} : forall (a : list A) (b : list B) i x, nth_error (combine a b) i = Some x -> nth_error a i = Some (fst x).
Proof.
  induction a as [|a0 a IH]; intros [|b0 b] [|i] x H; cbn in *; try discriminate.
  - inversion H. reflexivity.
  - exact (IH b i x H).
Qed.

(** Within a round, a metric occurs once. *)
Lemma round_once labels subjects d i j r r' name ls v v' : NoDup subjects -> read_in (length subjects) d ->
  nth_error (round_reports labels subjects d) i = Some r -> nth_error (round_reports labels subjects d) j = Some r' ->
  states r name ls v -> states r' name ls v' -> i = j.
Proof.
  intros Nd (ND & Fs & Fc). unfold round_reports, filter_round.
  assert (N : forall n x, In (n, x) (rd_snap d) -> n <> lit "triggered").
  { intros n x Hi ->. rewrite Forall_forall in Fs. destruct (Fs _ Hi) as (F1 & _). exact (triggered_not F1). }
  destruct i as [|i], j as [|j]; cbn [nth_error]; intros Hi Hj S1 S2.
  - reflexivity.
  - inversion Hi; subst r. rewrite nth_error_map in Hj. destruct (nth_error (combine _ _) j) as [[s x]|]; [|discriminate]. inversion Hj; subst r'.
    cbn [states] in *. exfalso. destruct S1 as (S1 & _), S2 as (<- & _). exact (N _ _ S1 eq_refl).
  - inversion Hj; subst r'. rewrite nth_error_map in Hi. destruct (nth_error (combine _ _) i) as [[s x]|]; [|discriminate]. inversion Hi; subst r.
    cbn [states] in *. exfalso. destruct S2 as (S2 & _), S1 as (<- & _). exact (N _ _ S2 eq_refl).
  - f_equal. rewrite nth_error_map in Hi, Hj. destruct (nth_error (combine _ _) i) as [[s x]|] eqn:Ei; [|discriminate]. destruct (nth_error (combine _ _) j) as [[s' x']|] eqn:Ej; [|discriminate].
    inversion Hi; subst r. inversion Hj; subst r'. cbn [states fst snd] in *. destruct S1 as (_ & _ & P), S2 as (_ & _ & P').
    assert (X := perm_last _ _ _ _ P P'). inversion X; subst s'. apply combine_In_l in Ei. apply combine_In_l in Ej. cbn [fst] in *.
    apply (proj1 (NoDup_nth_error subjects) Nd); [apply nth_error_Some; congruence|congruence].
Qed.

Lemma filter_growing gs c rounds workers names sched s labels ds :
  let subjects := map Rules.r_subject (FilterWorker.fc_rules c) in NoDup subjects ->
  uint64_args (real_filter gs c rounds workers) ->
  run names (real_filter gs c rounds workers) sched = Some (s, concat (map rd_log ds)) -> Z.of_nat (length (concat (map rd_log ds))) < 2 ^ 64 ->
  Forall (read_in (length subjects)) ds -> (forall n v, shows (concat (map rd_log ds)) n v -> 0 <= v < 2 ^ 63) ->
  growing (concat (map (round_reports labels subjects) ds)) /\ small (concat (map (round_reports labels subjects) ds)).
Proof.
  cbv zeta. set (subjects := map Rules.r_subject (FilterWorker.fc_rules c)). intros Nd U H B Rd Bd.
  assert (Bd' : forall d, In d ds -> forall n x, shows (rd_log d) n x -> 0 <= x < 2 ^ 63).
  { intros d Hd n x Sh. apply (Bd n x). unfold shows in *. apply in_concat. exists (rd_log d). split; [apply in_map; exact Hd|exact Sh]. }
  rewrite Forall_forall in Rd. split.
  - intros i j r r' name ls v v' Lt Hi Hj S1 S2.
    destruct (concat_two _ _ _ _ _ Lt Hi Hj) as (k & lk & Hk & [(i' & j' & Lt' & Hi' & Hj')|(k' & lk' & Lk & Hk' & Ix & Iy)]).
    + exfalso. rewrite nth_error_map in Hk. destruct (nth_error ds k) as [d|] eqn:Ed; [|discriminate]. inversion Hk; subst lk. apply nth_error_In in Ed.
      pose proof (round_once labels subjects d i' j' r r' name ls v v' Nd (Rd d Ed) Hi' Hj' S1 S2). lia.
    + rewrite nth_error_map in Hk, Hk'. destruct (nth_error ds k) as [d|] eqn:Ed; [|discriminate]. destruct (nth_error ds k') as [d'|] eqn:Ed'; [|discriminate].
      inversion Hk; subst lk. inversion Hk'; subst lk'.
      assert (L1 : nth_error (map rd_log ds) k = Some (rd_log d)) by (rewrite nth_error_map, Ed; reflexivity).
      assert (L2 : nth_error (map rd_log ds) k' = Some (rd_log d')) by (rewrite nth_error_map, Ed'; reflexivity).
      destruct (concat_split2 _ _ _ _ _ Lk L1 L2) as (a & m & b & E).
      apply nth_error_In in Ed. apply nth_error_In in Ed'.
      destruct (round_states labels subjects d r name ls v (Rd d Ed) (Bd' d Ed) Ix S1) as (_ & W1).
      destruct (round_states labels subjects d' r' name ls v' (Rd d' Ed') (Bd' d' Ed') Iy S2) as (_ & W2).
      rewrite E in H, B. destruct (real_filter_progs gs c rounds workers) as (ws & Ep). rewrite Ep in *.
      destruct W1 as [(N1 & Sh1)|(N1 & i1 & s1 & E1 & P1 & Sh1)], W2 as [(N2 & Sh2)|(N2 & i2 & s2 & E2 & P2 & Sh2)].
      * exact (reports_grow _ _ _ _ _ _ _ _ _ _ _ name v v' U H B Sh1 Sh2).
      * exfalso. subst name. exact (triggered_not N1).
      * exfalso. subst name. exact (triggered_not N2).
      * assert (X := perm_last _ _ _ _ P1 P2). inversion X; subst s2.
        assert (i1 = i2) as -> by (apply (proj1 (NoDup_nth_error subjects) Nd); [apply nth_error_Some; congruence|congruence]).
        exact (reports_grow _ _ _ _ _ _ _ _ _ _ _ (rule_stat i2) v v' U H B Sh1 Sh2).
  - intros r name ls v Hr St. apply in_concat in Hr as (l & Hl & Hr). apply in_map_iff in Hl as (d & <- & Hd).
    exact (proj1 (round_states labels subjects d r name ls v (Rd d Hd) (Bd' d Hd) Hr St)).
Qed.

(** Some reports may get lost on the way; those that arrive keep their order. *)
Inductive some_of {A} : list A -> list A -> Prop :=
| so_nil : some_of [] []
| so_keep x l l' : some_of l l' -> some_of (x :: l) (x :: l')
| so_lose x l l' : some_of l l' -> some_of l (x :: l').
Lemma some_of_nth {A} (l l' : list A) : some_of l l' -> exists f, (forall i x, nth_error l i = Some x -> nth_error l' (f i) = Some x) /\ forall i j, (i < j)%nat -> (f i < f j)%nat.
Proof.
  induction 1 as [|x l l' S0 (f & F1 & F2)|x l l' S0 (f & F1 & F2)].
  - exists (fun i => i). split; auto.
  - exists (fun i => match i with O => O | S k => S (f k) end). split.
    + intros [|i] y H; cbn in *; auto.
    + intros [|i] [|j] H; try lia. specialize (F2 i j). lia.
  - exists (fun i => S (f i)). split; [intros i y H; cbn; auto|]. intros i j H. specialize (F2 i j H). lia.
Qed.
Lemma some_of_In {A} (l l' : list A) x : some_of l l' -> In x l -> In x l'.
Proof. induction 1; cbn; intuition. Qed.
Lemma growing_some rs rs' : some_of rs rs' -> growing rs' -> growing rs.
Proof.
  intros Sm G i j r r' name ls v v' Lt Hi Hj. destruct (some_of_nth _ _ Sm) as (f & F1 & F2).
  apply (G (f i) (f j) r r' name ls v v'); auto.
Qed.
Lemma small_some rs rs' : some_of rs rs' -> small rs' -> small rs.
Proof. intros Sm H r n l v Hr. apply H. exact (some_of_In _ _ _ Sm Hr). Qed.

Lemma filter_answers gs c rounds workers names sched s labels ds e1 e2 : sorts gs ->
  let subjects := map Rules.r_subject (FilterWorker.fc_rules c) in NoDup subjects ->
  uint64_args (real_filter gs c rounds workers) ->
  run names (real_filter gs c rounds workers) sched = Some (s, concat (map rd_log ds)) -> Z.of_nat (length (concat (map rd_log ds))) < 2 ^ 64 ->
  Forall (read_in (length subjects)) ds -> (forall n v, shows (concat (map rd_log ds)) n v -> 0 <= v < 2 ^ 63) ->
  events_ok (e1 ++ e2) -> some_of (reports (e1 ++ e2)) (concat (map (round_reports labels subjects) ds)) ->
  exists set1 outs a1 set2 mid a2 s1 s2,
    mon_run gs [] (map (devent_event gs) (e1 ++ [inr tt])) = Some (set1, outs ++ [a1]) /\
    mon_run gs [] (map (devent_event gs) ((e1 ++ [inr tt]) ++ e2 ++ [inr tt])) = Some (set2, (outs ++ [a1]) ++ mid ++ [a2]) /\
    a1 = page s1 /\ a2 = page s2 /\
    forall name ls v ms, In (Entry name ls v ms) s1 -> exists v' ms', In (Entry name ls v' ms') s2 /\ v <= v'.
Proof.
  cbv zeta. intros Hs Nd U H B Rd Bd Ok So. destruct (filter_growing gs c rounds workers names sched s labels ds Nd U H B Rd Bd) as (G & Sm).
  apply two_answers; [exact Hs|exact Ok|exact (growing_some _ _ So G)|exact (small_some _ _ So Sm)].
Qed.
