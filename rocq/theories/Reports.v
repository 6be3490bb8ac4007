(** What a statistics report shows while the filter's workers run.

    The counters are those of Stats.v: any number of goroutines, interleaved at every atomic operation.  Modelled here:
    which calls a filter worker makes for a message (filter/worker.go:88-161) and the statistician for a report
    (filter/filter.go:160-204, stats/stats.go:80-86, stats/anonstats.go:62-69).

    Simplified: the rules' counters are a second array of counters (filter/filter.go:63); they are further names here.
    What happens to a line (C24, C26) is a parameter: every sequence of fates is considered. *)
From Verif Require Import Base Stats StatsSpec StatsProofs.
Local Open Scope Z_scope.

(** filter/filter.go:34-39. *)
Definition statPassed : bytes := lit "passed".
Definition statProcessed : bytes := lit "processed".
Definition statRejected : bytes := lit "rejected".
Definition statInvalidTime : bytes := lit "invalid_time".
Definition statFailedNATSPublish : bytes := lit "failed_nats_publish".
Definition statNATSDropped : bytes := lit "nats_dropped".
(** filter/filter.go:206-215 initStats. *)
Definition filter_names : list bytes := [statPassed; statProcessed; statRejected; statInvalidTime; statFailedNATSPublish; statNATSDropped].
(** The counter of rule [i] (stats/anonstats.go: counts[i]). *)
Definition rule_stat (i : nat) : bytes := lit "triggered" ++ repeat "#"%char i.

(** What becomes of a line: filter/worker.go:99-108 and 116-135. *)
Inductive fate := FTime | FUnreadable | FRejected | FPassed (rule : nat).

(** filter/worker.go:97-106 and 116-135: the counters of one line, in order. *)
Definition line_calls (f : fate) : list sop :=
  SInc statProcessed ::
  match f with
  | FTime => [SInc statInvalidTime]
  | FUnreadable => []
  | FRejected => [SInc statRejected]
  | FPassed i => [SInc statPassed; SInc (rule_stat i)]
  end.
(** filter/worker.go:88-161: a message whose lines have these fates and of whose publishes [failed] fail. *)
Definition message_calls (m : list fate * nat) : list sop :=
  flat_map line_calls (fst m) ++ repeat (SInc statFailedNATSPublish) (snd m).
(** filter/worker.go:63-86 run. *)
Definition worker_calls (ms : list (list fate * nat)) : list sop := flat_map message_calls ms.

(** filter/filter.go:168-192, one round: the drops, if NATS says how many (updateNATSDropped 196-203), then the counters
    in the order in which Go goes through a map, which is any, then the rules' counters in order. *)
Definition report_calls (rules : nat) (r : option Z * list bytes) : list sop :=
  match fst r with Some v => [SMax statNATSDropped v] | None => [] end ++
  map SGet (snd r) ++ map (fun i => SGet (rule_stat i)) (seq 0 rules).
Definition map_order (r : option Z * list bytes) : Prop := Permutation (snd r) filter_names.

(** The filter: goroutine 0 is the statistician, the others are the workers. *)
Definition filter_progs (rules : nat) (rounds : list (option Z * list bytes)) (workers : list (list (list fate * nat))) : list (list sop) :=
  flat_map (report_calls rules) rounds :: map worker_calls workers.
Definition all_names (rules : nat) : list bytes := filter_names ++ map rule_stat (seq 0 rules).

(* ------------------------------------------------------------------ *)
(** * Specification *)

(** A report: the calls between the end of [before] and the end of [during] include the Gets of one round; it shows [v]
    for the counter [n]. *)
Definition shows (during : slog) (n : bytes) (v : Z) : Prop := In (0%nat, SGet n, v) during.
(** No worker makes a call meanwhile. *)
Definition quiet (l : slog) : Prop := Forall (fun e : nat * sop * Z => fst (fst e) = 0%nat) l.

(* ------------------------------------------------------------------ *)
(** * Weights *)

(** The increments of [m] minus those of the counters [ns]. *)
Definition hit (n : bytes) (o : sop) : Z := match o with SInc x => if beqs x n then 1 else 0 | _ => 0 end.
Fixpoint hits (n : bytes) (l : list sop) : Z := match l with [] => 0 | o :: r => hit n o + hits n r end.
Fixpoint hits_any (ns : list bytes) (l : list sop) : Z := match ns with [] => 0 | n :: r => hits n l + hits_any r l end.
Definition surplus (m : bytes) (ns : list bytes) (l : list sop) : Z := hits m l - hits_any ns l.

Lemma hits_any_nil ns : hits_any ns [] = 0.
Proof. induction ns as [|n ns IH]; [reflexivity|exact IH]. Qed.
Lemma surplus_nil m ns : surplus m ns [] = 0.
Proof. unfold surplus. rewrite hits_any_nil. reflexivity. Qed.
Lemma hits_app n a b : hits n (a ++ b) = hits n a + hits n b.
Proof. induction a as [|o a IH]; [reflexivity|]. cbn [app hits]. rewrite IH. lia. Qed.
Lemma hits_any_app ns a b : hits_any ns (a ++ b) = hits_any ns a + hits_any ns b.
Proof. induction ns as [|n ns IH]; [reflexivity|]. cbn [hits_any]. rewrite IH, hits_app. lia. Qed.
Lemma surplus_app m ns a b : surplus m ns (a ++ b) = surplus m ns a + surplus m ns b.
Proof. unfold surplus. rewrite hits_app, hits_any_app. lia. Qed.
Lemma surplus_cons m ns o l : surplus m ns (o :: l) = surplus m ns [o] + surplus m ns l.
Proof. exact (surplus_app m ns [o] l). Qed.
Lemma hits_nonneg n l : 0 <= hits n l.
Proof. induction l as [|o l IH]; [cbn; lia|]. cbn [hits]. unfold hit. destruct o; try lia. destruct (beqs n0 n); lia. Qed.
Lemma hits_any_nonneg ns l : 0 <= hits_any ns l.
Proof. induction ns as [|n ns IH]; [cbn; lia|]. cbn [hits_any]. pose proof (hits_nonneg n l). lia. Qed.

Definition ops (log : slog) : list sop := map (fun e : nat * sop * Z => snd (fst e)) log.
Lemma incs_hits n log : Z.of_nat (incs n log) = hits n (ops log).
Proof.
  induction log as [|[[t o] r] log IH]; [reflexivity|]. rewrite incs_cons, Nat2Z.inj_add, IH. cbn [ops map hits fst snd]. fold (ops log).
  f_equal. unfold hit. destruct o; try reflexivity. destruct (beqs n0 n); reflexivity.
Qed.

(** If no goroutine has a negative balance, neither has the whole history. *)
Lemma balance m ns : forall k log, (length log <= k)%nat -> (forall t, 0 <= surplus m ns (calls_of t log)) -> 0 <= surplus m ns (ops log).
Proof.
  induction k as [|k IH]; intros log L H.
  - destruct log; [|cbn in L; lia]. unfold ops. cbn [map]. rewrite surplus_nil. lia.
  - destruct log as [|[[t o] r] log]; [apply IH; [cbn; lia|exact H]|].
    set (full := (t, o, r) :: log) in *.
    set (rest := filter (fun e : nat * sop * Z => negb (Nat.eqb (fst (fst e)) t)) full).
    assert (A : forall l : slog, surplus m ns (ops l) = surplus m ns (calls_of t l) + surplus m ns (ops (filter (fun e : nat * sop * Z => negb (Nat.eqb (fst (fst e)) t)) l))).
    { induction l as [|[[t1 o1] r1] l IHl].
      - unfold calls_of, ops. cbn [map filter]. rewrite surplus_nil. reflexivity.
      - unfold calls_of, ops in *. cbn [map filter fst snd]. rewrite (surplus_cons m ns o1), IHl.
        destruct (Nat.eqb t1 t); cbn [negb map fst snd]; rewrite (surplus_cons m ns o1 (map _ _)); lia. }
    rewrite (A full). pose proof (H t) as Ht. assert (0 <= surplus m ns (ops rest)); [|unfold rest in *; lia].
    apply IH.
    + unfold rest, full. cbn [filter fst snd]. rewrite Nat.eqb_refl. cbn [negb]. unfold full in L. cbn [length] in L.
      assert (X : forall (f : nat * sop * Z -> bool) l, (length (filter f l) <= length l)%nat) by (intros f l; induction l as [|x l IHl]; cbn; [lia|destruct (f x); cbn; lia]).
      specialize (X (fun e : nat * sop * Z => negb (Nat.eqb (fst (fst e)) t)) log). lia.
    + intros t'. unfold rest. destruct (Nat.eq_dec t' t) as [->|N].
      * assert (E : forall l : slog, calls_of t (filter (fun e : nat * sop * Z => negb (Nat.eqb (fst (fst e)) t)) l) = []).
        { induction l as [|[[t1 o1] r1] l IHl]; [reflexivity|]. cbn [filter fst snd]. destruct (Nat.eqb t1 t) eqn:E1; cbn [negb]; [exact IHl|].
          unfold calls_of in *. cbn [filter fst snd]. rewrite E1. exact IHl. }
        rewrite E, surplus_nil. lia.
      * assert (E : forall l : slog, calls_of t' (filter (fun e : nat * sop * Z => negb (Nat.eqb (fst (fst e)) t)) l) = calls_of t' l).
        { induction l as [|[[t1 o1] r1] l IHl]; [reflexivity|]. cbn [filter fst snd]. destruct (Nat.eqb_spec t1 t) as [->|N1]; cbn [negb].
          - rewrite IHl. unfold calls_of. cbn [filter fst snd]. destruct (Nat.eqb_spec t t'); [congruence|reflexivity].
          - unfold calls_of in *. cbn [filter fst snd]. destruct (Nat.eqb t1 t'); cbn [map fst snd]; [f_equal|]; exact IHl. }
        rewrite E. apply H.
Qed.

(** Every entry of the history is by a goroutine that exists. *)
Lemma run_from_tids names : forall sched s log s' log', run_from names s log sched = Some (s', log') ->
  Forall (fun e : nat * sop * Z => (fst (fst e) < length (s_gors s))%nat) log -> Forall (fun e : nat * sop * Z => (fst (fst e) < length (s_gors s))%nat) log'.
Proof.
  induction sched as [|t sched IH]; intros s log s' log' H F; cbn [run_from] in H; [injection H as _ <-; exact F|].
  destruct (nth_error (s_gors s) t) as [g|] eqn:Eg; [|exact (IH _ _ _ _ H F)].
  destruct (gor_step names (s_counts s) g) as [|counts g' ret]; [discriminate|].
  assert (L : length (s_gors (Sys counts (set_nth (s_gors s) t g'))) = length (s_gors s)) by (cbn [s_gors]; apply set_nth_length).
  rewrite <- L. apply (IH _ _ _ _ H). rewrite L. destruct ret as [[o v]|]; [|exact F]. apply Forall_app. split; [exact F|].
  constructor; [|constructor]. cbn [fst]. apply nth_error_Some. congruence.
Qed.
Lemma run_tids names progs sched s log t : run names progs sched = Some (s, log) -> (length progs <= t)%nat -> calls_of t log = [].
Proof.
  intros H L. unfold run in H. pose proof (run_from_tids _ _ _ _ _ _ H (Forall_nil _)) as F. cbn [s_gors] in F. rewrite map_length in F. clear H.
  unfold calls_of. induction F as [|[[t1 o] r] log Fx F IH]; [reflexivity|]. cbn [filter fst snd] in *. destruct (Nat.eqb_spec t1 t); [lia|exact IH].
Qed.

(* ------------------------------------------------------------------ *)
(** * The filter's programs *)

Definition steady (m : bytes) (ns : list bytes) (p : list sop) : Prop := forall a b, p = a ++ b -> 0 <= surplus m ns a.

Lemma steady_app m ns p q : steady m ns p -> steady m ns q -> steady m ns (p ++ q).
Proof.
  intros P Q a b E. apply app_eq_app in E. destruct E as (l & [[-> ->]|[-> ->]]).
  - exact (P _ _ eq_refl).
  - rewrite surplus_app. pose proof (P p [] (eq_sym (app_nil_r p))). pose proof (Q l b eq_refl). lia.
Qed.
Lemma steady_nil m ns : steady m ns [].
Proof.
  intros a b E. destruct a; [|discriminate]. rewrite surplus_nil. lia.
Qed.
Lemma steady_flat A m ns (f : A -> list sop) l : (forall x, steady m ns (f x)) -> steady m ns (flat_map f l).
Proof. intros F. induction l as [|x l IH]; cbn [flat_map]; [apply steady_nil|]. apply steady_app; [apply F|exact IH]. Qed.
Lemma steady_zero m ns p : Forall (fun o => hits m [o] = 0 /\ hits_any ns [o] = 0) p -> steady m ns p.
Proof.
  intros F a b E. subst p. apply Forall_app in F as [F _]. induction F as [|o a [H1 H2] F IH]; [apply (steady_nil m ns [] [] eq_refl)|].
  rewrite surplus_cons. unfold surplus at 1. lia.
Qed.

Lemma rule_stat_not i n : In n filter_names -> beqs (rule_stat i) n = false.
Proof.
  intros I0. apply beqs_neq. intros E. cbn in I0.
  repeat (destruct I0 as [I0|I0]; [subst n; discriminate E|]). destruct I0.
Qed.
Lemma not_rule_stat i n : In n filter_names -> beqs n (rule_stat i) = false.
Proof. intros I0. apply beqs_neq. intros E. pose proof (rule_stat_not i n I0) as X. rewrite E, beqs_refl in X. discriminate. Qed.

Definition ended : list bytes := [statPassed; statRejected; statInvalidTime].

Lemma line_steady f : steady statProcessed ended (line_calls f).
Proof.
  intros a b E. destruct f as [| | |i]; cbn [line_calls] in E.
  1-3: repeat (destruct a as [|o a]; [cbn; lia|injection E as <- E]); try discriminate; destruct a; discriminate.
  destruct a as [|o a]; [cbn; lia|]. injection E as <- E. destruct a as [|o a]; [cbn; lia|]. injection E as <- E.
  destruct a as [|o a]; [cbn; lia|]. injection E as <- E. destruct a; [|discriminate].
  unfold surplus. cbn [hits hits_any hit ended]. rewrite !rule_stat_not by (cbn; auto 10). cbn. lia.
Qed.
Lemma repeat_steady m ns n k : ~ In n (m :: ns) -> steady m ns (repeat (SInc n) k).
Proof.
  intros N. apply steady_zero. apply Forall_forall. intros o O. apply repeat_spec in O. subst o. cbn [hits hit]. split.
  - replace (beqs n m) with false; [reflexivity|]. symmetry. apply beqs_neq. intros ->. apply N. left. reflexivity.
  - assert (X : ~ In n ns) by (intros X; apply N; right; exact X). clear N. induction ns as [|y ns IH]; [reflexivity|]. cbn [hits_any hits hit].
    rewrite IH by (intros Y; apply X; right; exact Y). replace (beqs n y) with false; [reflexivity|]. symmetry. apply beqs_neq. intros ->. apply X. left. reflexivity.
Qed.
Lemma worker_steady ms : steady statProcessed ended (worker_calls ms).
Proof.
  apply steady_flat. intros [fs k]. apply steady_app; [apply steady_flat; apply line_steady|]. apply repeat_steady.
  cbn. intros [X|[X|[X|[X|[]]]]]; discriminate.
Qed.

(** A rule's counter follows passed. *)
Lemma rule_stat_inj i j : rule_stat i = rule_stat j -> i = j.
Proof. intros E. apply app_inv_head in E. apply (f_equal (@length _)) in E. rewrite !repeat_length in E. exact E. Qed.
Definition triggered (rules : nat) : list bytes := map rule_stat (seq 0 rules).
Lemma hits_any_zero ns o : (forall n, In n ns -> hit n o = 0) -> hits_any ns [o] = 0.
Proof. intros H. induction ns as [|n ns IH]; [reflexivity|]. cbn [hits_any hits]. rewrite (H n (or_introl eq_refl)), IH; [reflexivity|]. intros x X. apply H. right. exact X. Qed.
Lemma hits_any_rule rules i : hits_any (triggered rules) [SInc (rule_stat i)] <= 1.
Proof.
  unfold triggered. assert (G : forall k s, hits_any (map rule_stat (seq s k)) [SInc (rule_stat i)] <= 1 /\ ((i < s)%nat -> hits_any (map rule_stat (seq s k)) [SInc (rule_stat i)] = 0)); [|apply G].
  induction k as [|k IH]; intros s; cbn [seq map hits_any hits hit]; [split; lia|]. destruct (IH (S s)) as [G1 G2].
  destruct (beqs (rule_stat i) (rule_stat s)) eqn:E.
  - apply beqs_eq, rule_stat_inj in E. subst s. rewrite G2 by lia. split; lia.
  - split; [lia|]. intros L. rewrite G2 by lia. lia.
Qed.
Lemma line_rule_steady rules f : steady statPassed (triggered rules) (line_calls f).
Proof.
  assert (Z0 : forall n, In n filter_names -> hits_any (triggered rules) [SInc n] = 0).
  { intros n I0. apply hits_any_zero. intros x X. apply in_map_iff in X as (i & <- & _). cbn [hit]. rewrite not_rule_stat by exact I0. reflexivity. }
  intros a b E. assert (N0 : surplus statPassed (triggered rules) [] = 0) by apply surplus_nil.
  assert (S1 : forall n, In n filter_names -> n <> statPassed -> surplus statPassed (triggered rules) [SInc n] = 0).
  { intros n I0 N. unfold surplus. rewrite Z0 by exact I0. cbn [hits hit]. replace (beqs n statPassed) with false; [lia|]. symmetry. apply beqs_neq. exact N. }
  assert (Sp : surplus statPassed (triggered rules) [SInc statPassed] = 1) by (unfold surplus; rewrite Z0 by (cbn; auto); reflexivity).
  assert (E0 : forall l, a = SInc statProcessed :: l -> surplus statPassed (triggered rules) a = surplus statPassed (triggered rules) l).
  { intros l ->. rewrite surplus_cons, S1 by (cbn; auto; discriminate). lia. }
  destruct a as [|o a]; [lia|]. cbn [line_calls app] in E. injection E as <- E. rewrite (E0 a eq_refl). clear E0.
  destruct f as [| | |i].
  - destruct a as [|o a]; [lia|]. injection E as <- E. destruct a; [|discriminate]. rewrite S1; [lia|cbn; auto|discriminate].
  - destruct a; [lia|discriminate].
  - destruct a as [|o a]; [lia|]. injection E as <- E. destruct a; [|discriminate]. rewrite S1; [lia|cbn; auto|discriminate].
  - destruct a as [|o a]; [lia|]. injection E as <- E. destruct a as [|o a]; [lia|]. injection E as <- E. destruct a; [|discriminate].
    change [SInc statPassed; SInc (rule_stat i)] with ([SInc statPassed] ++ [SInc (rule_stat i)]). rewrite surplus_app, Sp.
    unfold surplus. pose proof (hits_any_rule rules i). pose proof (hits_nonneg statPassed [SInc (rule_stat i)]). lia.
Qed.
Lemma worker_rule_steady rules ms : steady statPassed (triggered rules) (worker_calls ms).
Proof.
  apply steady_flat. intros [fs k]. apply steady_app; [apply steady_flat; apply line_rule_steady|]. apply repeat_steady.
  intros [X|X]; [discriminate|]. apply in_map_iff in X as (i & X & _). pose proof (rule_stat_not i statFailedNATSPublish) as Y. rewrite X, beqs_refl in Y. discriminate Y. cbn. auto 10.
Qed.
Lemma report_steady m ns rules rounds : steady m ns (flat_map (report_calls rules) rounds).
Proof.
  apply steady_flat. intros [d order]. apply steady_zero. unfold report_calls. cbn [fst snd].
  assert (G : forall o, match o with SInc _ => False | _ => True end -> hits m [o] = 0 /\ hits_any ns [o] = 0).
  { intros o O. split; [destruct o; try reflexivity; destruct O|]. apply hits_any_zero. intros n _. destruct o; try reflexivity; destruct O. }
  apply Forall_app. split; [destruct d; repeat constructor; apply G; exact Logic.I|]. apply Forall_app. split; apply Forall_forall; intros o O; apply in_map_iff in O as (x & <- & _); apply G; exact Logic.I.
Qed.

Lemma calls_of_app t a b : calls_of t (a ++ b) = calls_of t a ++ calls_of t b.
Proof. unfold calls_of. rewrite filter_app, map_app. reflexivity. Qed.
Lemma history_balance m ns rules rounds workers names sched s log b :
  (forall ms, steady m ns (worker_calls ms)) -> uint64_args (filter_progs rules rounds workers) ->
  run names (filter_progs rules rounds workers) sched = Some (s, log ++ b) -> 0 <= surplus m ns (ops log).
Proof.
  intros W U H. apply (balance m ns (length log)); [lia|]. intros t.
  destruct (nth_error (filter_progs rules rounds workers) t) as [p|] eqn:E.
  - destruct (proj2 (run_linear _ _ _ _ _ U H) t p E) as (g & _ & Ep).
    assert (St : steady m ns p).
    { destruct t as [|t]; cbn [filter_progs nth_error] in E; [injection E as <-; apply report_steady|]. apply nth_error_In in E. apply in_map_iff in E as (ms & <- & _). apply W. }
    rewrite calls_of_app, <- app_assoc in Ep. exact (St _ _ Ep).
  - assert (X := run_tids _ _ _ _ _ t H (proj1 (nth_error_None _ _) E)). rewrite calls_of_app in X. apply app_eq_nil in X as [X _]. rewrite X, surplus_nil. lia.
Qed.

(* ------------------------------------------------------------------ *)
(** * Reports *)

Lemma hits_le_len n (log : slog) : hits n (ops log) <= Z.of_nat (length log).
Proof.
  induction log as [|[[t o] r] log IH]; [cbn; lia|]. cbn [ops map hits fst snd length]. fold (ops log). unfold hit. destruct o; try lia. destruct (beqs n0 n); lia.
Qed.

(** What is shown is the number of increments up to some moment of the report. *)
Lemma shown_between names progs sched s l0 l1 l2 n v : uint64_args progs -> run names progs sched = Some (s, l0 ++ l1 ++ l2) ->
  Z.of_nat (length (l0 ++ l1 ++ l2)) < 2 ^ 64 -> maxes n (l0 ++ l1 ++ l2) = [] -> shows l1 n v ->
  Z.of_nat (incs n l0) <= v <= Z.of_nat (incs n (l0 ++ l1)).
Proof.
  intros U H B M Sh. destruct (run_linear _ _ _ _ _ U H) as [(st & Sq & _) _].
  apply in_split in Sh as (a & b & ->).
  assert (E : l0 ++ (a ++ (0%nat, SGet n, v) :: b) ++ l2 = (l0 ++ a) ++ ((0%nat, SGet n, v) :: b ++ l2)) by (rewrite <- !app_assoc; reflexivity).
  destruct (sequential_app _ _ _ Sq _ _ E) as (mid & S1 & S2). inversion S2 as [|x1 x2 x3 x4 x5 x6 x7 Hr Hst Hrest]. subst. cbn [call_result sop_name].
  assert (M1 : maxes n (l0 ++ a) = []).
  { rewrite E in M. unfold maxes in *. rewrite flat_map_app in M. apply app_eq_nil in M. exact (proj1 M). }
  rewrite (sequential_inc n _ _ _ S1 M1) by lia. rewrite Z.add_0_l.
  assert (L : Z.of_nat (incs n (l0 ++ a)) < 2 ^ 64).
  { rewrite incs_hits. pose proof (hits_le_len n (l0 ++ a)). rewrite E, app_length in B. lia. }
  rewrite Z.mod_small by lia. rewrite !incs_app. lia.
Qed.

Lemma worker_no_max ms : Forall (fun o => match o with SMax _ _ => False | _ => True end) (worker_calls ms).
Proof.
  apply Forall_forall. intros o O. apply in_flat_map in O as ([fs k] & _ & O). apply in_app_or in O as [O|O].
  - apply in_flat_map in O as (f & _ & O). cbn in O. destruct O as [<-|O]; [exact Logic.I|]. destruct f; cbn in O; intuition; subst; exact Logic.I.
  - apply repeat_spec in O. subst o. exact Logic.I.
Qed.
(** Only the drops are set by Max. *)
Lemma log_maxes rules rounds workers names sched s log n : uint64_args (filter_progs rules rounds workers) ->
  run names (filter_progs rules rounds workers) sched = Some (s, log) -> n <> statNATSDropped -> maxes n log = [].
Proof.
  intros U H N.
  assert (G : forall e, In e log -> match snd (fst e) with SMax m _ => m = statNATSDropped | _ => True end).
  { intros [[t o] r] I0. cbn [fst snd]. assert (C : In o (calls_of t log)).
    { unfold calls_of. apply in_map_iff. exists (t, o, r). split; [reflexivity|]. apply filter_In. split; [exact I0|apply Nat.eqb_refl]. }
    destruct (nth_error (filter_progs rules rounds workers) t) as [p|] eqn:E.
    - destruct (proj2 (run_linear _ _ _ _ _ U H) t p E) as (g & _ & Ep). assert (P : In o p) by (rewrite Ep; apply in_or_app; left; exact C).
      destruct t as [|t]; cbn [filter_progs nth_error] in E.
      + injection E as <-. apply in_flat_map in P as ([d order] & _ & P). unfold report_calls in P. cbn [fst snd] in P.
        apply in_app_or in P as [P|P]; [destruct d; cbn in P; [destruct P as [<-|[]]; reflexivity|destruct P]|].
        apply in_app_or in P as [P|P]; apply in_map_iff in P as (x & <- & _); exact Logic.I.
      + apply nth_error_In in E. apply in_map_iff in E as (ms & <- & _). pose proof (worker_no_max ms) as W. rewrite Forall_forall in W. specialize (W o P). destruct o; try exact Logic.I. destruct W.
    - rewrite (run_tids _ _ _ _ _ t H) in C; [destruct C|]. apply nth_error_None. exact E. }
  clear -G N. induction log as [|[[t o] r] log IH]; [reflexivity|]. rewrite maxes_cons, IH by (intros e E; apply G; right; exact E).
  pose proof (G _ (or_introl eq_refl)) as X. cbn [fst snd] in X. destruct o; try reflexivity. subst n0. replace (beqs statNATSDropped n) with false; [reflexivity|]. symmetry. apply beqs_neq. congruence.
Qed.

Lemma hits_count rules rounds workers names sched s log n : uint64_args (filter_progs rules rounds workers) ->
  run names (filter_progs rules rounds workers) sched = Some (s, log) -> Z.of_nat (length log) < 2 ^ 64 -> n <> statNATSDropped ->
  count names s n = hits n (ops log).
Proof.
  intros U H B N. rewrite (count_inc _ _ _ _ _ n U H (log_maxes _ _ _ _ _ _ _ n U H N)), incs_hits. apply Z.mod_small.
  pose proof (hits_nonneg n (ops log)). pose proof (hits_le_len n log). lia.
Qed.
Lemma rule_not_dropped i : rule_stat i <> statNATSDropped.
Proof. intros E. discriminate E. Qed.

(** At every moment the counters themselves agree. *)
Theorem counters_agree : forall rules rounds workers names sched s log, uint64_args (filter_progs rules rounds workers) ->
  run names (filter_progs rules rounds workers) sched = Some (s, log) -> Z.of_nat (length log) < 2 ^ 64 ->
  count names s statPassed + count names s statRejected + count names s statInvalidTime <= count names s statProcessed /\
  fold_right Z.add 0 (map (fun i => count names s (rule_stat i)) (seq 0 rules)) <= count names s statPassed.
Proof.
  intros rules rounds workers names sched s log U H B. assert (H' := H). rewrite <- (app_nil_r log) in H'. split.
  - pose proof (history_balance statProcessed ended _ _ _ _ _ _ _ _ worker_steady U H') as X. unfold surplus, ended in X. cbn [hits_any] in X.
    rewrite !(hits_count _ _ _ _ _ _ _ _ U H B) by discriminate. lia.
  - pose proof (history_balance statPassed (triggered rules) _ _ _ _ _ _ _ _ (worker_rule_steady rules) U H') as X. unfold surplus in X.
    rewrite (hits_count _ _ _ _ _ _ _ _ U H B) by discriminate.
    assert (E : fold_right Z.add 0 (map (fun i => count names s (rule_stat i)) (seq 0 rules)) = hits_any (triggered rules) (ops log)); [|lia].
    unfold triggered. clear X. induction (seq 0 rules) as [|i l IH]; [reflexivity|]. cbn [map fold_right hits_any]. rewrite IH, (hits_count _ _ _ _ _ _ _ _ U H B) by apply rule_not_dropped. reflexivity.
Qed.

Theorem shown : forall rules rounds workers names sched s l0 l1 l2 n v, uint64_args (filter_progs rules rounds workers) ->
  run names (filter_progs rules rounds workers) sched = Some (s, l0 ++ l1 ++ l2) -> Z.of_nat (length (l0 ++ l1 ++ l2)) < 2 ^ 64 ->
  n <> statNATSDropped -> shows l1 n v -> Z.of_nat (incs n l0) <= v <= Z.of_nat (incs n (l0 ++ l1)).
Proof.
  intros rules rounds workers names sched s l0 l1 l2 n v U H B N Sh. exact (shown_between _ _ _ _ _ _ _ n v U H B (log_maxes _ _ _ _ _ _ _ n U H N) Sh).
Qed.

(** A report disagrees by at most what was counted while it was made. *)
Theorem off_by : forall rules rounds workers names sched s l0 l1 l2 passed rejected invalid processed,
  uint64_args (filter_progs rules rounds workers) ->
  run names (filter_progs rules rounds workers) sched = Some (s, l0 ++ l1 ++ l2) -> Z.of_nat (length (l0 ++ l1 ++ l2)) < 2 ^ 64 ->
  shows l1 statPassed passed -> shows l1 statRejected rejected -> shows l1 statInvalidTime invalid -> shows l1 statProcessed processed ->
  passed + rejected + invalid <= processed + Z.of_nat (incs statProcessed l1).
Proof.
  intros rules rounds workers names sched s l0 l1 l2 pa re iv pr U H B S1 S2 S3 S4.
  apply (shown _ _ _ _ _ _ _ _ _ _ _ U H B) in S1; [|discriminate]. apply (shown _ _ _ _ _ _ _ _ _ _ _ U H B) in S2; [|discriminate].
  apply (shown _ _ _ _ _ _ _ _ _ _ _ U H B) in S3; [|discriminate]. apply (shown _ _ _ _ _ _ _ _ _ _ _ U H B) in S4; [|discriminate].
  rewrite app_assoc in H. pose proof (history_balance statProcessed ended _ _ _ _ _ _ _ _ worker_steady U H) as X.
  unfold surplus, ended in X. cbn [hits_any] in X. rewrite <- !incs_hits in X. rewrite !incs_app in *. lia.
Qed.

Theorem off_by_rules : forall rules rounds workers names sched s l0 l1 l2 passed vs,
  uint64_args (filter_progs rules rounds workers) ->
  run names (filter_progs rules rounds workers) sched = Some (s, l0 ++ l1 ++ l2) -> Z.of_nat (length (l0 ++ l1 ++ l2)) < 2 ^ 64 ->
  shows l1 statPassed passed -> Forall2 (fun i v => shows l1 (rule_stat i) v) (seq 0 rules) vs ->
  fold_right Z.add 0 vs <= passed + Z.of_nat (incs statPassed l1).
Proof.
  intros rules rounds workers names sched s l0 l1 l2 pa vs U H B S1 F.
  apply (shown _ _ _ _ _ _ _ _ _ _ _ U H B) in S1; [|discriminate].
  assert (L : fold_right Z.add 0 vs <= hits_any (triggered rules) (ops (l0 ++ l1))).
  { unfold triggered. induction F as [|i v is vs Sh F IH]; [cbn; lia|]. cbn [fold_right map hits_any].
    pose proof (shown _ _ _ _ _ _ _ _ _ _ _ U H B (rule_not_dropped i) Sh) as X. rewrite !incs_hits in X. lia. }
  rewrite app_assoc in H. pose proof (history_balance statPassed (triggered rules) _ _ _ _ _ _ _ _ (worker_rule_steady rules) U H) as X.
  unfold surplus in X. rewrite <- incs_hits in X. rewrite !incs_app in *. lia.
Qed.

(** The statistician increments nothing. *)
Lemma stat_no_inc rules rounds workers names sched s l0 l1 l2 n : uint64_args (filter_progs rules rounds workers) ->
  run names (filter_progs rules rounds workers) sched = Some (s, l0 ++ l1 ++ l2) -> quiet l1 -> incs n l1 = 0%nat.
Proof.
  intros U H Q.
  assert (G : forall e, In e l1 -> match snd (fst e) with SInc _ => False | _ => True end).
  { intros [[t o] r] I0. cbn [fst snd]. unfold quiet in Q. rewrite Forall_forall in Q. pose proof (Q _ I0) as T. cbn [fst] in T. subst t.
    destruct (proj2 (run_linear _ _ _ _ _ U H) 0%nat _ eq_refl) as (g & _ & Ep).
    assert (P : In o (flat_map (report_calls rules) rounds)).
    { rewrite Ep. apply in_or_app. left. unfold calls_of. apply in_map_iff. exists (0%nat, o, r). split; [reflexivity|]. apply filter_In.
      split; [apply in_or_app; right; apply in_or_app; left; exact I0|reflexivity]. }
    apply in_flat_map in P as ([d order] & _ & P). unfold report_calls in P. cbn [fst snd] in P.
    apply in_app_or in P as [P|P]; [destruct d; cbn in P; [destruct P as [<-|[]]; exact Logic.I|destruct P]|].
    apply in_app_or in P as [P|P]; apply in_map_iff in P as (x & <- & _); exact Logic.I. }
  clear -G. induction l1 as [|[[t o] r] l IH]; [reflexivity|]. rewrite incs_cons, IH by (intros e E; apply G; right; exact E).
  pose proof (G _ (or_introl eq_refl)) as X. cbn [fst snd] in X. destruct o; try reflexivity. destruct X.
Qed.

Theorem quiet_exact : forall rules rounds workers names sched s l0 l1 l2 n v, uint64_args (filter_progs rules rounds workers) ->
  run names (filter_progs rules rounds workers) sched = Some (s, l0 ++ l1 ++ l2) -> Z.of_nat (length (l0 ++ l1 ++ l2)) < 2 ^ 64 ->
  quiet l1 -> n <> statNATSDropped -> shows l1 n v -> v = Z.of_nat (incs n l0).
Proof.
  intros rules rounds workers names sched s l0 l1 l2 n v U H B Q N Sh. pose proof (shown _ _ _ _ _ _ _ _ _ _ _ U H B N Sh) as X.
  rewrite incs_app, (stat_no_inc _ _ _ _ _ _ _ _ _ n U H Q) in X. lia.
Qed.

(** Later reports never show less. *)
Theorem reports_grow : forall rules rounds workers names sched s l0 l1 l2 l3 l4 n v v', uint64_args (filter_progs rules rounds workers) ->
  run names (filter_progs rules rounds workers) sched = Some (s, l0 ++ l1 ++ l2 ++ l3 ++ l4) ->
  Z.of_nat (length (l0 ++ l1 ++ l2 ++ l3 ++ l4)) < 2 ^ 64 -> shows l1 n v -> shows l3 n v' -> v <= v'.
Proof.
  intros rules rounds workers names sched s l0 l1 l2 l3 l4 n v v' U H B S1 S3. destruct (list_eq_dec ascii_dec n statNATSDropped) as [->|N].
  - destruct (run_linear _ _ _ _ _ U H) as [(st & Sq & _) _]. apply in_split in S1 as (a & b & ->). apply in_split in S3 as (d & e & ->).
    set (x := (0%nat, SGet statNATSDropped, v)) in *. set (y := (0%nat, SGet statNATSDropped, v')) in *.
    assert (Hi : forall l, (exists p q, l0 ++ (a ++ x :: b) ++ l2 ++ (d ++ y :: e) ++ l4 = p ++ l ++ q) -> incs statNATSDropped l = 0%nat).
    { intros l (p & q & E).
      assert (G : forall z, In z (l0 ++ (a ++ x :: b) ++ l2 ++ (d ++ y :: e) ++ l4) -> match snd (fst z) with SInc m => m <> statNATSDropped | _ => True end).
      { intros [[t o] r] I0. cbn [fst snd]. assert (C : In o (calls_of t (l0 ++ (a ++ x :: b) ++ l2 ++ (d ++ y :: e) ++ l4))).
        { unfold calls_of. apply in_map_iff. exists (t, o, r). split; [reflexivity|]. apply filter_In. split; [exact I0|apply Nat.eqb_refl]. }
        destruct (nth_error (filter_progs rules rounds workers) t) as [pr|] eqn:Et.
        - destruct (proj2 (run_linear _ _ _ _ _ U H) t pr Et) as (g & _ & Ep). assert (P : In o pr) by (rewrite Ep; apply in_or_app; left; exact C).
          destruct t as [|t]; cbn [filter_progs nth_error] in Et.
          + injection Et as <-. apply in_flat_map in P as ([dr order] & _ & P). unfold report_calls in P. cbn [fst snd] in P.
            apply in_app_or in P as [P|P]; [destruct dr; cbn in P; [destruct P as [<-|[]]; exact Logic.I|destruct P]|].
            apply in_app_or in P as [P|P]; apply in_map_iff in P as (w & <- & _); exact Logic.I.
          + apply nth_error_In in Et. apply in_map_iff in Et as (ms & <- & _). apply in_flat_map in P as ([fs k] & _ & P). apply in_app_or in P as [P|P].
            * apply in_flat_map in P as (f & _ & P). cbn in P. destruct P as [<-|P]; [discriminate|].
              destruct f; cbn in P; repeat (destruct P as [<-|P]; [try discriminate; apply rule_not_dropped|]); destruct P.
            * apply repeat_spec in P. subst o. discriminate.
        - rewrite (run_tids _ _ _ _ _ t H) in C; [destruct C|]. apply nth_error_None. exact Et. }
      rewrite E in G. assert (G' : forall z, In z l -> match snd (fst z) with SInc m => m <> statNATSDropped | _ => True end) by (intros z Z1; apply G; apply in_or_app; right; apply in_or_app; left; exact Z1).
      clear -G'. induction l as [|[[t o] r] l IH]; [reflexivity|]. rewrite incs_cons, IH by (intros z Z1; apply G'; right; exact Z1).
      pose proof (G' _ (or_introl eq_refl)) as X. cbn [fst snd] in X. destruct o; try reflexivity. apply beqs_neq in X. rewrite X. reflexivity. }
    assert (E : l0 ++ (a ++ x :: b) ++ l2 ++ (d ++ y :: e) ++ l4 = (l0 ++ a) ++ ((x :: b ++ l2 ++ d) ++ (y :: e ++ l4))).
    { rewrite <- !app_assoc. cbn [app]. rewrite <- !app_assoc. reflexivity. }
    destruct (sequential_app _ _ _ Sq _ _ E) as (m1 & Q1 & Q2). destruct (sequential_app _ _ _ Q2 _ _ eq_refl) as (m2 & Q3 & Q4).
    assert (V : v = m1 statNATSDropped) by (inversion Q3; subst; reflexivity).
    assert (V' : v' = m2 statNATSDropped) by (inversion Q4; subst; reflexivity).
    assert (P0 : 0 <= m1 statNATSDropped).
    { rewrite (sequential_max statNATSDropped _ _ _ Q1); [lia| |lia]. apply Hi. exists [], ((x :: b ++ l2 ++ d) ++ y :: e ++ l4). rewrite E. reflexivity. }
    rewrite V, V', (sequential_max statNATSDropped _ _ _ Q3); [lia| |exact P0].
    apply Hi. exists (l0 ++ a), (y :: e ++ l4). exact E.
  - assert (H1 := H). rewrite 2 app_assoc in H1. pose proof (shown _ _ _ _ _ _ _ _ _ _ _ U H B N S1) as X1.
    replace (l0 ++ l1 ++ l2 ++ l3 ++ l4) with ((l0 ++ l1 ++ l2) ++ l3 ++ l4) in * by (rewrite <- !app_assoc; reflexivity).
    pose proof (shown _ _ _ _ _ _ _ _ _ _ _ U H B N S3) as X3. rewrite !incs_app in *. lia.
Qed.

(* ------------------------------------------------------------------ *)
(** * The programs are those of the filter's workers *)
From Verif Require Text Rules FilterWorker.

(** The counter an action of FilterWorker.v is about. *)
Definition act_calls (a : FilterWorker.act) : list sop :=
  match a with
  | FilterWorker.AInc FilterWorker.FPassed => [SInc statPassed]
  | FilterWorker.AInc FilterWorker.FProcessed => [SInc statProcessed]
  | FilterWorker.AInc FilterWorker.FRejected => [SInc statRejected]
  | FilterWorker.AInc FilterWorker.FInvalidTime => [SInc statInvalidTime]
  | FilterWorker.AInc FilterWorker.FFailedPublish => [SInc statFailedNATSPublish]
  | FilterWorker.ARule i => [SInc (rule_stat i)]
  | FilterWorker.APublish _ _ _ => []
  end.
(** filter/worker.go:63-86: the counter calls of a worker for the messages it takes. *)
Definition real_worker (gosort : forall A : Type, (A -> A -> bool) -> list A -> list A) (c : FilterWorker.fcfg) (jobs : list FilterWorker.job) : list sop :=
  flat_map act_calls (snd (FilterWorker.run_worker gosort c (FilterWorker.newFilterWorker c) jobs)).
(** filter/filter.go:60-113: the statistician and the workers, each with the messages it happens to take. *)
Definition real_filter gosort (c : FilterWorker.fcfg) (rounds : list (option Z * list bytes)) (workers : list (list FilterWorker.job)) : list (list sop) :=
  flat_map (report_calls (length (FilterWorker.fc_rules c))) rounds :: map (real_worker gosort c) workers.

Section Link.
  Variable gosort : forall A : Type, (A -> A -> bool) -> list A -> list A.
  Variable c : FilterWorker.fcfg.

  Lemma process_line_calls st line : exists f, SInc statProcessed :: flat_map act_calls (snd (FilterWorker.processLine gosort c st line)) = line_calls f.
  Proof.
    unfold FilterWorker.processLine. destruct (Rules.newParsedLine line) as [pl|]; [|exists FUnreadable; reflexivity].
    destruct (Rules.LookupParsed _ _) as [i|]; [exists (FPassed i)|exists FRejected]; reflexivity.
  Qed.
  Lemma process_lines_calls now lo hi : forall ls st, exists fs, flat_map act_calls (snd (FilterWorker.process_lines gosort c now lo hi st ls)) = flat_map line_calls fs.
  Proof.
    induction ls as [|line ls IH]; intros st; [exists []; reflexivity|]. cbn [FilterWorker.process_lines]. destruct line as [|ch line]; [apply IH|].
    destruct ((lo <? FilterWorker.filterTimestamp (ch :: line) now) && (FilterWorker.filterTimestamp (ch :: line) now <? hi)).
    - destruct (process_line_calls st (ch :: line)) as (f & E). destruct (FilterWorker.processLine gosort c st (ch :: line)) as [st1 a1]. destruct (IH st1) as (fs & E2).
      destruct (FilterWorker.process_lines gosort c now lo hi st1 ls) as [st2 a2]. exists (f :: fs). cbn [snd flat_map act_calls app] in *.
      rewrite flat_map_app, E2. rewrite <- E. reflexivity.
    - destruct (IH st) as (fs & E2). destruct (FilterWorker.process_lines gosort c now lo hi st ls) as [st2 a2]. exists (FTime :: fs). cbn [snd flat_map act_calls app line_calls] in *. rewrite E2. reflexivity.
  Qed.
  Lemma send_rules_calls oks : forall ss bs k, exists n, flat_map act_calls (snd (fst (FilterWorker.send_rules oks k ss bs))) = repeat (SInc statFailedNATSPublish) n.
  Proof.
    induction ss as [|s ss IH]; intros bs k; [exists 0%nat; reflexivity|]. destruct bs as [|b bs]; [exists 0%nat; reflexivity|]. cbn [FilterWorker.send_rules]. destruct b as [|ch b].
    - destruct (IH bs k) as (n & E). destruct (FilterWorker.send_rules oks k ss bs) as [[bs' a] k']. exists n. exact E.
    - destruct (IH bs (S k)) as (n & E). destruct (FilterWorker.send_rules oks (S k) ss bs) as [[bs' a] k']. cbn [fst snd] in *.
      unfold FilterWorker.publish. destruct (oks k); [exists n|exists (S n)]; cbn [app flat_map act_calls repeat]; rewrite E; reflexivity.
  Qed.
  Lemma send_off_calls oks st : exists n, flat_map act_calls (snd (FilterWorker.sendOff c oks st)) = repeat (SInc statFailedNATSPublish) n.
  Proof.
    unfold FilterWorker.sendOff. destruct (send_rules_calls oks (Rules.Subjects (FilterWorker.fc_rules c)) (FilterWorker.f_batches st) 0) as (n & E).
    destruct (FilterWorker.send_rules oks 0 (Rules.Subjects (FilterWorker.fc_rules c)) (FilterWorker.f_batches st)) as [[bs a] k]. cbn [fst snd] in E.
    destruct (FilterWorker.f_junk st) as [|ch j]; [exists n; exact E|]. cbn [snd]. rewrite flat_map_app, E. unfold FilterWorker.publish. destruct (oks k); cbn [flat_map act_calls app].
    - exists n. apply app_nil_r.
    - exists (n + 1)%nat. rewrite repeat_app. reflexivity.
  Qed.
  Lemma run_worker_calls : forall jobs st, exists ms, flat_map act_calls (snd (FilterWorker.run_worker gosort c st jobs)) = worker_calls ms.
  Proof.
    induction jobs as [|[[oks now] m] jobs IH]; intros st; [exists []; reflexivity|]. cbn [FilterWorker.run_worker].
    unfold FilterWorker.processBatch.
    destruct (process_lines_calls now (wrap64 (now - FilterWorker.fc_delta c)) (wrap64 (now + FilterWorker.fc_delta c)) (FilterWorker.SplitAfter m) st) as (fs & E1).
    destruct (FilterWorker.process_lines gosort c now (wrap64 (now - FilterWorker.fc_delta c)) (wrap64 (now + FilterWorker.fc_delta c)) st (FilterWorker.SplitAfter m)) as [st1 a1].
    destruct (send_off_calls oks st1) as (k & E2). destruct (FilterWorker.sendOff c oks st1) as [st2 a2].
    destruct (IH st2) as (ms & E3). destruct (FilterWorker.run_worker gosort c st2 jobs) as [st3 a3]. cbn [snd] in *.
    exists ((fs, k) :: ms). unfold worker_calls. cbn [flat_map]. unfold message_calls at 1. cbn [fst snd]. rewrite !flat_map_app, E1, E2, E3. reflexivity.
  Qed.
  Theorem real_filter_progs : forall rounds workers, exists ws, real_filter gosort c rounds workers = filter_progs (length (FilterWorker.fc_rules c)) rounds ws.
  Proof.
    intros rounds workers. assert (G : exists ws, map (real_worker gosort c) workers = map worker_calls ws).
    { induction workers as [|w workers (ws & E)]; [exists []; reflexivity|]. destruct (run_worker_calls w (FilterWorker.newFilterWorker c)) as (ms & Em).
      exists (ms :: ws). cbn [map]. rewrite E. f_equal. exact Em. }
    destruct G as (ws & E). exists ws. unfold real_filter, filter_progs. rewrite E. reflexivity.
  Qed.
End Link.
