(** The three-bucket assigner implements AssignerSpec.history. *)
From Verif Require Import Base LinesSpec NumSpec NumProofs Timestamps Assigner AssignerSpec.
Local Open Scope Z_scope.

(* ---------------------------------------------------------------- *)
(** * Text *)

Lemma Split_ne b : Split b <> [].
Proof. destruct b as [|c r]; cbn [Split]; [discriminate|]. destruct (Ascii.eqb c nl); [discriminate|]. destruct (Split r); discriminate. Qed.

Lemma chomped_cons c l : l <> [] -> chomped (c :: l) = c :: chomped l.
Proof. intros H. unfold chomped. destruct l as [|d l]; [congruence|]. cbn [last removelast]. destruct (Ascii.eqb _ nl); auto. Qed.

Definition nonempty (l : bytes) : bool := match l with [] => false | _ => true end.

Lemma Split_lines b : filter nonempty (Split b) = full_lines b.
Proof.
  unfold full_lines. change (fun l : bytes => match l with [] => false | _ :: _ => true end) with nonempty.
  enough (H : filter nonempty (Split b) = filter nonempty (map chomped (lines_of b)) /\
    match lines_of b with [] => Split b = [[]]
    | l :: ls => exists t, Split b = chomped l :: t /\ filter nonempty t = filter nonempty (map chomped ls) end) by apply H.
  induction b as [|c r [IH1 IH2]]; [split; reflexivity|].
  cbn [Split lines_of]. destruct (Ascii.eqb_spec c nl) as [->|N].
  - split.
    + cbn [filter map nonempty]. replace (chomped [nl]) with (@nil ascii) by reflexivity. cbn [nonempty]. auto.
    + exists (Split r). split; auto.
  - assert (C1 : chomped [c] = [c]).
    { unfold chomped. cbn [last]. apply Ascii.eqb_neq in N. rewrite N. auto. }
    destruct (lines_of r) as [|l ls] eqn:El.
    + rewrite IH2. split; [cbn [map filter]; rewrite C1; auto|]. exists []. rewrite C1. auto.
    + destruct IH2 as (t & E & F). rewrite E.
      assert (Nl : l <> []) by (apply (lines_of_nonempty r); rewrite El; simpl; auto).
      split; [cbn [filter map]; rewrite chomped_cons by auto; cbn [nonempty]; rewrite F; auto|].
      exists t. rewrite chomped_cons by auto. auto.
Qed.

Lemma stamp_spec line now : stamped line now (fst (assignTimestamp line now)) (snd (assignTimestamp line now)).
Proof.
  unfold assignTimestamp. destruct (ExtractTimestamp line) as [ts off] eqn:E.
  destruct (le_lt_dec 6 (length line)) as [L|L].
  - destruct (Z.eq_dec off (-1)) as [->|N].
    + simpl. right. split; auto. right. intros (pre & txt & t & S1).
      assert (Lt : line_ts line t (Z.of_nat (length pre) + 1)) by (exists pre, txt; auto).
      apply ExtractTimestamp_iff in Lt; auto. destruct Lt as [Lt _]. rewrite Lt in E. inversion E. lia.
    + destruct (proj1 (ExtractTimestamp_iff line ts off L) (conj E N)) as (pre & txt & S1 & ->).
      replace (Z.of_nat (length pre) + 1 <? 0) with false by lia. simpl. left. split; auto.
      exists txt. destruct S1 as (C & S2).
      replace (Z.to_nat (Z.of_nat (length pre) + 1 - 1)) with (length pre) by lia.
      rewrite (chomp_prefix line pre ([sp] ++ txt)) by auto. split; auto.
  - rewrite ExtractTimestamp_short in E by auto. inversion E; subst. simpl. right. auto.
Qed.

(* ---------------------------------------------------------------- *)
(** * Time *)

Lemma trunc_aligned p t : 0 < p -> (Truncate t p + goEpoch) mod p = 0 /\ Truncate t p <= t < Truncate t p + p.
Proof.
  intros H. unfold Truncate. replace (p <=? 0) with false by lia.
  pose proof (Z.mod_pos_bound (t + goEpoch) p H). split; [|lia].
  replace (t - (t + goEpoch) mod p + goEpoch) with (t + goEpoch - (t + goEpoch) mod p) by lia.
  rewrite Zminus_mod, Zmod_mod, Z.sub_diag. apply Zmod_0_l.
Qed.

Lemma aligned_unique p e e' t : 0 < p -> e - p <= t < e -> e' - p <= t < e' ->
  (e + goEpoch) mod p = 0 -> (e' + goEpoch) mod p = 0 -> e = e'.
Proof.
  intros H A B C D. apply Z.mod_divide in C; [|lia]. apply Z.mod_divide in D; [|lia].
  destruct C as [x C], D as [y D]. assert (x = y); [|subst; lia].
  assert (e - e' = (x - y) * p) by lia. nia.
Qed.

Lemma nextT_end p now e : 0 < p -> period_end p now e -> nextT p now = e.
Proof.
  intros H [A C]. unfold nextT. destruct (trunc_aligned p (now + p) H) as [T1 T2].
  apply (aligned_unique p _ _ now); auto; lia.
Qed.

Lemma next_aligned p e : 0 < p -> (e + goEpoch) mod p = 0 -> nextT p e = e + p.
Proof.
  intros H A. apply nextT_end; auto. split; [lia|].
  replace (e + p + goEpoch) with (e + goEpoch + 1 * p) by lia. rewrite Z_mod_plus_full. auto.
Qed.

Lemma prev_aligned p e : 0 < p -> (e + goEpoch) mod p = 0 -> prevT p e = e - p.
Proof.
  intros H A. unfold prevT. destruct (trunc_aligned p (e - p) H) as [T1 T2].
  assert (X : Truncate (e - p) p + p = e); [|lia].
  apply (aligned_unique p _ _ (e - p)); auto; try lia.
  replace (Truncate (e - p) p + p + goEpoch) with (Truncate (e - p) p + goEpoch + 1 * p) by lia. rewrite Z_mod_plus_full. auto.
Qed.

Lemma aligned_shift p e k : (e + goEpoch) mod p = 0 -> (e + k * p + goEpoch) mod p = 0.
Proof. intros A. replace (e + k * p + goEpoch) with (e + goEpoch + k * p) by lia. rewrite Z_mod_plus_full. auto. Qed.

Lemma period_exists p now : 0 < p -> exists e, period_end p now e.
Proof. intros H. exists (Truncate now p + p). destruct (trunc_aligned p now H). split; [lia|]. apply (aligned_shift p _ 1) in H0. replace (Truncate now p + p) with (Truncate now p + 1 * p) by lia. auto. Qed.

Lemma period_aligned p now e : 0 < p -> period_end p now e -> e - p <= now < e /\
  ((p | 86400 * 1000000000) -> (p | e)) /\
  (p = 7 * 86400 * 1000000000 -> (p | e - 4 * 86400 * 1000000000)).
Proof.
  intros Hp [W A]. split; [exact W|]. apply Z.mod_divide in A; [|lia]. split.
  - intros D. replace e with ((e + goEpoch) - goEpoch) by lia. apply Z.divide_sub_r; [exact A|].
    replace goEpoch with (719162 * (86400 * 1000000000)) by reflexivity. apply Z.divide_mul_r. exact D.
  - intros ->. replace (e - 4 * 86400 * 1000000000) with ((e + goEpoch) - 102738 * (7 * 86400 * 1000000000)) by (unfold goEpoch; lia).
    apply Z.divide_sub_r; [exact A|]. apply Z.divide_factor_r.
Qed.

Lemma emitted_app {B E} cs1 (ans1 : list (answer B E)) cs2 ans2 : length cs1 = length ans1 ->
    emitted (cs1 ++ cs2) (ans1 ++ ans2) = emitted cs1 ans1 ++ emitted cs2 ans2.
  Proof.
    revert ans1. induction cs1 as [|c cs1 IH]; intros [|r ans1] L; try discriminate; auto.
    cbn [app emitted]. simpl in L. destruct c; [|destruct r]; rewrite IH by lia; auto.
  Qed.

(* ---------------------------------------------------------------- *)
(** * Refinement *)

Section Ref.
  Variables (B E : Type).
  Variable newBucket : Z -> B.
  Variable addLine : B -> bytes -> B * list E.
  Variables (p e0 : Z).
  Hypothesis Hp : 0 < p.
  Hypothesis Ha : (e0 + goEpoch) mod p = 0.

  Notation contents := (contents B E newBucket addLine p).
  Notation takes := (takes B E newBucket addLine p e0).
  Notation history := (history B E newBucket addLine p e0).

  Definition slot (l : log) (i : Z) : Z * B := (e0 + i * p, contents l (e0 + i * p)).

  Definition Inv (a : assigner B) (k : Z) (l : log) : Prop :=
    a = mkAsg B p (slot l (k - 1)) (slot l k) (slot l (k + 1)) (e0 + (k - 2) * p) /\
    Forall (fun x => e0 - 2 * p <= fst x < e0 + (k + 1) * p) l.

  Lemma contents_snoc l ts body e : contents (l ++ [(ts, body)]) e =
    if (e - p <=? ts) && (ts <? e) then fst (addLine (contents l e) body) else contents l e.
  Proof.
    unfold AssignerSpec.contents. rewrite filter_app. cbn [filter fst].
    destruct ((e - p <=? ts) && (ts <? e)).
    - rewrite fold_left_app. auto.
    - rewrite app_nil_r. auto.
  Qed.

  Lemma slot_other l ts body i j : e0 + (i - 1) * p <= ts < e0 + i * p -> i <> j ->
    slot (l ++ [(ts, body)]) j = slot l j.
  Proof.
    intros H N. unfold slot. rewrite contents_snoc.
    replace ((e0 + j * p - p <=? ts) && (ts <? e0 + j * p)) with false; auto.
    symmetry. apply andb_false_iff. destruct (Z.lt_ge_cases i j); [left|right]; nia.
  Qed.

  Lemma slot_same l ts body i : e0 + (i - 1) * p <= ts < e0 + i * p ->
    slot (l ++ [(ts, body)]) i = (e0 + i * p, fst (addLine (contents l (e0 + i * p)) body)).
  Proof.
    intros H. unfold slot. rewrite contents_snoc.
    replace ((e0 + i * p - p <=? ts) && (ts <? e0 + i * p)) with true by lia. auto.
  Qed.

  Lemma line_step a k l line now : 0 <= k -> Inv a k l ->
    exists errs l', (forall rest errs' l'', takes k l' rest errs' l'' -> takes k l ((line, now) :: rest) (errs ++ errs') l'') /\
      snd (update_line B E addLine a line now) = errs /\ Inv (fst (update_line B E addLine a line now)) k l'.
  Proof.
    intros Hk [-> F]. unfold update_line. pose proof (stamp_spec line now) as St.
    destruct (assignTimestamp line now) as [ts body]. cbn [fst snd] in St.
    cbn [a_tmin a_prev a_curr a_next a_period slot fst snd].
    destruct (Z.ltb_spec ts (e0 + (k - 2) * p)) as [L0|L0].
    { exists [UTooOld line], l. split; [|split; [auto|split; auto]].
      intros. cbn [app]. eapply takes_old; eauto. }
    assert (A : forall i, k - 1 <= i <= k + 1 -> e0 + (i - 1) * p <= ts < e0 + i * p ->
      exists l', (forall rest errs' l'', takes k l' rest errs' l'' -> takes k l ((line, now) :: rest)
         (map (fun e => ULine e line) (snd (addLine (contents l (e0 + i * p)) body)) ++ errs') l'') /\
        l' = l ++ [(ts, body)] /\ Forall (fun x => e0 - 2 * p <= fst x < e0 + (k + 1) * p) l').
    { intros i Hi Ht. exists (l ++ [(ts, body)]). split; [|split; auto].
      - intros. eapply takes_ok; eauto.
      - apply Forall_app. split; auto. constructor; [|constructor]. cbn [fst]. nia. }
    destruct (Z.ltb_spec ts (e0 + (k - 1) * p)) as [L1|L1].
    { destruct (A (k - 1)) as (l' & T & -> & Fl); [lia|lia|].
      exists (map (fun e => ULine e line) (snd (addLine (contents l (e0 + (k - 1) * p)) body))), (l ++ [(ts, body)]).
      split; [auto|].
      rewrite (surjective_pairing (addLine _ _)). cbn [fst snd]. split; [auto|]. split; auto.
      rewrite (slot_same l ts body (k - 1)) by lia. rewrite (slot_other l ts body (k - 1) (k)) by lia. rewrite (slot_other l ts body (k - 1) (k + 1)) by lia. auto. }
    destruct (Z.ltb_spec ts (e0 + k * p)) as [L2|L2].
    { destruct (A k) as (l' & T & -> & Fl); [lia|lia|].
      exists (map (fun e => ULine e line) (snd (addLine (contents l (e0 + k * p)) body))), (l ++ [(ts, body)]).
      split; [auto|].
      rewrite (surjective_pairing (addLine _ _)). cbn [fst snd]. split; [auto|]. split; auto.
      rewrite (slot_same l ts body (k)) by lia. rewrite (slot_other l ts body (k) (k - 1)) by lia. rewrite (slot_other l ts body (k) (k + 1)) by lia. auto. }
    destruct (Z.ltb_spec ts (e0 + (k + 1) * p)) as [L3|L3].
    { destruct (A (k + 1)) as (l' & T & -> & Fl); [lia|lia|].
      exists (map (fun e => ULine e line) (snd (addLine (contents l (e0 + (k + 1) * p)) body))), (l ++ [(ts, body)]).
      split; [auto|].
      rewrite (surjective_pairing (addLine _ _)). cbn [fst snd]. split; [auto|]. split; auto.
      rewrite (slot_same l ts body (k + 1)) by lia. rewrite (slot_other l ts body (k + 1) (k - 1)) by lia. rewrite (slot_other l ts body (k + 1) (k)) by lia. auto. }
    exists [UTooNew line], l. split; [|split; [auto|split; auto]].
    intros. cbn [app]. eapply takes_new; eauto.
  Qed.

  Lemma update_lines_step k : 0 <= k -> forall ls a l clk, Inv a k l ->
    exists l', takes k l (combine (filter nonempty ls) (map clk (seq 0 (length (filter nonempty ls)))))
                 (snd (update_lines B E addLine a ls clk)) l' /\
      Inv (fst (update_lines B E addLine a ls clk)) k l'.
  Proof.
    intros Hk. induction ls as [|line ls IH]; intros a l clk I.
    - exists l. split; [constructor|auto].
    - cbn [update_lines filter]. destruct line as [|c line]; [cbn [nonempty]; apply IH; auto|].
      cbn [nonempty length seq map combine].
      destruct (line_step a k l (c :: line) (clk O) Hk I) as (errs & l1 & T & E1 & I1).
      destruct (update_line B E addLine a (c :: line) (clk 0%nat)) as [a1 e1]. cbn [fst snd] in E1, I1. subst e1.
      destruct (IH a1 l1 (fun k => clk (S k)) I1) as (l' & T2 & I2).
      destruct (update_lines B E addLine a1 ls (fun k => clk (S k))) as [a2 e2]. cbn [fst snd] in T2, I2 |- *.
      exists l'. split; auto. apply T.
      rewrite <- seq_shift, map_map. auto.
  Qed.

  Lemma call_step a k l cs ans c : 0 <= k -> Inv a k l -> history cs ans k l ->
    exists k' l', history (cs ++ [c]) (ans ++ [snd (do_call B E newBucket addLine a c)]) k' l' /\
      0 <= k' /\ Inv (fst (do_call B E newBucket addLine a c)) k' l'.
  Proof.
    intros Hk I H. destruct c as [data clk|now]; cbn [do_call].
    - unfold Update. destruct (update_lines_step k Hk (Split data) a l clk I) as (l' & T & I').
      rewrite Split_lines in T. destruct (update_lines B E addLine a (Split data) clk) as [a' errs]. cbn [fst snd] in *.
      exists k, l'. split; [|auto]. eapply h_update; eauto.
    - unfold emit. destruct I as [-> F]. cbn [a_curr a_next a_prev a_period slot fst].
      destruct (Z.ltb_spec now (e0 + k * p)) as [L|L].
      + cbn [fst snd]. exists k, l. split; [apply h_wait; auto|]. split; auto. split; auto.
      + cbn [fst snd]. exists (k + 1), l. split; [apply h_emit; auto|]. split; [lia|]. split.
        * rewrite next_aligned by (auto; apply aligned_shift; auto).
          replace (k + 1 - 1) with k by lia. replace (k + 1 - 2) with (k - 1) by lia. f_equal; [| lia].
          unfold slot. replace (e0 + (k + 1 + 1) * p) with (e0 + (k + 1) * p + p) by lia. f_equal.
          unfold AssignerSpec.contents. replace (filter _ l) with (@nil (Z * bytes)); auto.
          symmetry. clear -F. induction F as [|x l Hx F IH]; auto. cbn [filter].
          replace ((e0 + (k + 1) * p + p - p <=? fst x) && (fst x <? e0 + (k + 1) * p + p)) with false by lia. auto.
        * eapply Forall_impl; [|exact F]. cbn beta. intros x Hx. nia.
  Qed.

  Lemma do_calls_snoc cs : forall a c, do_calls B E newBucket addLine a (cs ++ [c]) =
    let (a1, rs) := do_calls B E newBucket addLine a cs in
    let (a2, r) := do_call B E newBucket addLine a1 c in (a2, rs ++ [r]).
  Proof.
    induction cs as [|d cs IH]; intros a c; cbn [app do_calls].
    - destruct (do_call B E newBucket addLine a c); auto.
    - destruct (do_call B E newBucket addLine a d) as [a1 r]. rewrite IH.
      destruct (do_calls B E newBucket addLine a1 cs) as [a2 rs].
      destruct (do_call B E newBucket addLine a2 c); auto.
  Qed.

  Lemma refines now0 cs : period_end p now0 e0 ->
    exists k l, history cs (snd (do_calls B E newBucket addLine (newAssigner B newBucket p now0) cs)) k l /\
      0 <= k /\ Inv (fst (do_calls B E newBucket addLine (newAssigner B newBucket p now0) cs)) k l.
  Proof.
    intros P. induction cs as [|c cs IH] using rev_ind.
    - exists 0, []. split; [constructor|]. split; [lia|]. split; [|constructor].
      cbn [do_calls fst]. unfold newAssigner. rewrite (nextT_end p now0 e0) by auto.
      rewrite prev_aligned, next_aligned by auto. unfold slot, AssignerSpec.contents. cbn [filter fold_left].
      replace (e0 + (0 - 1) * p) with (e0 - p) by lia. replace (e0 + 0 * p) with e0 by lia.
      replace (e0 + (0 + 1) * p) with (e0 + p) by lia. replace (e0 + (0 - 2) * p) with (e0 - p - p) by lia. auto.
    - destruct IH as (k & l & H & Hk & I). rewrite do_calls_snoc.
      destruct (do_calls B E newBucket addLine (newAssigner B newBucket p now0) cs) as [a1 rs]. cbn [fst snd] in H, I.
      destruct (call_step a1 k l cs rs c Hk I H) as (k' & l' & H' & Hk' & I').
      destruct (do_call B E newBucket addLine a1 c) as [a2 r]. cbn [fst snd] in *. eauto.
  Qed.

  (* -------------------------------------------------------------- *)
  (** * Consequences for histories *)

  (** The log only grows; entries have timestamps above what was already emitted. *)
  Lemma takes_log k l ls errs l' : takes k l ls errs l' -> exists new, l' = l ++ new /\
    Forall (fun x => e0 + (k - 2) * p <= fst x < e0 + (k + 1) * p) new.
  Proof.
    induction 1 as [l | l line now ts body rest errs l' St H0 H1 IH | l line now ts body rest errs l' St H0 H1 IH
                    | l line now ts body i rest errs l' St Hi H0 H1 IH].
    - exists []. rewrite app_nil_r. auto.
    - auto.
    - auto.
    - destruct IH as (new & -> & F). exists ((ts, body) :: new). rewrite <- app_assoc. split; auto.
      constructor; auto. cbn [fst]. nia.
  Qed.

  Lemma contents_stable l new e : Forall (fun x => e <= fst x) new -> contents (l ++ new) e = contents l e.
  Proof.
    intros F. unfold AssignerSpec.contents. rewrite filter_app. replace (filter _ new) with (@nil (Z * bytes)); [rewrite app_nil_r; auto|].
    symmetry. induction F as [|x n Hx F IH]; auto. cbn [filter].
    replace ((e - p <=? fst x) && (fst x <? e)) with false by lia. auto.
  Qed.

  Lemma history_len cs ans k l : history cs ans k l -> length cs = length ans.
  Proof. induction 1; rewrite ?app_length; simpl; lia. Qed.

  Lemma history_emitted cs ans k l : history cs ans k l -> 0 <= k /\
    length (emitted cs ans) = Z.to_nat k /\
    (forall j now e b, nth_error (emitted cs ans) j = Some (now, (e, b)) ->
       e = e0 + (Z.of_nat j - 1) * p /\ e + p <= now /\ b = contents l e) /\
    Forall (fun x => e0 - 2 * p <= fst x < e0 + (k + 1) * p) l.
  Proof.
    induction 1 as [| cs ans k l data clk errs l' H IH T | cs ans k l now H IH L | cs ans k l now H IH L].
    - split; [lia|]. split; auto. split; [|constructor]. intros [] ? ? ?; discriminate.
    - destruct IH as (Hk & Ln & Hj & F). split; auto.
      rewrite emitted_app by (eapply history_len; eauto). cbn [emitted]. rewrite app_nil_r. split; auto.
      destruct (takes_log _ _ _ _ _ T) as (new & -> & Fn). split.
      + intros j now e b Hn. assert (J : (j < length (emitted cs ans))%nat) by (apply nth_error_Some; congruence).
        destruct (Hj _ _ _ _ Hn) as (Ee & Hnow & Eb). split; auto. split; auto. rewrite contents_stable; auto.
        eapply Forall_impl; [|exact Fn]. cbn beta. intros x Hx. subst e. nia.
      + apply Forall_app. split; auto. eapply Forall_impl; [|exact Fn]. cbn beta. intros x Hx. nia.
    - destruct IH as (Hk & Ln & Hj & F). split; auto.
      rewrite emitted_app by (eapply history_len; eauto). cbn [emitted]. rewrite app_nil_r. split; auto.
    - destruct IH as (Hk & Ln & Hj & F). split; [lia|].
      rewrite emitted_app by (eapply history_len; eauto). cbn [emitted]. rewrite app_length. cbn [length].
      split; [lia|]. split.
      + intros j now' e b Hn. destruct (Nat.lt_ge_cases j (length (emitted cs ans))) as [J|J].
        * rewrite nth_error_app1 in Hn by auto. eauto.
        * rewrite nth_error_app2 in Hn by auto.
          destruct (j - length (emitted cs ans))%nat as [|n] eqn:Ej; cbn [nth_error] in Hn; [|destruct n; discriminate].
          inversion Hn; subst. replace (Z.of_nat j) with k by lia. split; auto. split; [lia|auto].
      + eapply Forall_impl; [|exact F]. cbn beta. intros x Hx. nia.
  Qed.

  (** Histories are functions of the calls. *)
  Lemma stamped_fun line now ts body ts' body' : stamped line now ts body -> stamped line now ts' body' -> ts = ts' /\ body = body'.
  Proof.
    intros [(L & txt & S1)|(N & -> & ->)] [(L' & txt' & S2)|(N' & -> & ->)]; auto.
    - assert (T1 : line_ts line ts (Z.of_nat (length body) + 1)) by (exists body, txt; auto).
      assert (T2 : line_ts line ts' (Z.of_nat (length body') + 1)) by (exists body', txt'; auto).
      apply ExtractTimestamp_iff in T1; auto. apply ExtractTimestamp_iff in T2; auto.
      destruct T1 as [T1 _], T2 as [T2 _]. rewrite T1 in T2. inversion T2. split; auto.
      destruct S1 as (C1 & _), S2 as (C2 & _). apply chomp_prefix in C1. apply chomp_prefix in C2.
      replace (length body') with (length body) in C2 by lia. congruence.
    - exfalso. destruct N' as [N'|N']; [lia|]. apply N'. eauto.
    - exfalso. destruct N as [N|N]; [lia|]. apply N. eauto.
  Qed.

  (** The timer of the worker. *)
  Lemma timer_emits a now now' k l : Inv a k l -> now + UntilNext B a now <= now' ->
    exists eb a', emit B newBucket a now' = (a', Some eb).
  Proof.
    intros [-> _]. unfold UntilNext, emit. cbn [a_curr slot fst]. intros H.
    replace (now' <? e0 + k * p) with false by lia. eauto.
  Qed.

  Lemma timer_waits a now now' k l : Inv a k l -> now <= now' -> now' < now + UntilNext B a now -> emit B newBucket a now' = (a, None).
  Proof.
    intros [-> _]. unfold UntilNext, emit. cbn [a_curr slot fst]. intros H H'.
    replace (now' <? e0 + k * p) with true by lia. auto.
  Qed.
End Ref.
