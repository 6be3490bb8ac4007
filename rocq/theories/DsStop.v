(** What becomes of accepted lines: emitted, or still in one of the three open buckets. *)
From Verif Require Import Base LinesSpec NumSpec Assigner AssignerSpec AssignerProofs DsProofs DsMain.
Local Open Scope Z_scope.

Section S.
  Variables (B E : Type).
  Variable nb : Z -> B.
  Variable ad : B -> bytes -> B * list E.
  Variables p e0 : Z.
  Hypothesis Hp : 0 < p.

  (** The line with this time is in a bucket that has been emitted. *)
  Definition was_emitted (cs : list call) (ans : list (answer B E)) (l : log) (ts : Z) : Prop :=
    exists j now e b, nth_error (emitted cs ans) j = Some (now, (e, b)) /\ e - p <= ts < e /\ b = contents B E nb ad p l e.

  Lemma fate_of cs ans k l x : (e0 + goEpoch) mod p = 0 -> history B E nb ad p e0 cs ans k l -> In x l ->
    (fst x < e0 + (k - 2) * p -> was_emitted cs ans l (fst x)) /\
    (e0 + (k - 2) * p <= fst x -> ~ was_emitted cs ans l (fst x)).
  Proof.
    intros Al H I. destruct (history_emitted B E nb ad p e0 Hp Al _ _ _ _ H) as (Hk & L & J & F).
    rewrite Forall_forall in F. specialize (F x I). cbn beta in F. split.
    - intros Lt. set (j := Z.to_nat ((fst x - (e0 - 2 * p)) / p)).
      pose proof (Z.div_pos (fst x - (e0 - 2 * p)) p ltac:(lia) Hp) as D0.
      pose proof (Z.mul_div_le (fst x - (e0 - 2 * p)) p Hp) as D1.
      pose proof (Z.mul_succ_div_gt (fst x - (e0 - 2 * p)) p Hp) as D2.
      assert (Ej : Z.of_nat j = (fst x - (e0 - 2 * p)) / p) by (unfold j; lia).
      assert (Lj : (j < length (emitted cs ans))%nat).
      { apply Nat2Z.inj_lt. rewrite Ej. apply Z.div_lt_upper_bound; [exact Hp|]. nia. }
      destruct (nth_error (emitted cs ans) j) as [[now [e b]]|] eqn:En; [|apply nth_error_None in En; lia].
      destruct (J _ _ _ _ En) as (E1 & _ & E3). exists j, now, e, b. split; [auto|]. split; [|auto]. nia.
    - intros Ge (j & now & e & b & En & R & _). destruct (J _ _ _ _ En) as (E1 & _ & _).
      assert (Lj : (j < length (emitted cs ans))%nat) by (apply nth_error_Some; congruence). nia.
  Qed.

  Lemma history_bytes cs now ans' k' l : history B E nb ad p e0 (cs ++ [CBytes now]) ans' k' l ->
    exists ans a k, ans' = ans ++ [a] /\ history B E nb ad p e0 cs ans k l /\ (e0 + k * p <= now -> k' = k + 1).
  Proof.
    intros H. inversion H as [X|cs0 ans0 k0 l0 data clk errs l1 H1 T X|cs0 ans0 k0 l0 now0 H1 N X|cs0 ans0 k0 l0 now0 H1 N X].
    - destruct cs; discriminate.
    - apply app_inj_tail in X. destruct X; discriminate.
    - apply app_inj_tail in X. destruct X as [-> X]. inversion X; subst. exists ans0, ANothing, k'. split; auto. split; auto. lia.
    - apply app_inj_tail in X. destruct X as [-> X]. inversion X; subst. eexists ans0, _, k0. split; auto.
  Qed.
End S.

Lemma lines_fate : forall (B E : Type) (newBucket : Z -> B) (addLine : B -> bytes -> B * list E) p now0 e0 calls,
  0 < p -> period_end p now0 e0 ->
  let answers := snd (do_calls B E newBucket addLine (newAssigner B newBucket p now0) calls) in
  exists k l, history B E newBucket addLine p e0 calls answers k l /\
    Forall (fun x => (fst x < e0 + (k - 2) * p /\ was_emitted B E newBucket addLine p calls answers l (fst x)) \/
                     (e0 + (k - 2) * p <= fst x < e0 + (k + 1) * p /\ ~ was_emitted B E newBucket addLine p calls answers l (fst x))) l.
Proof.
  intros B E nb ad p now0 e0 calls Hp P. cbn zeta.
  destruct (refines B E nb ad p e0 Hp (proj2 P) now0 calls P) as (k & l & H & Hk & _ & _).
  exists k, l. split; auto. apply Forall_forall. intros x I.
  destruct (fate_of B E nb ad p e0 Hp _ _ k l x (proj2 P) H I) as [F1 F2].
  destruct (history_emitted B E nb ad p e0 Hp (proj2 P) _ _ _ _ H) as (_ & _ & _ & F).
  rewrite Forall_forall in F. specialize (F x I). cbn beta in F.
  destruct (Z_lt_le_dec (fst x) (e0 + (k - 2) * p)); [left; auto|right; split; [lia|auto]].
Qed.

Lemma lines_drained : forall (B E : Type) (newBucket : Z -> B) (addLine : B -> bytes -> B * list E) p now0 e0 calls n1 n2 n3,
  0 < p -> period_end p now0 e0 ->
  let run cs := snd (do_calls B E newBucket addLine (newAssigner B newBucket p now0) cs) in
  let K := Z.of_nat (length (emitted calls (run calls))) in
  e0 + K * p <= n1 -> e0 + (K + 1) * p <= n2 -> e0 + (K + 2) * p <= n3 ->
  let calls' := calls ++ [CBytes n1; CBytes n2; CBytes n3] in
  exists k l, history B E newBucket addLine p e0 calls (run calls) k l /\
    Forall (fun x => was_emitted B E newBucket addLine p calls' (run calls') l (fst x)) l.
Proof.
  intros B E nb ad p now0 e0 calls n1 n2 n3 Hp P run K H1 H2 H3 calls'.
  destruct (refines B E nb ad p e0 Hp (proj2 P) now0 calls' P) as (k' & l' & H & _ & _ & _).
  fold (run calls') in H. pose proof H as Hfull.
  assert (Er : exists r', run calls' = run calls ++ r').
  { unfold run, calls'. rewrite do_calls_app.
    destruct (do_calls B E nb ad (newAssigner B nb p now0) calls) as [a r]. cbn [fst snd].
    destruct (do_calls B E nb ad a [CBytes n1; CBytes n2; CBytes n3]) as [a' r']. cbn [fst snd]. eauto. }
  destruct Er as (r' & Er).
  assert (Ln : length (run calls) = length calls) by (apply do_calls_len).
  set (ans' := run calls') in *. clearbody ans'.
  assert (Ec : calls' = ((calls ++ [CBytes n1]) ++ [CBytes n2]) ++ [CBytes n3]) by (unfold calls'; rewrite <- !app_assoc; reflexivity).
  rewrite Ec in H.
  destruct (history_bytes _ _ _ _ _ _ _ _ _ _ _ H) as (a3 & x3 & k3 & E3 & G3 & F3).
  destruct (history_bytes _ _ _ _ _ _ _ _ _ _ _ G3) as (a2 & x2 & k2 & E2 & G2 & F2).
  destruct (history_bytes _ _ _ _ _ _ _ _ _ _ _ G2) as (a1 & x1 & k1 & E1 & G1 & F1).
  assert (Ea : a1 = run calls).
  { subst a2 a3. rewrite Er in E3. rewrite <- !app_assoc in E3. symmetry in E3.
    pose proof (history_len B E nb ad p e0 Hp _ _ _ _ G1) as Lh.
    set (r := run calls) in *. clearbody r.
    assert (X : length a1 = length r) by lia. clear -E3 X. revert r X E3.
    induction a1 as [|y a1 IH]; intros [|z r] X E3; try discriminate; auto. cbn in E3. inversion E3. f_equal. apply IH; auto. }
  subst a1. exists k1, l'. split; auto.
  destruct (history_emitted B E nb ad p e0 Hp (proj2 P) _ _ _ _ G1) as (Hk1 & L1 & _ & F).
  assert (EK : K = k1) by (unfold K; lia). rewrite EK in *.
  specialize (F1 H1). rewrite F1 in F2. specialize (F2 H2). rewrite F2 in F3.
  assert (F3' : k' = k1 + 3) by (specialize (F3 ltac:(lia)); lia).
  apply Forall_forall. intros x I. rewrite Forall_forall in F. specialize (F x I). cbn beta in F.
  apply (fate_of B E nb ad p e0 Hp _ _ k' l' x (proj2 P) Hfull I). nia.
Qed.

(** A line without timestamp is accepted at once; if the downsampler is stopped then (worker loop left,
    downsampler/downsampler.go:160-162), nothing of it was ever emitted. *)
Lemma stop_loses : forall (B E : Type) (newBucket : Z -> B) (addLine : B -> bytes -> B * list E) p now0 e0,
  0 < p -> period_end p now0 e0 ->
  let calls := [CUpdate (lit "m x=1") (fun _ => now0)] in
  let answers := snd (do_calls B E newBucket addLine (newAssigner B newBucket p now0) calls) in
  history B E newBucket addLine p e0 calls answers 0 [(now0, lit "m x=1")] /\ emitted calls answers = [].
Proof.
  intros B E nb ad p now0 e0 Hp P. cbn zeta.
  destruct (refines B E nb ad p e0 Hp (proj2 P) now0 [CUpdate (lit "m x=1") (fun _ => now0)] P) as (k & l & H & Hk & _ & _).
  assert (A : snd (do_calls B E nb ad (newAssigner B nb p now0) [CUpdate (lit "m x=1") (fun _ => now0)]) =
              [AErrors (snd (Update B E ad (newAssigner B nb p now0) (lit "m x=1") (fun _ => now0)))]).
  { cbn [do_calls do_call]. destruct (Update B E ad _ _ _). reflexivity. }
  split; [|rewrite A; reflexivity].
  enough (X : k = 0 /\ l = [(now0, lit "m x=1")]) by (destruct X; subst; exact H).
  clear A. inversion H as [X|cs0 ans0 k0 l0 data clk errs l1 H1 T X|cs0 ans0 k0 l0 now1 H1 N X|cs0 ans0 k0 l0 now1 H1 N X].
  all: apply (app_inj_tail _ []) in X; destruct X as [-> X]; inversion X.
  subst data clk k0 l1.
  assert (Z0 : k = 0 /\ l0 = []).
  { inversion H1 as [Y|c1 ? ? ? ? ? ? ? ? ? Y|c1 ? ? ? ? ? ? Y|c1 ? ? ? ? ? ? Y]; auto; destruct c1; discriminate. }
  destruct Z0 as [-> ->]. split; auto.
  replace (full_lines (lit "m x=1")) with [lit "m x=1"] in T by reflexivity. cbn [length seq map combine] in T.
  assert (U : stamped (lit "m x=1") now0 now0 (lit "m x=1")) by (right; split; [left; vm_compute; lia|auto]).
  destruct P as [P _].
  inversion T as [| ? line now ts body rest errs0 l2 St Lt T2|? line now ts body rest errs0 l2 St Lt T2|? line now ts body i rest errs0 l2 St Hi R T2]; subst.
  - destruct (stamped_fun unit unit (fun _ => tt) (fun b _ => (b, [])) 1 0 eq_refl _ _ _ _ _ _ St U). nia.
  - destruct (stamped_fun unit unit (fun _ => tt) (fun b _ => (b, [])) 1 0 eq_refl _ _ _ _ _ _ St U). nia.
  - destruct (stamped_fun unit unit (fun _ => tt) (fun b _ => (b, [])) 1 0 eq_refl _ _ _ _ _ _ St U). subst.
    inversion T2; subst. reflexivity.
Qed.
