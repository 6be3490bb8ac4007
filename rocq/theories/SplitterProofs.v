From Verif Require Import Base Timestamps NumProofs Splitter LinesSpec.

Lemma back_nl_Some buf : forall i j, back_nl buf i = Some j ->
  j <= i /\ nth_error buf j = Some nl /\ forall k, j < k <= i -> nth_error buf k <> Some nl.
Proof.
  induction i as [|i IH]; intros j H; cbn [back_nl] in H.
  - destruct (byte_at buf 0 nl) eqn:E; inversion H; subst. apply byte_at_true in E. repeat split; auto; lia.
  - destruct (byte_at buf (S i) nl) eqn:E.
    + inversion H; subst. apply byte_at_true in E. repeat split; auto; lia.
    + apply IH in H. destruct H as (A & B & C). repeat split; auto.
      intros k Hk. destruct (Nat.eq_dec k (S i)); [subst; rewrite <- byte_at_true, E; discriminate | apply C; lia].
Qed.

Lemma back_nl_None buf : forall i, back_nl buf i = None -> forall k, k <= i -> nth_error buf k <> Some nl.
Proof.
  induction i as [|i IH]; intros H k Hk; cbn [back_nl] in H.
  - destruct (byte_at buf 0 nl) eqn:E; [discriminate|]. replace k with 0 by lia.
    rewrite <- byte_at_true, E; discriminate.
  - destruct (byte_at buf (S i) nl) eqn:E; [discriminate|].
    destruct (Nat.eq_dec k (S i)); [subst; rewrite <- byte_at_true, E; discriminate | apply IH; auto; lia].
Qed.

Lemma Next_None cs buf : Next cs buf = None <-> buf = [].
Proof.
  unfold Next. destruct buf; split; auto; try discriminate.
  destruct (length (a :: buf) <=? cs); [discriminate|]. destruct (back_nl _ _); discriminate.
Qed.

Lemma Next_split cs buf c rest : Next cs buf = Some (c, rest) -> buf = c ++ rest.
Proof.
  unfold Next. destruct buf as [|x buf]; [discriminate|].
  destruct (length (x :: buf) <=? cs).
  - intros H; inversion H; subst. rewrite app_nil_r; auto.
  - destruct (back_nl (x :: buf) cs); intros H; inversion H; subst; symmetry; apply firstn_skipn.
Qed.

Lemma Next_nonempty cs buf c rest : 1 <= cs -> Next cs buf = Some (c, rest) -> c <> [].
Proof.
  unfold Next. intros L. destruct buf as [|x buf]; [discriminate|].
  destruct (length (x :: buf) <=? cs).
  - intros H; inversion H; subst. discriminate.
  - destruct (back_nl (x :: buf) cs) as [i|]; intros H; inversion H; subst.
    + rewrite Nat.add_1_r. discriminate.
    + destruct cs; [lia|]. discriminate.
Qed.

(** Size of one chunk. *)
Lemma Next_size cs buf c rest : Next cs buf = Some (c, rest) ->
  length c <= cs \/ (length c = cs + 1 /\ cs < length buf /\ exists p, c = p ++ [nl]).
Proof.
  unfold Next. destruct buf as [|x buf]; [discriminate|].
  destruct (Nat.leb_spec (length (x :: buf)) cs).
  - intros E; inversion E; subst. auto.
  - destruct (back_nl (x :: buf) cs) as [i|] eqn:B; intros E; inversion E; subst; clear E.
    + apply back_nl_Some in B. destruct B as (A & B & _).
      rewrite firstn_length_le by lia.
      destruct (Nat.eq_dec i cs) as [->|]; [|left; lia]. right. split; auto. split; auto.
      exists (firstn cs (x :: buf)). remember (x :: buf) as b.
      rewrite (byte_at_split _ _ _ B) at 1.
      rewrite firstn_app, firstn_firstn. rewrite firstn_length_le by lia.
      replace (Nat.min (cs + 1) cs) with cs by lia. replace (cs + 1 - cs) with 1 by lia. auto.
    + left. rewrite firstn_length_le by lia. lia.
Qed.

(** A chunk not exhausting the buffer ends in a newline unless its line is too long. *)
Lemma Next_newline cs buf c rest : Next cs buf = Some (c, rest) -> rest <> [] ->
  (exists p, c = p ++ [nl]) \/ (c = firstn cs buf /\ cs < length buf /\ ~ In nl (firstn (cs + 1) buf)).
Proof.
  unfold Next. destruct buf as [|x buf]; [discriminate|].
  destruct (Nat.leb_spec (length (x :: buf)) cs).
  - intros E; inversion E; subst. congruence.
  - destruct (back_nl (x :: buf) cs) as [i|] eqn:B; intros E Hr; inversion E; subst; clear E.
    + left. apply back_nl_Some in B. destruct B as (A & B & _).
      exists (firstn i (x :: buf)). remember (x :: buf) as b.
      rewrite (byte_at_split _ _ _ B) at 1.
      rewrite firstn_app, firstn_firstn. rewrite firstn_length_le by lia.
      replace (Nat.min (i + 1) i) with i by lia. replace (i + 1 - i) with 1 by lia. auto.
    + right. split; auto. split; auto. intros I. apply In_nth_error in I. destruct I as [k Hk].
      assert (Lk : k < length (firstn (cs + 1) (x :: buf))) by (apply nth_error_Some; congruence).
      rewrite firstn_length in Lk.
      apply (back_nl_None _ _ B k); [lia|].
      rewrite <- (firstn_skipn (cs + 1) (x :: buf)). rewrite nth_error_app1; auto.
      rewrite firstn_length. lia.
Qed.

Lemma split_loop_concat cs : forall fuel buf l r, split_loop fuel cs buf = (l, r) -> concat l ++ r = buf.
Proof.
  induction fuel as [|f IH]; intros buf l r H; cbn [split_loop] in H.
  - inversion H; auto.
  - destruct (Next cs buf) as [[c rest]|] eqn:E; [|inversion H; auto].
    destruct (split_loop f cs rest) as [l' r'] eqn:E2. inversion H; subst. apply Next_split in E. subst buf.
    simpl. rewrite <- app_assoc. f_equal. eauto.
Qed.

Lemma split_loop_done cs : 1 <= cs -> forall fuel buf, length buf <= fuel -> snd (split_loop fuel cs buf) = [].
Proof.
  intros Hc. induction fuel as [|f IH]; intros buf L; cbn [split_loop].
  - destruct buf; simpl in *; auto; lia.
  - destruct (Next cs buf) as [[c rest]|] eqn:E.
    + pose proof (Next_nonempty _ _ _ _ Hc E). apply Next_split in E. subst buf.
      rewrite app_length in L. destruct c; [congruence|]. simpl in L.
      specialize (IH rest). destruct (split_loop f cs rest). simpl in *. apply IH. lia.
    + apply Next_None in E. auto.
Qed.

Lemma split_all_complete cs buf : 1 <= cs -> split_loop (length buf) cs buf = (split_all cs buf, []).
Proof.
  intros H. unfold split_all. pose proof (split_loop_done cs H (length buf) buf (le_n _)) as D.
  destruct (split_loop (length buf) cs buf) as [l r]. cbn [fst snd] in *. rewrite D. reflexivity.
Qed.

Lemma split_all_concat cs buf : 1 <= cs -> concat (split_all cs buf) = buf.
Proof.
  intros H. pose proof (split_all_complete cs buf H) as E. apply split_loop_concat in E.
  rewrite app_nil_r in E. auto.
Qed.

Lemma split_loop_fuel cs : 1 <= cs -> forall f1 f2 buf, length buf <= f1 -> length buf <= f2 ->
  split_loop f1 cs buf = split_loop f2 cs buf.
Proof.
  intros Hc. induction f1 as [|f1 IH]; intros f2 buf L1 L2.
  - destruct buf; simpl in *; [|lia]. destruct f2; auto.
  - destruct f2 as [|f2].
    + destruct buf; simpl in *; [auto|lia].
    + cbn [split_loop]. destruct (Next cs buf) as [[c rest]|] eqn:E; auto.
      pose proof (Next_nonempty _ _ _ _ Hc E). apply Next_split in E. subst buf.
      rewrite app_length in *. destruct c; [congruence|]. simpl in *.
      rewrite (IH f2 rest) by lia. auto.
Qed.

(** Unfolding equation of [split_all]. *)
Lemma split_all_eq cs buf : 1 <= cs ->
  split_all cs buf = match Next cs buf with None => [] | Some (c, rest) => c :: split_all cs rest end.
Proof.
  intros Hc. unfold split_all at 1. destruct buf as [|x buf]; auto.
  cbn [length split_loop]. destruct (Next cs (x :: buf)) as [[c rest]|] eqn:E; auto.
  pose proof (Next_nonempty _ _ _ _ Hc E). pose proof (Next_split _ _ _ _ E) as S.
  assert (L : length rest <= length buf).
  { apply (f_equal (@length _)) in S. rewrite app_length in S. destruct c; [congruence|]. simpl in S. lia. }
  rewrite (split_loop_fuel cs Hc (length buf) (length rest)) by lia.
  unfold split_all. destruct (split_loop (length rest) cs rest). auto.
Qed.

Lemma split_all_ind cs (P : bytes -> list bytes -> Prop) : 1 <= cs ->
  P [] [] ->
  (forall buf c rest, Next cs buf = Some (c, rest) -> P rest (split_all cs rest) -> P buf (c :: split_all cs rest)) ->
  forall buf, P buf (split_all cs buf).
Proof.
  intros Hc H0 HS buf. remember (length buf) as n eqn:En. assert (L : length buf <= n) by lia. clear En.
  revert buf L; induction n as [|n IH]; intros buf L.
  - destruct buf; simpl in *; auto; lia.
  - rewrite split_all_eq by auto. destruct (Next cs buf) as [[c rest]|] eqn:E.
    + apply HS; auto. apply IH.
      pose proof (Next_nonempty _ _ _ _ Hc E). apply Next_split in E. subst buf.
      rewrite app_length in L. destruct c; [congruence|]. simpl in L. lia.
    + apply Next_None in E. subst. auto.
Qed.

Lemma split_all_nonempty cs buf : 1 <= cs -> Forall (fun c => c <> []) (split_all cs buf).
Proof.
  intros Hc. apply split_all_ind; auto. intros b c rest E H. constructor; auto. eapply Next_nonempty; eauto.
Qed.

Lemma split_all_size cs buf : 1 <= cs ->
  Forall (fun c => length c <= cs \/ (length c = cs + 1 /\ exists p, c = p ++ [nl])) (split_all cs buf).
Proof.
  intros Hc. apply split_all_ind; auto. intros b c rest E H. constructor; auto.
  apply Next_size in E. tauto.
Qed.

Lemma split_all_small cs buf : buf <> [] -> length buf <= cs -> split_all cs buf = [buf].
Proof.
  intros Hn L. unfold split_all. destruct buf as [|x buf]; [congruence|].
  cbn [length split_loop]. unfold Next. replace (length (x :: buf) <=? cs) with true by (symmetry; apply Nat.leb_le; auto).
  destruct (length buf); auto.
Qed.

Lemma lines_of_fit_first cs b : Forall (fun l => length l <= cs) (lines_of b) -> cs < length b -> In nl (firstn cs b).
Proof.
  intros H L. destruct (in_dec ascii_dec nl b) as [I|I].
  - assert (X : exists q1 q2, b = q1 ++ nl :: q2 /\ ~ In nl q1).
    { clear -I. induction b as [|c b IH]; [contradiction|].
      destruct (ascii_dec c nl) as [->|N].
      - exists [], b; simpl; auto.
      - destruct I as [I|I]; [congruence|]. destruct (IH I) as (q1 & q2 & -> & H).
        exists (c :: q1), q2. simpl. intuition. }
    destruct X as (q1 & q2 & -> & Hq). rewrite lines_of_nl_app in H by auto. inversion H; subst.
    rewrite app_length in H2. simpl in H2.
    rewrite firstn_app. apply in_or_app. right.
    destruct (cs - length q1) eqn:E; [lia|]. simpl; auto.
  - rewrite lines_of_no_nl in H; auto; [|destruct b; simpl in *; [lia|discriminate]].
    inversion H; subst. lia.
Qed.

(** Lines that fit are never broken. *)
Lemma split_all_lines cs buf : 1 <= cs -> Forall (fun l => length l <= cs) (lines_of buf) ->
  flat_map lines_of (split_all cs buf) = lines_of buf /\
  forall l1 c l2, split_all cs buf = l1 ++ c :: l2 -> l2 <> [] -> exists p, c = p ++ [nl].
Proof.
  intros Hc. apply (split_all_ind cs (fun buf cks => Forall (fun l => length l <= cs) (lines_of buf) ->
     flat_map lines_of cks = lines_of buf /\
     forall l1 c l2, cks = l1 ++ c :: l2 -> l2 <> [] -> exists p, c = p ++ [nl])); auto.
  - intros _. split; auto. intros [] ? ?; discriminate.
  - clear buf. intros buf c rest E IH Hl. pose proof (Next_split _ _ _ _ E) as S.
    destruct rest as [|y rest].
    + rewrite app_nil_r in S. subst c. change (split_all cs []) with (@nil bytes). simpl. rewrite app_nil_r. split; auto.
      intros [|? [|? ?]] c l2 X Hn; simpl in X; inversion X; subst; congruence.
    + assert (NE : exists p, c = p ++ [nl]).
      { destruct (Next_newline _ _ _ _ E) as [X|(X1 & X2 & X3)]; [discriminate|auto|].
        exfalso. apply X3. apply (lines_of_fit_first cs) in Hl; auto.
        replace (firstn (cs + 1) buf) with (firstn cs buf ++ firstn 1 (skipn cs buf)).
        - apply in_or_app; auto.
        - clear. revert buf. induction cs; intros [|b buf]; simpl; auto. f_equal. apply IHcs. }
      assert (HE : nl_ended c) by (right; auto).
      subst buf. rewrite lines_of_app in Hl by auto. apply Forall_app in Hl. destruct Hl as [Hl1 Hl2].
      destruct (IH Hl2) as [A B]. split.
      * simpl. rewrite lines_of_app by auto. congruence.
      * intros [|x l1] d l2 X Hn; simpl in X; inversion X; subst; auto. eapply B; eauto.
Qed.

(** C11 fails at every chunk size. *)
Lemma oversize_chunk cs : 1 <= cs -> exists buf c, In c (split_all cs buf) /\ length c = cs + 1.
Proof.
  intros H. set (p := repeat sp cs). exists (p ++ [nl; sp]), (p ++ [nl]).
  assert (Lp : length p = cs) by apply repeat_length.
  split; [|rewrite app_length, Lp; simpl; lia].
  rewrite split_all_eq by auto. unfold Next.
  assert (L : length (p ++ [nl; sp]) <=? cs = false) by (apply Nat.leb_gt; rewrite app_length; simpl; lia).
  destruct (p ++ [nl; sp]) as [|x l] eqn:E; [destruct p; discriminate|]. rewrite L. rewrite <- E.
  assert (B : back_nl (p ++ [nl; sp]) cs = Some cs).
  { destruct cs; cbn [back_nl]; unfold byte_at; rewrite nth_error_app2, Lp, Nat.sub_diag by lia; reflexivity. }
  rewrite B. left. rewrite firstn_app, firstn_all2 by lia.
  replace (cs + 1 - length p) with 1 by lia. reflexivity.
Qed.
