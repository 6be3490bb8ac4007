From Verif Require Import Base Timestamps NumProofs Batch BatchSpec.
Local Open Scope Z_scope.

(** What holds of every batch: the contents fit the capacity, the counter is not negative. *)
Definition Inv (b : batch) : Prop := 0 <= b_cap b /\ Size b <= b_cap b /\ 0 <= b_writes b.

(** Concrete batch [b] represents abstract batch [a]. *)
Definition rep (b : batch) (a : abatch) : Prop :=
  Inv b /\ b_buf b = a_data a /\ b_writes b = a_writes a /\
  match a_first a with None => b_writes b = 0 | Some t => 0 < b_writes b /\ b_created b = t end.

Lemma Inv_New c now : 0 <= c -> Inv (New c now).
Proof. unfold Inv, New, Size; simpl; lia. Qed.

Lemma grow_buf b : Inv b -> b_buf (grow b) = b_buf b.
Proof.
  intros (A & B & C). unfold grow; simpl. apply firstn_all2. unfold Size, maxReadSize in *.
  destruct (b_cap b * 2 <? 65536) eqn:E; lia.
Qed.

Lemma grow_cap b : Inv b -> b_cap (grow b) = if b_cap b <? 32768 then b_cap b + 65536 else b_cap b * 2.
Proof.
  intros (A & B & C). unfold grow, maxReadSize; simpl.
  destruct (Z.ltb_spec (b_cap b * 2) 65536), (Z.ltb_spec (b_cap b) 32768); lia.
Qed.

Lemma grow_writes b : b_writes (grow b) = b_writes b. Proof. auto. Qed.
Lemma grow_created b : b_created (grow b) = b_created b. Proof. auto. Qed.

Lemma grow_Size b : Inv b -> Size (grow b) = Size b.
Proof. intros H. unfold Size. rewrite grow_buf; auto. Qed.

Lemma grow_Inv b : Inv b -> Inv (grow b).
Proof.
  intros H. pose proof (grow_cap b H) as E. pose proof (grow_Size b H) as S.
  destruct H as (A & B & C). split; [|split].
  - destruct (b_cap b <? 32768) eqn:?; lia.
  - rewrite S. destruct (b_cap b <? 32768) eqn:?; lia.
  - auto.
Qed.

Lemma grow_more b : Inv b -> b_cap b + 32768 <= b_cap (grow b).
Proof. intros H. rewrite grow_cap by auto. destruct (Z.ltb_spec (b_cap b) 32768); lia. Qed.

Lemma growIfLow_same b : Inv b ->
  Inv (growIfLow b) /\ b_buf (growIfLow b) = b_buf b /\ b_writes (growIfLow b) = b_writes b /\
  b_created (growIfLow b) = b_created b /\ b_cap b <= b_cap (growIfLow b).
Proof.
  intros H. unfold growIfLow. destruct (Remaining b <? maxReadSize).
  - repeat split; auto using grow_buf; try apply grow_Inv; auto. pose proof (grow_more b H). lia.
  - repeat split; auto; try apply H. lia.
Qed.

Lemma grow_while_same : forall fuel b n, Inv b ->
  Inv (grow_while fuel b n) /\ b_buf (grow_while fuel b n) = b_buf b /\
  b_writes (grow_while fuel b n) = b_writes b /\ b_created (grow_while fuel b n) = b_created b.
Proof.
  induction fuel as [|f IH]; intros b n H; cbn [grow_while]; auto.
  destruct (Remaining b <? n); auto.
  destruct (IH (grow b) n (grow_Inv b H)) as (A & B & C & D).
  rewrite B, C, D. rewrite grow_buf by auto. auto.
Qed.

Lemma grow_while_room : forall fuel b n, Inv b -> n <= Remaining b + Z.of_nat fuel * 32768 ->
  n <= Remaining (grow_while fuel b n).
Proof.
  induction fuel as [|f IH]; intros b n H Hn; cbn [grow_while]; [lia|].
  destruct (Z.ltb_spec (Remaining b) n); auto.
  apply IH; [apply grow_Inv; auto|]. unfold Remaining in *. rewrite grow_Size by auto.
  pose proof (grow_more b H). lia.
Qed.

Lemma grow_while_noop fuel b n : n <= Remaining b -> grow_while fuel b n = b.
Proof. destruct fuel; cbn [grow_while]; auto. intros H. destruct (Z.ltb_spec (Remaining b) n); auto. lia. Qed.

Lemma appendImpl_spec b more : Inv b ->
  Inv (appendImpl b more) /\ b_buf (appendImpl b more) = b_buf b ++ more /\
  b_writes (appendImpl b more) = b_writes b /\ b_created (appendImpl b more) = b_created b /\
  (Z.of_nat (length more) <= Remaining b -> b_cap (appendImpl b more) = b_cap b).
Proof.
  intros H. unfold appendImpl.
  destruct (grow_while_same (S (length more)) b (Z.of_nat (length more)) H) as (A & B & C & D).
  assert (R : Z.of_nat (length more) <= Remaining (grow_while (S (length more)) b (Z.of_nat (length more)))).
  { apply grow_while_room; auto. destruct H as (? & ? & ?). unfold Remaining. lia. }
  set (b1 := grow_while (S (length more)) b (Z.of_nat (length more))) in *.
  simpl. rewrite firstn_all2 by lia. rewrite B, C, D. split; [|split; [|split; [|split]]]; auto.
  - destruct A as (A1 & A2 & A3). unfold Inv, Size; simpl. rewrite app_length. unfold Remaining, Size in R. rewrite B in R. lia.
  - intros Hr. subst b1. rewrite grow_while_noop; auto.
Qed.

Lemma countWrite_rep b a now d : rep b a -> Inv (extend b d) ->
  rep (countWrite (extend b d) now) (a_step a (EvWrite d now)).
Proof.
  intros ((I1 & I2 & I3) & B & W & F) (J1 & J2 & J3). unfold rep, countWrite, extend; simpl.
  split; [|split; [|split]].
  - unfold Inv, Size in *; simpl in *. lia.
  - congruence.
  - lia.
  - destruct (a_first a) as [t|].
    + destruct F as [F1 F2]. split; [lia|]. destruct (Z.eqb_spec (b_writes b) 0); auto; lia.
    + split; [lia|]. destruct (Z.eqb_spec (b_writes b) 0); auto; lia.
Qed.

Lemma Append_rep b a d now : rep b a -> rep (Append b d now) (a_step a (EvWrite d now)).
Proof.
  intros R. pose proof R as ((I1 & I2 & I3) & B & W & F).
  assert (Ic : Inv (countWrite b now)).
  { unfold Inv, countWrite, Size in *; simpl. lia. }
  destruct (appendImpl_spec (countWrite b now) d Ic) as (A & Bf & Wr & Cr & _).
  unfold Append, rep. rewrite Bf, Wr, Cr. split; auto. simpl. split; [congruence|]. split; [lia|].
  destruct (a_first a) as [t|].
  - destruct F as [F1 F2]. split; [lia|]. destruct (Z.eqb_spec (b_writes b) 0); auto; lia.
  - split; [lia|]. destruct (Z.eqb_spec (b_writes b) 0); auto; lia.
Qed.

Lemma with_nl_spec d : with_nl d = if (Nat.ltb 0 (length d) && negb (byte_at d (length d - 1) nl))%bool then d ++ [nl] else d.
Proof.
  unfold with_nl. destruct d as [|x d] using rev_ind; auto. clear IHd.
  rewrite rev_app_distr. simpl. rewrite app_length. simpl.
  replace (Nat.ltb 0 (length d + 1)) with true by (symmetry; apply Nat.ltb_lt; lia).
  replace (length d + 1 - 1)%nat with (length d) by lia.
  unfold byte_at. rewrite nth_app_mid. destruct (Ascii.eqb x nl); auto.
Qed.

Lemma EnsureNewline_rep b a : rep b a -> rep (EnsureNewline b) (a_step a EvNewline).
Proof.
  intros R. pose proof R as (I & B & W & F).
  unfold EnsureNewline, rep. simpl. rewrite with_nl_spec, <- B.
  destruct (Nat.ltb 0 (length (b_buf b)) && negb (byte_at (b_buf b) (length (b_buf b) - 1) nl))%bool.
  - destruct (appendImpl_spec b [nl] I) as (A & Bf & Wr & Cr & _). rewrite Bf, Wr, Cr. auto.
  - auto.
Qed.

Lemma Reset_rep b a now : rep b a -> rep (Reset b now) (a_step a EvReset).
Proof. intros ((I1 & I2 & I3) & _). unfold rep, Reset, Inv, Size; simpl. repeat split; auto; lia. Qed.

Lemma New_rep c now : 0 <= c -> rep (New c now) a_empty.
Proof. intros H. split; [apply Inv_New; auto|]. simpl; auto. Qed.

Lemma extend_Inv b d : Inv b -> Z.of_nat (length d) <= Remaining b -> Inv (extend b d).
Proof. unfold Inv, extend, Remaining, Size; simpl. rewrite app_length. lia. Qed.

Lemma growIfLow_rep b a : rep b a -> rep (growIfLow b) a.
Proof.
  intros (I & B & W & F). destruct (growIfLow_same b I) as (A & Bf & Wr & Cr & _).
  unfold rep. rewrite Bf, Wr, Cr. auto.
Qed.

Lemma ReadOnce_rep b a d err now b' got e : rep b a ->
  ReadOnceFrom b d err now = (b', got, e) ->
  (exists k, got = firstn k d) /\
  rep b' (match got with [] => a | _ => a_step a (EvWrite got now) end).
Proof.
  intros R H. unfold ReadOnceFrom in H. inversion H; subst b' got e; clear H.
  apply growIfLow_rep in R. set (b1 := growIfLow b) in *.
  set (got := firstn (Z.to_nat (Remaining b1)) d). split; [eexists; reflexivity|].
  assert (L : Z.of_nat (length got) <= Remaining b1).
  { subst got. rewrite firstn_length. pose proof R as ((I1 & I2 & I3) & _). unfold Remaining in *. lia. }
  destruct got as [|x got'] eqn:E; auto.
  apply countWrite_rep; auto. apply extend_Inv; auto. apply R.
Qed.

Lemma extend_nil b : extend b [] = b.
Proof. destruct b; unfold extend; simpl. rewrite app_nil_r. auto. Qed.

(** During ReadFrom the bytes read so far are in the buffer but not yet counted. *)
Lemma ReadFrom_rep : forall sched b a body total now b' tot rest e,
  rep b a ->
  ReadFrom_loop (extend b total) body sched total now = Some (b', tot, rest, e) ->
  Inv (extend b total) ->
  ((exists got, tot = total ++ got /\ body = got ++ rest) /\ (e = ENone -> rest = [])) /\
  rep b' (match tot with [] => a | _ => a_step a (EvWrite tot now) end).
Proof.
  induction sched as [|[k err] sched IH]; intros b a body total now b' tot rest e R H I; cbn [ReadFrom_loop] in H; [discriminate|].
  pose proof R as (Ib & B & W & F).
  destruct (growIfLow_same (extend b total) I) as (A & Bf & Wr & Cr & Cp).
  set (b1 := growIfLow (extend b total)) in *.
  set (n := Nat.min k (Z.to_nat (Remaining b1))) in *.
  set (got := firstn n body) in *.
  assert (Lg : Z.of_nat (length got) <= Remaining b1).
  { subst got n. rewrite firstn_length. destruct A as (A1 & A2 & A3). unfold Remaining. lia. }
  assert (I2 : Inv (extend b1 got)) by (apply extend_Inv; auto).
  set (b2 := mkBatch (b_buf b) (b_cap b1) (b_writes b) (b_created b)).
  assert (E2 : extend b1 got = extend b2 (total ++ got)).
  { unfold extend, b2; simpl in *. rewrite Bf, Wr, Cr. simpl. rewrite app_assoc. auto. }
  assert (R2 : rep b2 a).
  { unfold rep, b2; simpl. split; [|split; [|split]]; auto.
    destruct Ib as (X1 & X2 & X3). destruct A as (Y1 & Y2 & Y3). unfold Inv, Size in *; simpl in *.
    rewrite Bf, app_length in Y2. simpl in Cp. lia. }
  assert (Bd : body = got ++ skipn n body) by (subst got; symmetry; apply firstn_skipn).
  rewrite E2 in *.
  assert (More : ReadFrom_loop (extend b2 (total ++ got)) (skipn n body) sched (total ++ got) now = Some (b', tot, rest, e) ->
    ((exists got, tot = total ++ got /\ body = got ++ rest) /\ (e = ENone -> rest = [])) /\
     rep b' (match tot with [] => a | _ => a_step a (EvWrite tot now) end)).
  { intros Hm. destruct (IH _ _ _ _ _ _ _ _ _ R2 Hm I2) as (((g & G1 & G2) & Er) & Rp). split; auto. split; auto.
      exists (got ++ g). rewrite G1, app_assoc. split; auto. rewrite Bd, <- app_assoc. congruence. }
  destruct err; [auto| destruct (skipn n body) eqn:Es; [|auto] | | ].
  all: inversion H; subst b' tot rest e; clear H; split; [split; [exists got; auto|auto; discriminate]|];
    (destruct (total ++ got) eqn:Et;
     [ rewrite extend_nil; exact R2
     | apply countWrite_rep; auto]).
Qed.

Lemma ReadFrom_correct sched b a body now b' tot rest e :
  rep b a -> ReadFrom b body sched now = Some (b', tot, rest, e) ->
  (body = tot ++ rest /\ (e = ENone -> rest = [])) /\
  rep b' (match tot with [] => a | _ => a_step a (EvWrite tot now) end).
Proof.
  intros R H. unfold ReadFrom in H. rewrite <- (extend_nil b) in H.
  destruct (ReadFrom_rep sched b a body [] now b' tot rest e R H) as (((g & -> & ->) & Er) & Rp).
  - rewrite extend_nil. apply R.
  - auto.
Qed.

(* ------------------------------------------------------------------ *)
(** * Histories *)

(** Operations on a batch, each with its clock reading and the reader's behaviour. *)
Inductive bop :=
| OpAppend (d : bytes) (now : Z)
| OpEnsureNewline
| OpReset (now : Z)
| OpReadOnce (d : bytes) (err : rerr) (now : Z)
| OpReadFrom (body : bytes) (sched : list (nat * rerr)) (now : Z).

(** New state and the events the operation amounts to; [None]: the call never returns. *)
Definition bstep (b : batch) (o : bop) : option (batch * list ev) :=
  match o with
  | OpAppend d now => Some (Append b d now, [EvWrite d now])
  | OpEnsureNewline => Some (EnsureNewline b, [EvNewline])
  | OpReset now => Some (Reset b now, [EvReset])
  | OpReadOnce d err now =>
      let '(b', got, _) := ReadOnceFrom b d err now in
      Some (b', match got with [] => [] | _ => [EvWrite got now] end)
  | OpReadFrom body sched now =>
      match ReadFrom b body sched now with
      | None => None
      | Some (b', tot, _, _) => Some (b', match tot with [] => [] | _ => [EvWrite tot now] end)
      end
  end.

Fixpoint brun (b : batch) (os : list bop) : option (batch * list ev) :=
  match os with
  | [] => Some (b, [])
  | o :: os' =>
      match bstep b o with
      | None => None
      | Some (b1, e1) =>
          match brun b1 os' with
          | None => None
          | Some (b2, e2) => Some (b2, e1 ++ e2)
          end
      end
  end.

Lemma bstep_rep b a o b' es : rep b a -> bstep b o = Some (b', es) -> rep b' (fold_left a_step es a).
Proof.
  intros R H. destruct o; cbn [bstep] in H.
  - inversion H; subst. apply Append_rep; auto.
  - inversion H; subst. apply EnsureNewline_rep; auto.
  - inversion H; subst. apply Reset_rep; auto.
  - destruct (ReadOnceFrom b d err now) as [[b1 got] e] eqn:E. inversion H; subst.
    apply (ReadOnce_rep b a) in E; auto. destruct E as [_ E]. destruct got; auto.
  - destruct (ReadFrom b body sched now) as [[[[b1 tot] rest] e]|] eqn:E; inversion H; subst.
    apply (ReadFrom_correct sched b a) in E; auto. destruct E as [_ E]. destruct tot; auto.
Qed.

Lemma brun_rep : forall os b a b' es, rep b a -> brun b os = Some (b', es) -> rep b' (fold_left a_step es a).
Proof.
  induction os as [|o os IH]; intros b a b' es R H; cbn [brun] in H.
  - inversion H; subst; auto.
  - destruct (bstep b o) as [[b1 e1]|] eqn:E1; [|discriminate].
    destruct (brun b1 os) as [[b2 e2]|] eqn:E2; [|discriminate]. inversion H; subst.
    rewrite fold_left_app. eapply IH; eauto. eapply bstep_rep; eauto.
Qed.

(** C13 *)
Lemma batch_history c now os b es : 0 <= c -> brun (New c now) os = Some (b, es) ->
  Bytes b = a_data (a_run es) /\ Writes b = a_writes (a_run es) /\
  Size b = Z.of_nat (length (a_data (a_run es))) /\ 0 <= Remaining b /\ c <= Size b + Remaining b.
Proof.
  intros Hc H. pose proof (brun_rep _ _ _ _ _ (New_rep c now Hc) H) as ((I1 & I2 & I3) & B & W & F).
  unfold Bytes, Writes. unfold a_run. split; [auto|]. split; [auto|].
  split; [unfold Size; rewrite B; auto|]. split; [unfold Remaining; lia|].
  unfold Remaining. replace (Size b + (b_cap b - Size b)) with (b_cap b) by lia.
  clear I1 I2 I3 B W F.
  assert (G : forall os b0 b' es', Inv b0 -> brun b0 os = Some (b', es') -> b_cap b0 <= b_cap b').
  { clear. assert (GW : forall f b n, Inv b -> b_cap b <= b_cap (grow_while f b n)).
    { induction f as [|f IH]; intros b n I; cbn [grow_while]; [lia|].
      destruct (Remaining b <? n); [|lia]. specialize (IH (grow b) n (grow_Inv b I)). pose proof (grow_more b I). lia. }
    assert (RF : forall sched b body tot now r, Inv b -> ReadFrom_loop b body sched tot now = Some r -> b_cap b <= b_cap (fst (fst (fst r)))).
    { induction sched as [|[k err] sched IH]; intros b body tot now r I H; cbn [ReadFrom_loop] in H; [discriminate|].
      destruct (growIfLow_same b I) as (A & _ & _ & _ & Cp). set (b1 := growIfLow b) in *.
      set (n := Nat.min k (Z.to_nat (Remaining b1))) in *.
      assert (I2 : Inv (extend b1 (firstn n body))).
      { apply extend_Inv; auto. subst n. rewrite firstn_length. destruct A as (A1 & A2 & A3). unfold Remaining. lia. }
      assert (More : ReadFrom_loop (extend b1 (firstn n body)) (skipn n body) sched (tot ++ firstn n body) now = Some r ->
                b_cap b <= b_cap (fst (fst (fst r)))).
      { intros Hm. apply IH in Hm; auto. simpl in Hm. lia. }
      destruct err; [auto| destruct (skipn n body) eqn:Es; [|auto] | | ].
      all: inversion H; subst; simpl; destruct (tot ++ firstn n body); simpl; lia. }
    induction os as [|o os IH]; intros b b' es I H; cbn [brun] in H; [inversion H; lia|].
    destruct (bstep b o) as [[b1 e1]|] eqn:E1; [|discriminate].
    destruct (brun b1 os) as [[b2 e2]|] eqn:E2; [|discriminate]. inversion H; subst.
    assert (X : Inv b1 /\ b_cap b <= b_cap b1).
    { destruct o; cbn [bstep] in E1.
      - inversion E1; subst. unfold Append.
        assert (Ic : Inv (countWrite b now)) by (destruct I as (?&?&?); unfold Inv, countWrite, Size in *; simpl; lia).
        split; [apply appendImpl_spec; auto|]. unfold appendImpl; simpl.
        specialize (GW (S (length d)) (countWrite b now) (Z.of_nat (length d)) Ic). simpl in GW. exact GW.
      - inversion E1; subst. unfold EnsureNewline.
        destruct (_ && _)%bool; [|split; auto; lia].
        split; [apply appendImpl_spec; auto|]. unfold appendImpl; simpl.
        specialize (GW 2%nat b 1 I). simpl in GW. exact GW.
      - inversion E1; subst. destruct I as (?&?&?). unfold Reset, Inv, Size; simpl. lia.
      - unfold ReadOnceFrom in E1. inversion E1; subst; clear E1.
        destruct (growIfLow_same b I) as (A & _ & _ & _ & Cp). set (b1 := growIfLow b) in *.
        destruct (firstn (Z.to_nat (Remaining b1)) d) eqn:Eg; [split; auto; lia|]. rewrite <- Eg.
        assert (I2 : Inv (extend b1 (firstn (Z.to_nat (Remaining b1)) d))).
        { apply extend_Inv; auto. rewrite firstn_length. destruct A as (A1 & A2 & A3). unfold Remaining. lia. }
        split; [|simpl; lia]. destruct I2 as (?&?&?). unfold Inv, countWrite, Size in *; simpl in *. lia.
      - destruct (ReadFrom b body sched now) as [[[[b3 tot] rest] e]|] eqn:E; inversion E1; subst.
        split; [|apply (RF _ _ _ _ _ _ I) in E; exact E].
        assert (exists a, rep b a) as [a R].
        { exists (mkA (b_buf b) (b_writes b) (if b_writes b =? 0 then None else Some (b_created b))).
          destruct I as (?&?&?). unfold rep, Inv; simpl.
          destruct (Z.eqb_spec (b_writes b) 0); simpl; repeat split; auto; lia. }
        apply (ReadFrom_correct sched b a) in E; auto. destruct E as [_ E]. apply E. }
    destruct X as [X1 X2]. apply IH in E2; auto. lia. }
  apply (G os _ _ _ (Inv_New c now Hc) H).
Qed.

(** C14 *)
Lemma batch_age c now os b es t : 0 <= c -> brun (New c now) os = Some (b, es) ->
  Age b t = match a_first (a_run es) with None => 0 | Some t0 => t - t0 end.
Proof.
  intros Hc H. pose proof (brun_rep _ _ _ _ _ (New_rep c now Hc) H) as ((I1 & I2 & I3) & B & W & F).
  unfold Age, a_run. destruct (a_first (fold_left a_step es a_empty)) as [t0|].
  - destruct F as [F1 F2]. replace (b_writes b <=? 0) with false by lia. lia.
  - replace (b_writes b <=? 0) with true by lia. auto.
Qed.

(** C15: exactly when there is room for a maximum size datagram after growIfLow. *)
Lemma room_iff b : Inv b ->
  (65536 <= Remaining (growIfLow b) <->
   65536 <= Remaining b \/ b_cap b < 32768 \/ 65536 <= b_cap b \/ Size b + 65536 <= 2 * b_cap b).
Proof.
  intros I. unfold growIfLow, maxReadSize. destruct (Z.ltb_spec (Remaining b) 65536).
  - unfold Remaining in *. rewrite grow_Size, grow_cap by auto. destruct I as (?&?&?).
    destruct (Z.ltb_spec (b_cap b) 32768); lia.
  - split; auto.
Qed.

(** C15 fails for every capacity strictly between 32 KB and 64 KB. *)
Lemma no_room cap now d : 32768 <= cap < 65536 -> Z.of_nat (length d) = cap ->
  Remaining (growIfLow (Append (New cap now) d now)) < 65536.
Proof.
  intros Hc Hd.
  assert (I0 : Inv (countWrite (New cap now) now)) by (unfold Inv, countWrite, New, Size; simpl; lia).
  destruct (appendImpl_spec _ d I0) as (I & B & _ & _ & Cp).
  assert (Cap : b_cap (Append (New cap now) d now) = cap).
  { unfold Append. rewrite Cp; auto. unfold Remaining, Size, countWrite, New; simpl. lia. }
  assert (Sz : Size (Append (New cap now) d now) = cap).
  { unfold Append, Size. rewrite B. simpl. auto. }
  destruct (Z.lt_ge_cases (Remaining (growIfLow (Append (New cap now) d now))) 65536) as [L|L]; auto.
  apply (room_iff _ I) in L. fold (Append (New cap now) d now) in L. unfold Remaining in L. lia.
Qed.
