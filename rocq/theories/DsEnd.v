(** The averages of every period, from the messages of the downsampler's subject to InfluxDB. *)
From Verif Require Import Base Text TextSpec NumSpec LinesSpec RulesSpec RulesProofs Avg AvgSpec AvgProofs AvgNum AvgPrint
  Assigner AssignerSpec AssignerProofs DsProofs DsMain Retry RetrySpec Writer WriterSpec WriterTop EndToEnd EndToEndProofs.
Local Open Scope Z_scope.

(** What a turn of the loop prints for a bucket is what avgBucket.Bytes gives for some iteration order of its maps. *)
Definition renders (fo : floatOps) (gosort : forall A : Type, (A -> A -> bool) -> list A -> list A) (t : turn (avgBucket fo)) : Prop :=
  forall e b, exists order, iteration_of fo b order /\ t_render _ t (e, b) = bucketBytes fo gosort e order.

(** Every line of the message is a good point, with or without timestamp. *)
Definition carries_points (fo : floatOps) (t : turn (avgBucket fo)) : Prop :=
  forall data clk line now ts body, t_in _ t = Some (data, clk) -> In line (full_lines data) -> stamped line now ts body ->
    exists pt, good_point fo pt /\ body = point_text pt.

(** The points of the period ending at [e]. *)
Definition period_points (p e : Z) (l : list (Z * point)) : list point :=
  map snd (filter (fun x => (e - p <=? fst x) && (fst x <? e)) l).

(** [ls]: the lines (with their keys) that average the points of the period ending at [e]. *)
Definition averages (fo : floatOps) (p : Z) (l : list (Z * point)) (e : Z) (ls : list (bytes * bytes)) : Prop :=
  let pts := period_points p e l in
  NoDup (map fst ls) /\ (forall k, In k (map fst ls) <-> exists pt, In pt pts /\ fst pt = k) /\
  Forall (fun kl => series_line fo pts e (fst kl) (snd kl)) ls.

Section S.
  Variable fo : floatOps.
  Notation B := (avgBucket fo).
  Notation nb := (fun _ : Z => @nil (bytes * fieldPairs fo)).
  Notation ad := (AddLine fo).
  Variables p e0 : Z.

  Definition good_body (x : Z * bytes) : Prop := exists pt, good_point fo pt /\ snd x = point_text pt.

  Lemma takes_good k : forall l lns errs l', takes B lerr nb ad p e0 k l lns errs l' ->
    (forall line now ts body, In (line, now) lns -> stamped line now ts body -> exists pt, good_point fo pt /\ body = point_text pt) ->
    Forall good_body l -> Forall good_body l'.
  Proof.
    induction 1 as [l|l line now ts body rest errs l' St Lt T IH|l line now ts body rest errs l' St Lt T IH|l line now ts body i rest errs l' St Hi R T IH];
      intros G F; auto.
    - apply IH; auto. intros; eapply G; eauto. right; eauto.
    - apply IH; auto. intros; eapply G; eauto. right; eauto.
    - apply IH; [intros; eapply G; eauto; right; eauto|]. apply Forall_app. split; auto. constructor; auto.
      unfold good_body. cbn [snd]. eapply G; eauto. left; auto.
  Qed.

  Lemma history_good cs : forall ans k l, history B lerr nb ad p e0 cs ans k l ->
    (forall data clk line now ts body, In (CUpdate data clk) cs -> In line (full_lines data) -> stamped line now ts body ->
       exists pt, good_point fo pt /\ body = point_text pt) ->
    Forall good_body l.
  Proof.
    intros ans k l H. induction H as [|cs ans k l data clk errs l' H IH T|cs ans k l now H IH N|cs ans k l now H IH N]; intros G; auto.
    - assert (G' : Forall good_body l) by (apply IH; intros; eapply G; eauto; apply in_or_app; eauto).
      eapply takes_good; eauto. intros line now ts body I St. apply in_combine_l in I.
      eapply G; eauto. apply in_or_app. right. left. reflexivity.
    - apply IH. intros; eapply G; eauto; apply in_or_app; eauto.
    - apply IH. intros; eapply G; eauto; apply in_or_app; eauto.
  Qed.

  Lemma with_points l : Forall good_body l ->
    exists lp : list (Z * point), l = map (fun x => (fst x, point_text (snd x))) lp /\ Forall (fun x => good_point fo (snd x)) lp.
  Proof.
    induction 1 as [|[ts body] l (pt & G & E) F (lp & IH1 & IH2)]; [exists []; auto|]. cbn [snd] in E. subst.
    exists ((ts, pt) :: lp). cbn [map fst snd]. auto.
  Qed.

  Lemma contents_points lp e :
    contents B lerr nb ad p (map (fun x => (fst x, point_text (snd x))) lp) e = bucket_of fo (period_points p e lp).
  Proof.
    unfold contents, bucket_of, period_points. set (b := @nil (bytes * fieldPairs fo)). clearbody b. revert b.
    induction lp as [|[ts pt] lp IH]; intros b; auto. cbn [map filter fst snd].
    destruct ((e - p <=? ts) && (ts <? e)); cbn [fold_left map snd]; auto.
  Qed.
End S.

(** Everything the downsampler publishes: for each period that is over, in order, the averages of its points. *)
Lemma downsampled : forall fo gosort fail p now0 e0 turns, sorts gosort -> 0 < p -> period_end p now0 e0 ->
  Forall (renders fo gosort) turns -> Forall (carries_points fo) turns ->
  let d := worker_run (avgBucket fo) lerr (fun _ => []) (AddLine fo) fail (Assigner.newWorker (avgBucket fo) (fun _ => []) p now0) turns in
  let calls := flat_map (turn_calls (avgBucket fo)) turns in
  let answers := snd (do_calls (avgBucket fo) lerr (fun _ => []) (AddLine fo) (newAssigner (avgBucket fo) (fun _ => []) p now0) calls) in
  exists k (l : list (Z * point)),
    history (avgBucket fo) lerr (fun _ => []) (AddLine fo) p e0 calls answers k (map (fun x => (fst x, point_text (snd x))) l) /\
    Forall (fun x => good_point fo (snd x)) l /\
    (int64 (e0 - p) -> int64 (e0 + k * p) ->
     exists outs, length outs = Z.to_nat k /\
       (forall j ls, nth_error outs j = Some ls -> averages fo p l (e0 + (Z.of_nat j - 1) * p) ls) /\
       concat (d_pub (d_st _ d)) = concat (map (fun ls => concat (map snd ls)) outs) /\
       (Forall (fun ls => Forall (fun x => Z.of_nat (length x) <= 1048576) (lines_of (concat (map snd ls)))) outs ->
          flat_map lines_of (d_pub (d_st _ d)) = flat_map (fun ls => lines_of (concat (map snd ls))) outs)).
Proof.
  intros fo gs fail p now0 e0 turns Hs Hp P Rn Cp d calls answers.
  destruct (emitted_ok (avgBucket fo) lerr (fun _ => []) (AddLine fo) p now0 e0 calls Hp P) as (k & l & H & Lk & J & F).
  fold answers in H, Lk, J.
  assert (Gl : Forall (good_body fo) l).
  { eapply history_good; eauto. intros data clk line now ts body I Il St. unfold calls in I. apply in_flat_map in I.
    destruct I as (t & It & I). rewrite Forall_forall in Cp. specialize (Cp t It). unfold turn_calls in I.
    destruct (t_in _ t) as [[data' clk']|] eqn:Et.
    - destruct I as [I|[I|[]]]; [|discriminate]. inversion I; subst. eapply Cp; eauto.
    - destruct I as [I|[]]. discriminate. }
  destruct (with_points fo l Gl) as (lp & -> & Gp). exists k, lp. split; [auto|]. split; [auto|]. intros I0 I1.
  pose proof (worker_ok (avgBucket fo) lerr (fun _ => []) (AddLine fo) fail p now0 turns) as W. cbn zeta in W. fold d calls in W.
  unfold answers in *.
  destruct (do_calls _ _ _ _ _ calls) as [a ans] eqn:Ed. cbn [snd] in *.
  destruct W as (_ & bufs & F2 & _ & _ & _ & _ & Pc & _ & Pl & _).
  assert (X : exists outs, Forall2 (fun buf ls => buf = concat (map snd ls)) bufs outs /\
    forall j ls, nth_error outs j = Some ls -> averages fo p lp (e0 + (Z.of_nat j - 1) * p) ls).
  { assert (Y : forall j0 em bs, Forall2 (fun (eb : Z * (Z * avgBucket fo)) buf => exists t, In t turns /\ buf = t_render _ t (snd eb)) em bs ->
      (forall j now e b, nth_error em j = Some (now, (e, b)) -> e = e0 + (Z.of_nat (j0 + j) - 1) * p /\ int64 e /\
         b = bucket_of fo (period_points p e lp)) ->
      exists outs, Forall2 (fun buf ls => buf = concat (map snd ls)) bs outs /\
        forall j ls, nth_error outs j = Some ls -> averages fo p lp (e0 + (Z.of_nat (j0 + j) - 1) * p) ls).
    { intros j0 em bs Y. revert j0. induction Y as [|[now [e b]] buf em bs (t & It & Eb) Y IH]; intros j0 Jem.
      - exists []. split; [constructor|]. intros [|j] ls Hn; discriminate.
      - destruct (Jem 0%nat now e b eq_refl) as (E1 & E2 & E3). rewrite Nat.add_0_r in E1.
        rewrite Forall_forall in Rn. destruct (Rn t It e b) as (order & Io & Er). cbn [snd] in Eb. rewrite Er in Eb. rewrite E3 in Io.
        assert (Gpt : Forall (good_point fo) (period_points p e lp)).
        { apply Forall_forall. intros pt I. unfold period_points in I. apply in_map_iff in I. destruct I as (x & <- & I).
          apply filter_In in I. rewrite Forall_forall in Gp. apply Gp. tauto. }
        destruct (print_ok fo gs Hs _ e order Gpt E2 Io) as (ls & D & K & Sl & Ebb).
        destruct (IH (S j0)) as (outs & F3 & Av).
        { intros j n' e' b' Hn. destruct (Jem (S j) n' e' b' Hn) as (A1 & A2). split; [|exact A2]. rewrite A1. f_equal. f_equal. lia. }
        exists (ls :: outs). split; [constructor; [rewrite Eb; exact Ebb|exact F3]|]. intros [|j] ls' Hn.
        + inversion Hn; subst ls'. rewrite Nat.add_0_r, <- E1. split; [auto|]. split; auto.
        + replace (j0 + S j)%nat with (S j0 + j)%nat by lia. apply Av. exact Hn. }
    apply (Y 0%nat _ _ F2). intros j now e b Hn. destruct (J j now e b Hn) as (A1 & A2 & A3).
    split; [exact A1|]. split; [|rewrite A3; apply contents_points].
    assert (Lj : (j < length (emitted calls ans))%nat) by (apply nth_error_Some; congruence).
    assert (B1 : e0 - p <= e <= e0 + k * p) by (rewrite A1; nia). unfold int64 in *. lia. }
  destruct X as (outs & F3 & Av). exists outs.
  assert (Ln : forall A B (R : A -> B -> Prop) x y, Forall2 R x y -> length x = length y) by (induction 1; simpl; auto).
  assert (Em : concat bufs = concat (map (fun ls => concat (map snd ls)) outs)).
  { clear -F3. induction F3 as [|b ls bs os E F IH]; auto. cbn [concat map]. rewrite E, IH. auto. }
  pose proof (Ln _ _ _ _ _ F3) as L3. pose proof (Ln _ _ _ _ _ F2) as L2. change (list ascii) with bytes in *.
  split; [lia|]. split; [auto|]. split; [congruence|].
  intros Fl. rewrite Pl.
  - clear -F3. induction F3 as [|b ls bs os E F IH]; auto. cbn [flat_map]. rewrite E, IH. auto.
  - clear -F3 Fl. induction F3 as [|b ls bs os E F IH]; auto. inversion Fl; subst. constructor; auto.
Qed.

(** ... and a writer without rules that gets those messages sends exactly these lines, or still holds them. *)
Lemma downsampled_written : forall fo gosort fail p now0 e0 turns w, sorts gosort -> 0 < p -> period_end p now0 e0 ->
  Forall (renders fo gosort) turns -> Forall (carries_points fo) turns ->
  let d := worker_run (avgBucket fo) lerr (fun _ => []) (AddLine fo) fail (Assigner.newWorker (avgBucket fo) (fun _ => []) p now0) turns in
  plain_writer w -> map snd (messages (ww_trace w)) = d_pub (d_st _ d) ->
  exists k l, history (avgBucket fo) lerr (fun _ => []) (AddLine fo) p e0 (flat_map (turn_calls (avgBucket fo)) turns)
      (snd (do_calls (avgBucket fo) lerr (fun _ => []) (AddLine fo) (newAssigner (avgBucket fo) (fun _ => []) p now0) (flat_map (turn_calls (avgBucket fo)) turns)))
      k (map (fun x => (fst x, point_text (snd x))) l) /\
    (int64 (e0 - p) -> int64 (e0 + k * p) ->
     exists outs, length outs = Z.to_nat k /\
       (forall j ls, nth_error outs j = Some ls -> averages fo p l (e0 + (Z.of_nat j - 1) * p) ls) /\
       concat (bodies (ww_trace w)) ++ held (ww_state w) = concat (map (fun ls => concat (map snd ls)) outs)).
Proof.
  intros fo gs fail p now0 e0 turns w Hs Hp P Rn Cp d W D.
  destruct (downsampled fo gs fail p now0 e0 turns Hs Hp P Rn Cp) as (k & l & H & G & X). fold d in X.
  exists k, l. split; auto. intros I0 I1. destruct (X I0 I1) as (outs & L & Av & Ec & _). exists outs.
  split; auto. split; auto. rewrite <- Ec, <- D.
  destruct W as ((Hs1 & Hc & Hr) & Rl & _). destruct (pair_data _ Hs1 _ _ _ _ _ Hc Hr) as (Dt & _ & _). rewrite Dt, Rl.
  unfold input. f_equal. apply map_ext. intros m. destruct (accepted_meaning [] (snd m)) as [A _]. auto.
Qed.
