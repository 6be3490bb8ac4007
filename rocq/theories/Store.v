(** What InfluxDB holds when answers get lost: every attempt may have been carried out although it was not acknowledged. *)
From Verif Require Import Base LinesSpec Text Rules RulesSpec FilterWorker FilterSpec FilterProofs Listener ListenerSpec Retry RetrySpec RetryProofs RetryMain Splitter Batch
  Writer WriterSpec WriterTop EndToEnd EndToEndProofs.
Local Open Scope Z_scope.

(** ** Specification *)

(** The attempts of a worker that came to an end, in order: the body, and whether it was answered with success. *)
Definition attempted (tr : list wobs) : list (bytes * bool) :=
  flat_map (fun o => match o with
                     | VPost _ b r => [(b, ok r)]
                     | VRetry (OEnd _ a WOk) => [(snd a, true)]
                     | VRetry (OEnd _ a _) => [(snd a, false)]
                     | _ => []
                     end) tr.

(** What InfluxDB carried out of these attempts, with the time of its own clock: everything it acknowledged, and possibly some
    of the others. *)
Inductive carried_out : list (bytes * bool) -> list (Z * bytes) -> Prop :=
| co_nil : carried_out [] []
| co_done : forall b a t l st, carried_out l st -> carried_out ((b, a) :: l) ((t, b) :: st)
| co_lost : forall b l st, carried_out l st -> carried_out ((b, false) :: l) st.

(** InfluxDB that does what it says: only what it acknowledges. *)
Definition honest (l : list (bytes * bool)) : list bytes := map fst (filter snd l).

Section Db.
  (** The points of a line received at a time: key (series, field, time stamp) and value.  A parameter. *)
  Variable points : Z -> bytes -> list (bytes * bytes).

  (** What is stored under a key after these writes: the last one counts. *)
  Definition put (k : bytes) (cur : option bytes) (p : bytes * bytes) : option bytes := if beqs (fst p) k then Some (snd p) else cur.
  Definition written (st : list (Z * bytes)) : list (bytes * bytes) := flat_map (fun w => flat_map (points (fst w)) (lines_of (snd w))) st.
  Definition db (st : list (Z * bytes)) (k : bytes) : option bytes := fold_left (put k) (written st) None.

  (** The line carries its time stamp: its points do not depend on when it is received. *)
  Definition dated (l : bytes) : Prop := forall t t', points t l = points t' l.
  (** No two of these lines give different values for one key. *)
  Definition consistent (ls : list bytes) : Prop := forall l l' t t' k v v',
    In l ls -> In l' ls -> In (k, v) (points t l) -> In (k, v') (points t' l') -> v = v'.

  (** ** Proofs *)
  Lemma fold_put k : forall ps cur v, (forall v', In (k, v') ps -> v' = v) ->
    fold_left (put k) ps cur = if existsb (fun p => beqs (fst p) k) ps then Some v else cur.
  Proof.
    induction ps as [|[k' v'] ps IH]; intros cur v H; [reflexivity|]. cbn [fold_left existsb fst]. unfold put at 2. cbn [fst snd].
    destruct (beqs k' k) eqn:E.
    - apply beqs_eq in E. subst k'. assert (Hv : v' = v) by (apply H; left; reflexivity). subst v'. cbn [orb].
      rewrite (IH (Some v) v) by (intros w Hw; apply H; right; exact Hw). destruct (existsb _ _); reflexivity.
    - cbn [orb]. apply IH. intros w Hw. apply H. right. exact Hw.
  Qed.

  Lemma db_content st ls : (forall l, In l (flat_map (fun w => lines_of (snd w)) st) <-> In l ls) -> Forall dated ls -> consistent ls ->
    forall k v, db st k = Some v <-> exists l, In l ls /\ In (k, v) (points 0 l).
  Proof.
    intros E D C k v.
    assert (W : forall k v, In (k, v) (written st) <-> exists l, In l ls /\ In (k, v) (points 0 l)).
    { intros k0 v0. unfold written. rewrite in_flat_map. split.
      - intros ((t & b) & Hw & H). cbn [fst snd] in H. apply in_flat_map in H. destruct H as (l & Hl & H).
        assert (I1 : In l ls) by (apply E; apply in_flat_map; exists (t, b); auto). exists l. split; [exact I1|].
        rewrite Forall_forall in D. rewrite (D l I1 0 t). exact H.
      - intros (l & Hl & H). pose proof Hl as Hl'. apply E in Hl'. apply in_flat_map in Hl'. destruct Hl' as (w & Hw & Hl').
        exists w. split; [exact Hw|]. apply in_flat_map. exists l. split; [exact Hl'|]. rewrite Forall_forall in D. rewrite (D l Hl (fst w) 0). exact H. }
    assert (U : forall v v', In (k, v) (written st) -> In (k, v') (written st) -> v = v').
    { intros v1 v2 H1 H2. apply W in H1. apply W in H2. destruct H1 as (l1 & L1 & P1). destruct H2 as (l2 & L2 & P2). exact (C _ _ _ _ _ _ _ L1 L2 P1 P2). }
    rewrite <- W. unfold db. split.
    - intros H. destruct (existsb (fun p => beqs (fst p) k) (written st)) eqn:X.
      + apply existsb_exists in X. destruct X as ((k' & v') & Hi & X). cbn [fst] in X. apply beqs_eq in X. subst k'.
        rewrite (fold_put k (written st) None v') in H by (intros w Hw; exact (U _ _ Hw Hi)).
        destruct (existsb _ _); [|discriminate H]. injection H as ->. exact Hi.
      + exfalso. assert (Hn : forall v', In (k, v') (written st) -> v' = v).
        { intros v' Hv. assert (Y : existsb (fun p => beqs (fst p) k) (written st) = true) by (apply existsb_exists; exists (k, v'); split; [exact Hv|cbn [fst]; apply beqs_refl]). congruence. }
        rewrite (fold_put k (written st) None v Hn), X in H. discriminate H.
    - intros H. rewrite (fold_put k (written st) None v) by (intros w Hw; exact (U _ _ Hw H)).
      assert (Y : existsb (fun p => beqs (fst p) k) (written st) = true) by (apply existsb_exists; exists (k, v); split; [exact H|cbn [fst]; apply beqs_refl]).
      rewrite Y. reflexivity.
  Qed.
End Db.

Lemma carried_sub l st : carried_out l st -> forall b, In b (map snd st) -> In b (map fst l).
Proof. induction 1; intros x H0; cbn in *; intuition. Qed.
Lemma carried_acked l st : carried_out l st -> forall b, In (b, true) l -> In b (map snd st).
Proof. induction 1; intros x H0; cbn in *; [tauto| |]; destruct H0 as [H0|H0]; try (injection H0 as -> ->); auto. discriminate H0. Qed.
Lemma carried_honest l : carried_out l (map (fun b => (0, b)) (honest l)).
Proof.
  unfold honest. induction l as [|[b a] l IH]; [constructor|]. cbn [filter snd]. destruct a; cbn [map fst]; constructor; exact IH.
Qed.

(** An attempt that ends was one of a batch handed in. *)
Lemma end_added {A} max ttl interval now (s : rstate A) tr : 1 <= max -> reach A max ttl interval now s tr ->
  forall t a o, In (OEnd t a o) tr -> In a (added tr).
Proof.
  intros Hm R. induction R as [|s tr s' o R IH E]; intros t a oc H; [destruct H|].
  pose proof (reach_inv A max ttl interval Hm _ _ _ R) as V. rewrite added_app. apply in_app_iff. apply in_app_iff in H. destruct H as [H|H]; [left; eauto|].
  assert (G : forall a0, r_ph s = RWriting a0 -> In a0 (added tr)).
  { intros a0 E0. pose proof (iv_busy _ _ _ _ _ _ V) as B. rewrite E0 in B. destruct B as (tr' & t' & Et & _).
    destruct (iv_start _ _ _ _ _ _ V t' a0) as (_ & t0 & Hi & _); [rewrite Et; apply in_app_iff; right; left; reflexivity|].
    unfold added. apply in_flat_map. exists (OAdd t0 a0). split; [exact Hi|left; reflexivity]. }
  assert (N : forall (l : list A) t0 x, In x (map (OExpire t0) l) -> x <> OEnd t a oc) by (intros l t0 x Hx ->; apply in_map_iff in Hx; destruct Hx as (? & X & _); discriminate X).
  destruct E; cbn in H.
  - destruct H as [H|[]]; discriminate H.
  - destruct H as [H|[H|[]]]; discriminate H.
  - destruct (N _ _ _ H eq_refl).
  - apply in_app_iff in H. destruct H as [H|[H|[]]]; [destruct (N _ _ _ H eq_refl)|discriminate H].
  - destruct H as [H|[]]. injection H as _ <- _. left. apply G. reflexivity.
  - destruct H as [H|[]]. injection H as _ <- _. left. apply G. reflexivity.
  - destruct H as [H|[]]; discriminate H.
Qed.

(** What is attempted comes from the first attempts. *)
Lemma attempted_bodies w : ww_ok w -> forall b, In b (map fst (attempted (ww_trace w))) -> In b (bodies (ww_trace w)).
Proof.
  intros (Hs & Hc & Hr) b Hb. apply in_map_iff in Hb. destruct Hb as ((b' & a) & <- & Hb). cbn [fst].
  unfold attempted in Hb. apply in_flat_map in Hb. destruct Hb as (o & Ho & Hb). unfold bodies.
  destruct o as [| | |k bb r| | | |x]; cbn in Hb; try (destruct Hb; fail).
  - destruct Hb as [E|[]]. injection E as <- <-. apply in_map_iff. exists ((k, bb), r). split; [reflexivity|]. unfold posts. apply in_flat_map. exists (VPost k bb r). split; [exact Ho|left; reflexivity].
  - destruct x as [| | | |t c0 oo|]; try (destruct Hb; fail).
    assert (Ex : b' = snd c0) by (destruct oo; destruct Hb as [E|[]]; injection E as <- _; reflexivity). subst b'. clear Hb.
    assert (Hi : In (OEnd t c0 oo) (retries (ww_trace w))) by (unfold retries; apply in_flat_map; exists (VRetry (OEnd t c0 oo)); split; [exact Ho|left; reflexivity]).
    assert (Ha : In c0 (added (retries (ww_trace w)))).
    { refine (retry_trace (ww_cfg w) Hs (fun l => forall t a o, In (OEnd t a o) l -> In a (added l)) _ _ _ _ _ Hc Hr _ _ _ _ _ Hi).
      - intros t0 a0 o0 [].
      - intros s' l Hm R _. eapply end_added; eauto. }
    apply (pair_final _ Hs _ _ _ _ _ Hc Hr) in Ha. unfold failures in Ha. apply in_map_iff in Ha. destruct Ha as ((c1 & r) & E & Ha). cbn [fst] in E. subst c1.
    apply filter_In in Ha. apply in_map_iff. exists (c0, r). split; [reflexivity|apply Ha].
Qed.

Lemma honest_acknowledged tr : Permutation (honest (attempted tr)) (acknowledged tr).
Proof.
  induction tr as [|o tr IH]; [apply perm_nil|].
  assert (Eh : honest (attempted (o :: tr)) = honest (attempted [o]) ++ honest (attempted tr)).
  { unfold honest, attempted. cbn [flat_map]. rewrite app_nil_r, filter_app, map_app. reflexivity. }
  set (p := fun tr => map (fun p : chunk * response => snd (fst p)) (filter (fun p => ok (snd p)) (posts tr))).
  set (q := fun tr => map snd (delivered (retries tr))).
  assert (Ep : p (o :: tr) = p [o] ++ p tr) by (unfold p, posts; cbn [flat_map]; rewrite app_nil_r, filter_app, map_app; reflexivity).
  assert (Eq : q (o :: tr) = q [o] ++ q tr) by (unfold q, retries, delivered; cbn [flat_map]; rewrite app_nil_r, flat_map_app, map_app; reflexivity).
  change (acknowledged (o :: tr)) with (p (o :: tr) ++ q (o :: tr)). change (acknowledged tr) with (p tr ++ q tr) in IH. rewrite Eh, Ep, Eq.
  assert (E1 : honest (attempted [o]) = p [o] ++ q [o]).
  { destruct o as [| | |k b r| | | |x]; try reflexivity.
    - cbn. unfold honest, p, posts. cbn. destruct (ok r); reflexivity.
    - destruct x as [| | | |t a oc|]; try reflexivity. destruct oc; reflexivity. }
  rewrite E1, <- !app_assoc. apply Permutation_app_head. eapply perm_trans; [apply Permutation_app_head; exact IH|].
  rewrite !app_assoc. apply Permutation_app_tail. apply Permutation_app_comm.
Qed.

(** What InfluxDB holds. *)
Lemma stored_content points ws sts st : Forall plain_writer ws -> Forall settled_ok ws ->
  Forall (fun w => Forall nl_ended (map snd (messages (ww_trace w)))) ws ->
  Forall2 (fun w st => carried_out (attempted (ww_trace w)) st) ws sts -> Permutation st (concat sts) ->
  let lines := flat_map (fun w => flat_map lines_of (map snd (messages (ww_trace w)))) ws in
  Forall (dated points) lines -> consistent points lines ->
  forall k v, db points st k = Some v <-> exists l, In l lines /\ In (k, v) (points 0 l).
Proof.
  intros Pw So En Co Pm lines D C. apply db_content; auto. intros l.
  assert (E1 : In l (flat_map (fun w : Z * bytes => lines_of (snd w)) st) <-> In l (flat_map (fun w : Z * bytes => lines_of (snd w)) (concat sts))).
  { split; intros H; (eapply Permutation_in; [|exact H]); apply Permutation_flat_map; [exact Pm|symmetry; exact Pm]. }
  rewrite E1. clear E1 D C Pm. subst lines. revert So En Pw. induction Co as [|w st1 ws sts Co1 Co IH]; intros So En Pw; [tauto|].
  inversion So as [|? ? S1 So']; subst. inversion En as [|? ? N1 En']; subst. inversion Pw as [|? ? (Ok & Ru & Ln) Pw']; subst.
  cbn [concat flat_map]. rewrite flat_map_app, !in_app_iff. rewrite (IH So' En' Pw').
  assert (G : In l (flat_map (fun w0 : Z * bytes => lines_of (snd w0)) st1) <-> In l (flat_map lines_of (map snd (messages (ww_trace w))))); [|tauto].
  pose proof (writer_lines w Ok Ru N1 Ln) as WL. destruct S1 as (H0 & Hoff & Hon). rewrite H0 in WL. cbn [lines_of] in WL. rewrite app_nil_r in WL. rewrite <- WL.
  rewrite !in_flat_map. split.
  - intros ((t & b) & Hb & Hl). exists b. split; [|exact Hl]. apply attempted_bodies; [exact Ok|]. eapply carried_sub; [exact Co1|]. apply in_map_iff. exists (t, b). auto.
  - intros (b & Hb & Hl).
    assert (Ha : In b (acknowledged (ww_trace w))).
    { eapply Permutation_in; [|exact Hb]. symmetry. apply writer_acknowledged; [exact Ok|]. split; [exact H0|]. split; [exact Hoff|exact Hon]. }
    assert (Hh : In b (honest (attempted (ww_trace w)))) by (eapply Permutation_in; [symmetry; apply honest_acknowledged|exact Ha]).
    unfold honest in Hh. apply in_map_iff in Hh. destruct Hh as ((b' & a) & E & Hh). cbn [fst] in E. subst b'. apply filter_In in Hh. destruct Hh as [Hh E]. cbn [snd] in E. subst a.
    pose proof (carried_acked _ _ Co1 _ Hh) as Hs. apply in_map_iff in Hs. destruct Hs as ((t & b') & E & Hs). cbn [snd] in E. subst b'. exists (t, b). auto.
Qed.
