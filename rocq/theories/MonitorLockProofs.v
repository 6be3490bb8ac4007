(** Proofs for C115: the monitor with concurrent scrapers. *)
From Verif Require Import Base Text RulesSpec Prom PromSpec PromParse PromProofs PromTop PromStats MonitorLock.

Lemma upd_same {A} (f : nat -> A) i x : upd_at f i x i = x.
Proof. unfold upd_at. rewrite Nat.eqb_refl. reflexivity. Qed.
Lemma upd_other {A} (f : nat -> A) i j x : i <> j -> upd_at f i x j = f j.
Proof. unfold upd_at. intros N. destruct (Nat.eqb_spec i j); [contradiction|reflexivity]. Qed.
Lemma shuffle_a {A} (x : A) a b c : shuffle a b c -> shuffle (a ++ [x]) b (c ++ [x]).
Proof. induction 1; cbn [app]; [apply sh_a, sh_nil|apply sh_a; assumption|apply sh_b; assumption]. Qed.
Lemma shuffle_b {A} (x : A) a b c : shuffle a b c -> shuffle a (b ++ [x]) (c ++ [x]).
Proof. induction 1; cbn [app]; [apply sh_b, sh_nil|apply sh_a; assumption|apply sh_b; assumption]. Qed.
Lemma shuffle_length {A} (a b c : list A) : shuffle a b c -> length c = length a + length b.
Proof. induction 1; cbn [length]; lia. Qed.

Section Lock.
  Variable gs : forall A : Type, (A -> A -> bool) -> list A -> list A.
  Variables room limit : nat.
  Notation step := (cstep gs room limit).
  Notation run := (crun gs room limit).

  Lemma crun_app l1 : forall l2 s, run s (l1 ++ l2) =
    match run s l1 with None => None | Some (s1, o1) => match run s1 l2 with None => None | Some (s2, o2) => Some (s2, o1 ++ o2) end end.
  Proof.
    induction l1 as [|l l1 IH]; intros l2 s; cbn [app crun].
    - destruct (run s l2) as [[s2 o2]|]; reflexivity.
    - destruct (step s l) as [[s1 o1]|]; [|reflexivity]. rewrite IH.
      destruct (run s1 l1) as [[s2 o2]|]; [|reflexivity]. destruct (run s2 l2) as [[s3 o3]|]; [|reflexivity]. rewrite app_assoc. reflexivity.
  Qed.

  (** What the states of a run are like. *)
  Record cinv (s : cst) : Prop := mkCI {
    ci_lock : forall i, c_lock s = Some i <-> exists p, c_get s i = GWriting p;
    ci_recv : forall d new, c_recv s = RParsed d new -> ParseMetrics gs d = PsOk new;
    ci_queue : length (c_queue s) <= limit }.

  Lemma cinv_start : cinv cstart.
  Proof. constructor; cbn; [|discriminate|lia]. intros i. split; [discriminate|intros [p H]; discriminate]. Qed.

  Lemma cinv_step s l s' o : cinv s -> step s l = Some (s', o) -> cinv s'.
  Proof.
    intros I H. unfold cstep in H. destruct (c_dead s); [discriminate|]. pose proof (ci_lock _ I) as L.
    destruct l as [i|i|i n|i|i|d| |order].
    - destruct (c_get s i) eqn:G; try discriminate. inversion H; subst. constructor; cbn; [|apply I..].
      intros j. destruct (Nat.eq_dec i j) as [<-|N].
      + rewrite upd_same. split; [|intros [p E]; discriminate]. intros E. apply L in E. destruct E as [p E]. congruence.
      + rewrite upd_other by exact N. apply L.
    - destruct (c_get s i) eqn:G; try discriminate. destruct (c_lock s) eqn:K; [discriminate|].
      destruct (SetToBytes gs (c_set s)) as [page set']. inversion H; subst. constructor; cbn; [|apply I..].
      intros j. destruct (Nat.eq_dec i j) as [<-|N].
      + rewrite upd_same. split; [exists page; reflexivity|reflexivity].
      + rewrite upd_other by exact N. split; [intros E; inversion E; contradiction|]. intros E. apply L in E. discriminate.
    - inversion H; subst. constructor; cbn; apply I.
    - destruct (c_get s i) eqn:G; try discriminate. destruct (Nat.leb _ _); [|discriminate]. inversion H; subst. constructor; cbn; [|apply I..].
      intros j. destruct (Nat.eq_dec i j) as [<-|N].
      + rewrite upd_same. split; [discriminate|intros [p E]; discriminate].
      + rewrite upd_other by exact N. split; [discriminate|]. intros E. apply L in E.
        assert (X : c_lock s = Some i) by (apply L; exists page; exact G). congruence.
    - destruct (c_get s i) eqn:G; try discriminate. inversion H; subst. constructor; cbn; [|apply I..].
      intros j. destruct (Nat.eq_dec i j) as [<-|N].
      + rewrite upd_same. split; [discriminate|intros [p E]; discriminate].
      + rewrite upd_other by exact N. split; [discriminate|]. intros E. apply L in E.
        assert (X : c_lock s = Some i) by (apply L; exists page; exact G). congruence.
    - destruct (Nat.ltb_spec (length (c_queue s)) limit) as [Q|Q]; inversion H; subst; [|exact I]. constructor; cbn; [apply I|apply I|].
      rewrite app_length. cbn. lia.
    - destruct (c_recv s) eqn:R; [|discriminate]. destruct (c_queue s) as [|d q] eqn:Q; [discriminate|]. pose proof (ci_queue _ I) as Lq. rewrite Q in Lq. cbn in Lq.
      destruct (ParseMetrics gs d) as [| |new] eqn:P; inversion H; subst; constructor; cbn; try apply I; try discriminate; try lia.
      intros d' new' E. inversion E; subst. exact P.
    - destruct (c_recv s) as [|d new] eqn:R; [discriminate|]. destruct (c_lock s) eqn:K; [discriminate|]. inversion H; subst.
      constructor; cbn; [|discriminate|apply I]. intros j. apply L.
  Qed.
  Lemma cinv_run ls : forall s s' o, cinv s -> run s ls = Some (s', o) -> cinv s'.
  Proof.
    induction ls as [|l ls IH]; intros s s' o I H; cbn [crun] in H; [inversion H; subst; exact I|].
    destruct (step s l) as [[s1 o1]|] eqn:E; [|discriminate]. destruct (run s1 ls) as [[s2 o2]|] eqn:E2; [|discriminate]. inversion H; subst.
    exact (IH _ _ _ (cinv_step _ _ _ _ I E) E2).
  Qed.

  (** ** One after the other *)
  Definition orders_of (ls : list clabel) : Prop := forall order, In (CApply order) ls -> forall l, Permutation l (order l).
  Record lin (s : cst) (ls : list clabel) (o : list cobs) (evs : list mevent) (outs : list bytes) : Prop := mkL {
    l_run : mon_run gs [] evs = Some (c_set s, outs);
    l_ans : forall i p, In (OAnswer i p) o -> In p outs;
    l_wri : forall i p, c_get s i = GWriting p -> In p outs;
    l_msg : shuffle (messages_of evs ++ in_hand s) (drops o) (delivered_msgs ls);
    l_ord : orders_of ls -> orders_ok evs }.

  Lemma messages_app a b : messages_of (a ++ b) = messages_of a ++ messages_of b. Proof. apply flat_map_app. Qed.
  Lemma drops_app a b : drops (a ++ b) = drops a ++ drops b. Proof. apply flat_map_app. Qed.
  Lemma delivered_app a b : delivered_msgs (a ++ b) = delivered_msgs a ++ delivered_msgs b.
  Proof. induction a as [|l a IH]; [reflexivity|]. cbn [app]. destruct l; cbn [delivered_msgs]; rewrite IH; reflexivity. Qed.

  Lemma lin_step s ls o evs outs l s' o' : cinv s -> lin s ls o evs outs -> step s l = Some (s', o') -> c_dead s' = false ->
    exists evs' outs', lin s' (ls ++ [l]) (o ++ o') evs' outs'.
  Proof.
    intros I [Lr La Lw Lm Lo] H D. unfold cstep in H. destruct (c_dead s); [discriminate|].
    assert (Ord : orders_of (ls ++ [l]) -> orders_of ls) by (intros X order J; apply X, in_or_app; left; exact J).
    assert (Keep : delivered_msgs [l] = [] -> drops o' = [] -> c_set s' = c_set s -> in_hand s' = in_hand s ->
      (forall i p, In (OAnswer i p) o' -> In p outs) -> (forall i p, c_get s' i = GWriting p -> In p outs) ->
      exists evs' outs', lin s' (ls ++ [l]) (o ++ o') evs' outs').
    { intros E1 E2 E3 E4 E5 E6. exists evs, outs. constructor.
      - rewrite E3. exact Lr.
      - intros i p J. apply in_app_or in J. destruct J as [J|J]; [exact (La _ _ J)|exact (E5 _ _ J)].
      - exact E6.
      - rewrite delivered_app, E1, drops_app, E2, E4, !app_nil_r. exact Lm.
      - intros X. exact (Lo (Ord X)). }
    destruct l as [i|i|i n|i|i|d| |order].
    - destruct (c_get s i) eqn:G; try discriminate. inversion H; subst. apply Keep; try reflexivity; [intros ? ? []|].
      intros j p E. cbn in E. destruct (Nat.eq_dec i j) as [<-|N]; [rewrite upd_same in E; discriminate|rewrite upd_other in E by exact N; exact (Lw _ _ E)].
    - destruct (c_get s i) eqn:G; try discriminate. destruct (c_lock s) eqn:K; [discriminate|].
      destruct (SetToBytes gs (c_set s)) as [page set'] eqn:Sp. inversion H; subst. exists (evs ++ [EGet]), (outs ++ [page]). constructor; cbn.
      + rewrite mon_run_app, Lr. cbn [mon_run mon_step]. rewrite Sp. reflexivity.
      + intros j p J. rewrite app_nil_r in J. apply in_or_app. left. exact (La _ _ J).
      + intros j p E. apply in_or_app. destruct (Nat.eq_dec i j) as [<-|N]; [rewrite upd_same in E; inversion E; right; left; reflexivity|].
        rewrite upd_other in E by exact N. left. exact (Lw _ _ E).
      + rewrite messages_app, delivered_app, app_nil_r. cbn [messages_of flat_map delivered_msgs app]. rewrite !app_nil_r. exact Lm.
      + intros X data order J. apply in_app_or in J. destruct J as [J|[J|[]]]; [exact (Lo (Ord X) _ _ J)|discriminate J].
    - inversion H; subst. apply Keep; try reflexivity; [intros ? ? []|exact Lw].
    - destruct (c_get s i) eqn:G; try discriminate. destruct (Nat.leb _ _); [|discriminate]. inversion H; subst. apply Keep; try reflexivity.
      + intros j p [E|[]]. inversion E; subst. exact (Lw _ _ G).
      + intros j p E. cbn in E. destruct (Nat.eq_dec i j) as [<-|N]; [rewrite upd_same in E; discriminate|rewrite upd_other in E by exact N; exact (Lw _ _ E)].
    - destruct (c_get s i) eqn:G; try discriminate. inversion H; subst. apply Keep; try reflexivity; [intros ? ? []|].
      intros j p E. cbn in E. destruct (Nat.eq_dec i j) as [<-|N]; [rewrite upd_same in E; discriminate|rewrite upd_other in E by exact N; exact (Lw _ _ E)].
    - destruct (Nat.ltb (length (c_queue s)) limit); inversion H; subst; exists evs, outs; constructor; cbn; try assumption.
      + intros j p J. rewrite app_nil_r in J. exact (La _ _ J).
      + rewrite delivered_app, app_nil_r. cbn [delivered_msgs]. unfold in_hand in *. cbn [c_recv c_queue]. rewrite !app_assoc in *. apply shuffle_a. exact Lm.
      + intros X. exact (Lo (Ord X)).
      + intros j p J. apply in_app_or in J. destruct J as [J|[J|[]]]; [exact (La _ _ J)|discriminate J].
      + rewrite delivered_app, drops_app. cbn [delivered_msgs drops flat_map app]. apply shuffle_b. exact Lm.
      + intros X. exact (Lo (Ord X)).
    - destruct (c_recv s) eqn:R; [|discriminate]. destruct (c_queue s) as [|d q] eqn:Q; [discriminate|].
      destruct (ParseMetrics gs d) as [| |new] eqn:P; inversion H; subst; [|discriminate D|].
      + exists (evs ++ [EMsg d (fun l => l)]), outs. constructor; cbn; try assumption.
        * rewrite mon_run_app, Lr. cbn [mon_run mon_step]. rewrite P, app_nil_r. reflexivity.
        * intros j p J. rewrite app_nil_r in J. exact (La _ _ J).
        * rewrite messages_app, delivered_app, !app_nil_r. cbn [messages_of flat_map delivered_msgs app]. unfold in_hand in *. cbn [c_recv c_queue]. rewrite R, Q in Lm.
          cbn [app] in *. rewrite <- app_assoc. exact Lm.
        * intros X data order J. apply in_app_or in J. destruct J as [J|[J|[]]]; [exact (Lo (Ord X) _ _ J)|]. inversion J; subst. intros l. reflexivity.
      + apply Keep; try reflexivity; [|intros ? ? []|exact Lw]. unfold in_hand. cbn [c_recv c_queue]. rewrite R, Q. reflexivity.
    - destruct (c_recv s) as [|d new] eqn:R; [discriminate|]. destruct (c_lock s) eqn:K; [discriminate|]. inversion H; subst.
      exists (evs ++ [EMsg d order]), outs. constructor; cbn; try assumption.
      + rewrite mon_run_app, Lr. cbn [mon_run mon_step]. rewrite (ci_recv _ I _ _ R), app_nil_r. reflexivity.
      + intros j p J. rewrite app_nil_r in J. exact (La _ _ J).
      + rewrite messages_app, delivered_app, !app_nil_r. cbn [messages_of flat_map delivered_msgs app]. unfold in_hand in *. cbn [c_recv c_queue]. rewrite R in Lm.
        cbn [app] in *. rewrite <- app_assoc. exact Lm.
      + intros X data order' J. apply in_app_or in J. destruct J as [J|[J|[]]]; [exact (Lo (Ord X) _ _ J)|]. inversion J; subst.
        apply X. apply in_or_app. right. left. reflexivity.
  Qed.

  Lemma dead_stays s l s' o : step s l = Some (s', o) -> c_dead s = false.
  Proof. unfold cstep. destruct (c_dead s); [discriminate|reflexivity]. Qed.
  Lemma run_alive ls : forall s s' o, run s ls = Some (s', o) -> c_dead s' = false -> c_dead s = false.
  Proof.
    intros s s' o H D. destruct ls as [|l ls]; cbn [crun] in H; [inversion H; subst; exact D|].
    destruct (step s l) as [[s1 o1]|] eqn:E; [|discriminate]. exact (dead_stays _ _ _ _ E).
  Qed.
  Lemma lin_run ls : forall s pre o evs outs s' o', cinv s -> lin s pre o evs outs -> run s ls = Some (s', o') -> c_dead s' = false ->
    exists evs' outs', lin s' (pre ++ ls) (o ++ o') evs' outs'.
  Proof.
    induction ls as [|l ls IH]; intros s pre o evs outs s' o' I L H D; cbn [crun] in H.
    - inversion H; subst. rewrite !app_nil_r. exists evs, outs. exact L.
    - destruct (step s l) as [[s1 o1]|] eqn:E; [|discriminate]. destruct (run s1 ls) as [[s2 o2]|] eqn:E2; [|discriminate]. inversion H; subst.
      destruct (lin_step _ _ _ _ _ _ _ _ I L E (run_alive _ _ _ _ E2 D)) as (evs1 & outs1 & L1).
      destruct (IH _ _ _ _ _ _ _ (cinv_step _ _ _ _ I E) L1 E2 D) as (evs2 & outs2 & L2).
      exists evs2, outs2. rewrite <- !app_assoc in L2. cbn [app] in L2. exact L2.
  Qed.
  Lemma one_by_one ls s o : run cstart ls = Some (s, o) -> c_dead s = false -> exists evs outs,
    mon_run gs [] evs = Some (c_set s, outs) /\ (forall i p, In (OAnswer i p) o -> In p outs) /\
    shuffle (messages_of evs ++ in_hand s) (drops o) (delivered_msgs ls) /\ (orders_of ls -> orders_ok evs).
  Proof.
    intros H D. destruct (lin_run ls cstart [] [] [] [] s o cinv_start) as (evs & outs & [A B C E F]); [|exact H|exact D|].
    - constructor; [reflexivity|intros ? ? []|discriminate|constructor|intros _ ? ? []].
    - exists evs, outs. auto.
  Qed.

  (** ** Of one moment *)
  Definition when (s0 : cst) (ls : list clabel) (i : nat) (p : bytes) : Prop :=
    exists l1 l2 s1 o1, ls = l1 ++ CLock i :: l2 /\ In (CAsk i) l1 /\ run s0 l1 = Some (s1, o1) /\ p = fst (SetToBytes gs (c_set s1)).
  Definition minv (s0 : cst) (ls : list clabel) (s : cst) (o : list cobs) : Prop :=
    (forall i, c_get s i = GAsked -> In (CAsk i) ls) /\ (forall i p, c_get s i = GWriting p -> when s0 ls i p) /\ (forall i p, In (OAnswer i p) o -> when s0 ls i p).
  Lemma when_mono s0 ls l i p : when s0 ls i p -> when s0 (ls ++ [l]) i p.
  Proof. intros (l1 & l2 & s1 & o1 & E & X). exists l1, (l2 ++ [l]), s1, o1. split; [rewrite E, <- app_assoc; reflexivity|exact X]. Qed.
  Lemma minv_step s0 pre s o l s' o' : run s0 pre = Some (s, o) -> minv s0 pre s o -> step s l = Some (s', o') -> minv s0 (pre ++ [l]) s' (o ++ o').
  Proof.
    intros H0 (M1 & M2 & M3) H.
    assert (Keep : (forall i, c_get s' i = c_get s i \/ (c_get s' i <> GAsked /\ forall p, c_get s' i <> GWriting p)) ->
       (forall i p, In (OAnswer i p) o' -> c_get s i = GWriting p) -> minv s0 (pre ++ [l]) s' (o ++ o')).
    { intros K1 K2. split; [|split].
      - intros i E. apply in_or_app. left. destruct (K1 i) as [X|[X _]]; [|contradiction]. apply M1. congruence.
      - intros i p E. apply when_mono. destruct (K1 i) as [X|[_ X]]; [|destruct (X p E)]. apply M2. congruence.
      - intros i p J. apply when_mono. apply in_app_or in J. destruct J as [J|J]; [exact (M3 _ _ J)|exact (M2 _ _ (K2 _ _ J))]. }
    unfold cstep in H. destruct (c_dead s); [discriminate|]. destruct l as [i|i|i n|i|i|d| |order].
    - destruct (c_get s i) eqn:G; try discriminate. inversion H; subst. split; [|split].
      + intros j E. apply in_or_app. cbn in E. destruct (Nat.eq_dec i j) as [<-|N]; [right; left; reflexivity|]. rewrite upd_other in E by exact N. left. exact (M1 _ E).
      + intros j p E. cbn in E. destruct (Nat.eq_dec i j) as [<-|N]; [rewrite upd_same in E; discriminate|]. rewrite upd_other in E by exact N. apply when_mono. exact (M2 _ _ E).
      + intros j p J. rewrite app_nil_r in J. apply when_mono. exact (M3 _ _ J).
    - destruct (c_get s i) eqn:G; try discriminate. destruct (c_lock s) eqn:K; [discriminate|].
      destruct (SetToBytes gs (c_set s)) as [page set'] eqn:Sp. inversion H; subst. split; [|split].
      + intros j E. apply in_or_app. left. cbn in E. destruct (Nat.eq_dec i j) as [<-|N]; [rewrite upd_same in E; discriminate|]. rewrite upd_other in E by exact N. exact (M1 _ E).
      + intros j p E. cbn in E. destruct (Nat.eq_dec i j) as [<-|N]; [|rewrite upd_other in E by exact N; apply when_mono; exact (M2 _ _ E)].
        rewrite upd_same in E. inversion E; subst. exists pre, [], s, o. split; [reflexivity|]. split; [exact (M1 _ G)|]. split; [exact H0|]. rewrite Sp. reflexivity.
      + intros j p J. rewrite app_nil_r in J. apply when_mono. exact (M3 _ _ J).
    - inversion H; subst. apply Keep; [intros j; left; reflexivity|intros ? ? []].
    - destruct (c_get s i) eqn:G; try discriminate. destruct (Nat.leb _ _); [|discriminate]. inversion H; subst. apply Keep.
      + intros j. cbn. destruct (Nat.eq_dec i j) as [<-|N]; [right; rewrite upd_same; split; [discriminate|intros; discriminate]|left; rewrite upd_other by exact N; reflexivity].
      + intros j p [E|[]]. inversion E; subst. exact G.
    - destruct (c_get s i) eqn:G; try discriminate. inversion H; subst. apply Keep; [|intros ? ? []].
      intros j. cbn. destruct (Nat.eq_dec i j) as [<-|N]; [right; rewrite upd_same; split; [discriminate|intros; discriminate]|left; rewrite upd_other by exact N; reflexivity].
    - destruct (Nat.ltb (length (c_queue s)) limit); inversion H; subst; (apply Keep; [intros j; left; reflexivity|]); [intros ? ? []|intros j p [E|[]]; discriminate E].
    - destruct (c_recv s) eqn:R; [|discriminate]. destruct (c_queue s) as [|d q] eqn:Q; [discriminate|].
      destruct (ParseMetrics gs d) as [| |new] eqn:P; inversion H; subst; (apply Keep; [intros j; left; reflexivity|]);
        [intros ? ? []|intros ? ? [E|[]]; discriminate E|intros ? ? []].
    - destruct (c_recv s) as [|d new] eqn:R; [discriminate|]. destruct (c_lock s) eqn:K; [discriminate|]. inversion H; subst. apply Keep; [intros j; left; reflexivity|intros ? ? []].
  Qed.
  Lemma minv_run s0 ls : forall pre s o s' o', run s0 pre = Some (s, o) -> minv s0 pre s o -> run s ls = Some (s', o') -> minv s0 (pre ++ ls) s' (o ++ o').
  Proof.
    induction ls as [|l ls IH]; intros pre s o s' o' H0 M H; cbn [crun] in H; [inversion H; subst; rewrite !app_nil_r; exact M|].
    destruct (step s l) as [[s1 o1]|] eqn:E; [|discriminate]. destruct (run s1 ls) as [[s2 o2]|] eqn:E2; [|discriminate]. inversion H; subst.
    assert (H1 : run s0 (pre ++ [l]) = Some (s1, o ++ o1)). { rewrite crun_app, H0. cbn [crun]. rewrite E, app_nil_r. reflexivity. }
    pose proof (IH _ _ _ _ _ H1 (minv_step _ _ _ _ _ _ _ H0 M E) E2) as X. rewrite <- !app_assoc in X. exact X.
  Qed.
  Lemma of_one_moment ls s o i p : run cstart ls = Some (s, o) -> In (OAnswer i p) o -> when cstart ls i p.
  Proof.
    intros H J. assert (M : minv cstart [] cstart []) by (split; [discriminate|split; [discriminate|intros ? ? []]]).
    exact (proj2 (proj2 (minv_run cstart ls [] cstart [] s o eq_refl M H)) i p J).
  Qed.

  (** ** If the clients read *)
  Definition reads_only (l : clabel) : Prop := match l with CAsk _ | CClose _ | CDeliver _ => False | _ => True end.
  Definition unlocked (s : cst) : Prop := c_lock s = None /\ c_dead s = false.

  (** The holder of the mutex is through when its client has read the page. *)
  Lemma release s : cinv s -> c_dead s = false -> exists ls s' o', length ls <= 2 /\ Forall reads_only ls /\ run s ls = Some (s', o') /\ unlocked s' /\
    c_set s' = c_set s /\ c_queue s' = c_queue s /\ c_recv s' = c_recv s /\ (forall i, c_get s i = GAsked -> c_get s' i = GAsked).
  Proof.
    intros I D. destruct (c_lock s) as [j|] eqn:K.
    - destruct (proj1 (ci_lock _ I j) K) as [p G].
      exists [CRead j (length p); CDone j], (mkC (c_set s) None (upd_at (c_get s) j GAnswered) (upd_at (c_read s) j (c_read s j + length p)) (c_queue s) (c_recv s) false), [OAnswer j p].
      split; [apply le_n|]. split; [repeat constructor|]. split; [|split; [split; reflexivity|cbn; repeat (split; [reflexivity|])]].
      + cbn [crun]. unfold cstep at 1. rewrite D. unfold cstep at 1. cbn [c_dead c_get c_read c_set c_queue c_recv]. rewrite G, upd_same.
        destruct (Nat.leb_spec (length p) (room + (c_read s j + length p))) as [_|X]; [reflexivity|lia].
      + intros i E. destruct (Nat.eq_dec j i) as [->|N]; [congruence|]. rewrite upd_other by exact N. exact E.
    - exists [], s, []. split; [cbn; lia|]. split; [constructor|]. split; [reflexivity|]. repeat split; assumption || tauto.
  Qed.
  Lemma answered s i : cinv s -> c_dead s = false -> c_get s i = GAsked -> exists ls s' o', length ls <= 5 /\ Forall reads_only ls /\
    run s ls = Some (s', o') /\ In (OAnswer i (fst (SetToBytes gs (c_set s)))) o'.
  Proof.
    intros I D G. destruct (release s I D) as (l1 & s1 & o1 & L1 & F1 & R1 & [U1 U2] & S1 & _ & _ & K). pose proof (K _ G) as G1.
    destruct (SetToBytes gs (c_set s)) as [page set'] eqn:Sp. cbn [fst].
    exists (l1 ++ [CLock i; CRead i (length page); CDone i]).
    eexists. eexists. split; [rewrite app_length; cbn; lia|]. split; [apply Forall_app; split; [exact F1|repeat constructor]|].
    rewrite crun_app, R1. cbn [crun]. unfold cstep at 1. rewrite U2, G1, U1, S1, Sp. unfold cstep at 1. cbn [c_dead]. unfold cstep at 1.
    cbn [c_dead c_get c_read c_set c_queue c_recv]. rewrite !upd_same.
    destruct (Nat.leb_spec (length page) (room + (c_read s1 i + length page))) as [_|X]; [|lia].
    split; [reflexivity|]. apply in_or_app. right. left. reflexivity.
  Qed.
  (** Pages which fit in the buffers need no client. *)
  Lemma answered_small s i : cinv s -> c_dead s = false -> c_get s i = GAsked ->
    (forall j p, c_get s j = GWriting p -> length p <= room + c_read s j) -> length (fst (SetToBytes gs (c_set s))) <= room + c_read s i ->
    exists ls s' o', length ls <= 3 /\ Forall (fun l => by_client l = false) ls /\ run s ls = Some (s', o') /\ In (OAnswer i (fst (SetToBytes gs (c_set s)))) o'.
  Proof.
    intros I D G Fw Fi. destruct (SetToBytes gs (c_set s)) as [page set'] eqn:Sp. cbn [fst] in *. destruct (c_lock s) as [j|] eqn:K.
    - destruct (proj1 (ci_lock _ I j) K) as [p Gj]. assert (N : j <> i) by congruence.
      exists [CDone j; CLock i; CDone i]. do 2 eexists. split; [apply le_n|]. split; [repeat constructor|]. cbn [crun]. unfold cstep at 1. rewrite D, Gj.
      destruct (Nat.leb_spec (length p) (room + c_read s j)) as [_|X]; [|pose proof (Fw _ _ Gj); lia].
      unfold cstep at 1. cbn [c_dead c_get c_read c_set c_queue c_recv c_lock]. rewrite upd_other by exact N. rewrite G, Sp.
      unfold cstep at 1. cbn [c_dead c_get c_read c_set c_queue c_recv c_lock]. rewrite upd_same.
      destruct (Nat.leb_spec (length page) (room + c_read s i)) as [_|X]; [|lia]. split; [reflexivity|]. right. left. reflexivity.
    - exists [CLock i; CDone i]. do 2 eexists. split; [cbn; lia|]. split; [repeat constructor|]. cbn [crun]. unfold cstep at 1. rewrite D, G, K, Sp.
      unfold cstep at 1. cbn [c_dead c_get c_read c_set c_queue c_recv c_lock]. rewrite upd_same.
      destruct (Nat.leb_spec (length page) (room + c_read s i)) as [_|X]; [|lia]. split; [reflexivity|]. left. reflexivity.
  Qed.
  Lemma catch_free q : forall s, unlocked s -> c_recv s = RIdle -> c_queue s = q -> Forall (fun d => ParseMetrics gs d <> PsPanic) q ->
    exists ls s', length ls <= 2 * length q /\ Forall reads_only ls /\ run s ls = Some (s', []) /\ unlocked s' /\ in_hand s' = [].
  Proof.
    induction q as [|d q IH]; intros s [U D] R Q F.
    - exists [], s. split; [cbn; lia|]. split; [constructor|]. split; [reflexivity|]. split; [split; assumption|]. unfold in_hand. rewrite R, Q. reflexivity.
    - inversion F as [|? ? Fd Fq]; subst. destruct (ParseMetrics gs d) as [| |new] eqn:P; [|contradiction Fd; reflexivity|].
      + destruct (IH (mkC (c_set s) (c_lock s) (c_get s) (c_read s) q RIdle false) (conj U eq_refl) eq_refl eq_refl Fq) as (ls & s' & L & Fr & H & X).
        exists (CTake :: ls), s'. split; [cbn [length]; lia|]. split; [constructor; [exact Logic.I|exact Fr]|]. split; [|exact X].
        cbn [crun]. unfold cstep. rewrite D, R, Q, P, H. reflexivity.
      + destruct (IH (mkC (fold_left (Update gs) (map snd new) (c_set s)) None (c_get s) (c_read s) q RIdle false) (conj eq_refl eq_refl) eq_refl eq_refl Fq) as (ls & s' & L & Fr & H & X).
        exists (CTake :: CApply (fun l => l) :: ls), s'. split; [cbn [length]; lia|]. split; [repeat (constructor; [exact Logic.I|]); exact Fr|]. split; [|exact X].
        cbn [crun]. unfold cstep at 1. rewrite D, R, Q, P. unfold cstep at 1. cbn [c_dead c_recv c_lock]. rewrite U. cbn [c_set c_get c_read c_queue]. rewrite H. reflexivity.
  Qed.
  Lemma caught_up s : cinv s -> c_dead s = false -> Forall (fun d => ParseMetrics gs d <> PsPanic) (c_queue s) ->
    exists ls s' o', length ls <= 2 * length (in_hand s) + 2 /\ Forall reads_only ls /\ run s ls = Some (s', o') /\ c_dead s' = false /\ in_hand s' = [].
  Proof.
    intros I D F. destruct (release s I D) as (l1 & s1 & o1 & L1 & F1 & R1 & [U1 U2] & S1 & Q1 & V1 & _).
    destruct (c_recv s) as [|d new] eqn:R.
    - rewrite <- Q1 in F. destruct (catch_free _ s1 (conj U1 U2) V1 eq_refl F) as (l2 & s2 & L2 & F2 & R2 & [_ X] & Y).
      exists (l1 ++ l2), s2, o1. split; [|split; [|split; [|split; [exact X|exact Y]]]].
      + rewrite app_length. unfold in_hand. rewrite R. cbn [app]. rewrite Q1 in L2. lia.
      + apply Forall_app; split; assumption.
      + rewrite crun_app, R1, R2, app_nil_r. reflexivity.
    - set (s1' := mkC (fold_left (Update gs) (map snd new) (c_set s1)) None (c_get s1) (c_read s1) (c_queue s1) RIdle false).
      rewrite <- Q1 in F. destruct (catch_free _ s1' (conj eq_refl eq_refl) eq_refl eq_refl F) as (l2 & s2 & L2 & F2 & R2 & [_ X] & Y). cbn [s1' c_queue] in L2.
      exists (l1 ++ CApply (fun l => l) :: l2), s2, o1. split; [|split; [|split; [|split; [exact X|exact Y]]]].
      + rewrite app_length. unfold in_hand. rewrite R. cbn [app length]. rewrite Q1 in L2. lia.
      + apply Forall_app; split; [exact F1|constructor; [exact Logic.I|exact F2]].
      + rewrite crun_app, R1. cbn [crun]. unfold cstep. rewrite U2, V1, U1. fold s1'. rewrite R2, app_nil_r. reflexivity.
  Qed.

  (** ** A client which does not read *)
  Definition held_by (s : cst) (j : nat) (page : bytes) : Prop := c_lock s = Some j /\ c_get s j = GWriting page /\ room + c_read s j < length page.
  Lemma stall_step s j page l s' o : cinv s -> held_by s j page -> stalls j l -> step s l = Some (s', o) ->
    held_by s' j page /\ c_set s' = c_set s /\ answers o = [].
  Proof.
    intros I (K & G & L) St H. unfold held_by. pose proof (ci_lock _ I) as Li.
    assert (Only : forall i p, c_get s i = GWriting p -> i = j).
    { intros i p E. assert (X : c_lock s = Some i) by (apply Li; exists p; exact E). congruence. }
    unfold cstep in H. destruct (c_dead s); [discriminate|]. destruct l as [i|i|i n|i|i|d| |order].
    - destruct (c_get s i) eqn:Gi; try discriminate. inversion H; subst. cbn. assert (N : i <> j) by congruence. rewrite upd_other by exact N. auto.
    - rewrite K in H. destruct (c_get s i); discriminate.
    - inversion H; subst. cbn. cbn in St. rewrite upd_other by exact St. auto.
    - destruct (c_get s i) as [| |p| |] eqn:Gi; try discriminate. destruct (Nat.leb_spec (length p) (room + c_read s i)) as [X|X]; [|discriminate].
      exfalso. pose proof (Only _ _ Gi). subst i. rewrite G in Gi. inversion Gi; subst. lia.
    - destruct (c_get s i) as [| |p| |] eqn:Gi; try discriminate. exfalso. exact (St (Only _ _ Gi)).
    - destruct (Nat.ltb (length (c_queue s)) limit); inversion H; subst; cbn; auto.
    - destruct (c_recv s) as [|d new]; [|discriminate]. destruct (c_queue s) as [|d q]; [discriminate|].
      destruct (ParseMetrics gs d); inversion H; subst; cbn; auto.
    - destruct (c_recv s) as [|d new]; [discriminate|]. rewrite K in H. discriminate.
  Qed.
  Lemma answers_app a b : answers (a ++ b) = answers a ++ answers b. Proof. apply flat_map_app. Qed.
  Lemma stalled j page ls : forall s s' o, cinv s -> held_by s j page -> Forall (stalls j) ls -> run s ls = Some (s', o) ->
    held_by s' j page /\ c_set s' = c_set s /\ answers o = [].
  Proof.
    induction ls as [|l ls IH]; intros s s' o I K F H; cbn [crun] in H; [inversion H; subst; auto|].
    destruct (step s l) as [[s1 o1]|] eqn:E; [|discriminate]. destruct (run s1 ls) as [[s2 o2]|] eqn:E2; [|discriminate]. inversion H; subst.
    inversion F as [|? ? Fl Fls]; subst. destruct (stall_step _ _ _ _ _ _ I K Fl E) as (K1 & S1 & A1).
    destruct (IH _ _ _ (cinv_step _ _ _ _ I E) K1 Fls E2) as (K2 & S2 & A2). split; [exact K2|]. split; [congruence|]. rewrite answers_app, A1, A2. reflexivity.
  Qed.

  (** What happens to the messages meanwhile. *)
  Definition parses (d : bytes) : Prop := exists new, ParseMetrics gs d = PsOk new.
  Lemma pile_step s j page l s' o : cinv s -> held_by s j page -> stalls j l -> step s l = Some (s', o) -> Forall parses (c_queue s ++ delivered_msgs [l]) ->
    length (in_hand s) + length (delivered_msgs [l]) = length (in_hand s') + length (drops o) /\ Forall parses (c_queue s') /\ (c_dead s = false -> c_dead s' = false).
  Proof.
    intros I (K & G & L) St H F. unfold in_hand. apply Forall_app in F. destruct F as [Fq Fl].
    unfold cstep in H. destruct (c_dead s) eqn:D; [discriminate|]. destruct l as [i|i|i n|i|i|d| |order]; cbn [delivered_msgs].
    - destruct (c_get s i); try discriminate. inversion H; subst. cbn. auto.
    - rewrite K in H. destruct (c_get s i); discriminate.
    - inversion H; subst. cbn. auto.
    - destruct (c_get s i) as [| |p| |]; try discriminate. destruct (Nat.leb (length p) (room + c_read s i)); [|discriminate]. inversion H; subst. cbn. auto.
    - destruct (c_get s i) as [| |p| |]; try discriminate. inversion H; subst. cbn. auto.
    - destruct (Nat.ltb (length (c_queue s)) limit); inversion H; subst; cbn [c_recv c_queue drops flat_map app length c_dead].
      + rewrite !app_length. cbn [length]. split; [lia|]. split; [apply Forall_app; split; assumption|auto].
      + split; [lia|]. split; [exact Fq|auto].
    - destruct (c_recv s) as [|d new]; [|discriminate]. destruct (c_queue s) as [|d q]; [discriminate|]. inversion Fq as [|? ? [new P] Fq']; subst. rewrite P in H.
      inversion H; subst. cbn. auto.
    - destruct (c_recv s) as [|d new]; [discriminate|]. rewrite K in H. discriminate.
  Qed.
  Lemma pile j page ls : forall s s' o, cinv s -> held_by s j page -> Forall (stalls j) ls -> run s ls = Some (s', o) ->
    Forall parses (c_queue s ++ delivered_msgs ls) ->
    length (in_hand s) + length (delivered_msgs ls) = length (in_hand s') + length (drops o).
  Proof.
    induction ls as [|l ls IH]; intros s s' o I K F H P; cbn [crun] in H; [inversion H; subst; cbn; lia|].
    destruct (step s l) as [[s1 o1]|] eqn:E; [|discriminate]. destruct (run s1 ls) as [[s2 o2]|] eqn:E2; [|discriminate]. inversion H; subst.
    inversion F as [|? ? Fl Fls]; subst. change (l :: ls) with ([l] ++ ls) in P. rewrite delivered_app in P. 
    rewrite app_assoc in P. apply Forall_app in P. destruct P as [P1 P2].
    destruct (stall_step _ _ _ _ _ _ I K Fl E) as (K1 & _ & _). destruct (pile_step _ _ _ _ _ _ I K Fl E P1) as (C1 & Q1 & _).
    pose proof (IH _ _ _ (cinv_step _ _ _ _ I E) K1 Fls E2 (proj2 (Forall_app _ _ _) (conj Q1 P2))) as X.
    change (l :: ls) with ([l] ++ ls). rewrite delivered_app, drops_app, !app_length. lia.
  Qed.
  Lemma in_hand_bound s : cinv s -> length (in_hand s) <= limit + 1.
  Proof. intros I. unfold in_hand. rewrite app_length. pose proof (ci_queue _ I). destruct (c_recv s); cbn [length]; lia. Qed.
  Lemma stall ls0 s o0 j page ls s' o : run cstart ls0 = Some (s, o0) -> c_get s j = GWriting page -> room + c_read s j < length page ->
    Forall (stalls j) ls -> run s ls = Some (s', o) ->
    answers o = [] /\ c_set s' = c_set s /\ (exists page', c_get s' j = GWriting page') /\
    (Forall parses (c_queue s ++ delivered_msgs ls) -> length (delivered_msgs ls) <= limit + 1 + length (drops o)).
  Proof.
    intros H0 G L F H. pose proof (cinv_run _ _ _ _ cinv_start H0) as I.
    assert (K : held_by s j page) by (split; [apply (ci_lock _ I); exists page; exact G|split; assumption]).
    destruct (stalled j page ls s s' o I K F H) as ((_ & G' & _) & E & A). split; [exact A|]. split; [exact E|]. split; [exists page; exact G'|].
    intros P. pose proof (pile j page ls s s' o I K F H P). pose proof (in_hand_bound s' (cinv_run _ _ _ _ I H)). lia.
  Qed.

  (** Such a client, whatever fits in the buffers. *)
  Lemma answer_long name v ms answer : right_answer [Entry name [] v ms] answer -> length name <= length answer.
  Proof.
    intros (served & -> & _ & _ & Lt). assert (J : In (Entry name [] v ms) served).
    { apply Lt; [intros i j a b _ X; destruct i; discriminate X|]. exists [], (Entry name [] v ms), []. repeat split; try apply Permutation_refl. constructor. }
    apply in_split in J. destruct J as (a & b & ->). rewrite map_app, concat_app, app_length. cbn [map concat]. rewrite !app_length.
    unfold served_line. cbn [e_name e_labels]. rewrite app_length. lia.
  Qed.
  Lemma plain_as n : 0 < n -> plain_name (repeat "a"%char n).
  Proof.
    intros H. assert (A : forall c, In c (repeat "a"%char n) -> c = "a"%char) by (intros c J; exact (repeat_spec _ _ _ J)).
    split; [destruct n; [lia|discriminate]|]. split; [|split]; intros J; apply A in J; discriminate J.
  Qed.
  Lemma run_quiet s l s1 ls s2 : step s l = Some (s1, []) -> run s1 ls = Some (s2, []) -> run s (l :: ls) = Some (s2, []).
  Proof. intros H1 H2. cbn [crun]. rewrite H1, H2. reflexivity. Qed.
  Definition long_counter : report := RCounter (repeat "a"%char (S room)) 1 0 [].
  Lemma stall_state : sorts gs -> 1 <= limit -> exists (s : cst) (page : bytes),
    run cstart [CDeliver (report_text gs long_counter); CTake; CApply (fun l => l); CAsk 0; CLock 0] = Some (s, []) /\
    c_get s 0 = GWriting page /\ room + c_read s 0 < length page.
  Proof.
    intros Hs Hl. set (r := long_counter).
    assert (Ok : report_ok r).
    { unfold r, long_counter. cbn [report_ok]. split; [apply plain_as; lia|]. split; [constructor|]. split; [constructor|]. unfold int64, minInt64, maxInt64, two63. split; lia. }
    destruct (report_says gs Hs r Ok) as (es & Sy & _). destruct (says_parses gs _ _ Sy) as (new & P).
    destruct (deployment_right gs Hs [inl (r, fun l => l)]) as (set & outs & answer & ess & R & F & A).
    { intros r' o [E|[]]. inversion E; subst. split; [exact Ok|intros; apply Permutation_refl]. }
    cbn [flat_map app] in F. inversion F as [|? es' ? ess' Rp F']; subst. inversion F'; subst. destruct Rp as (ls' & [Pl _] & ->).
    apply Permutation_nil in Pl. subst ls'. cbn [concat app] in A. apply answer_long in A. rewrite repeat_length in A.
    cbn [app map devent_event mon_run mon_step] in R. rewrite P in R. 
    destruct (SetToBytes gs (fold_left (Update gs) (map snd new) [])) as [page set'] eqn:Sp. inversion R as [[R1 R2]]; subst.
    destruct outs as [|x outs]; cbn [app] in R2; [|destruct outs; discriminate R2]. inversion R2; subst.
    eexists. exists answer. split; [|split].
    { eapply run_quiet; [|eapply run_quiet; [|eapply run_quiet; [|eapply run_quiet; [|eapply run_quiet; [|reflexivity]]]]].
      - unfold cstep. cbn [cstart c_dead c_queue length]. destruct (Nat.ltb_spec 0 limit) as [_|X]; [reflexivity|lia].
      - unfold cstep. cbn [c_dead c_recv c_queue app]. rewrite P. reflexivity.
      - unfold cstep. cbn [c_dead c_recv c_lock]. reflexivity.
      - unfold cstep. cbn [c_dead c_get]. reflexivity.
      - unfold cstep. cbn [c_dead c_get c_set c_lock cstart]. rewrite upd_same, Sp. reflexivity. }
    - cbn [c_get]. rewrite upd_same. reflexivity.
    - change (room + 0 < length answer). lia.
  Qed.
  Lemma long_counter_ok : report_ok long_counter.
  Proof.
    unfold long_counter. cbn [report_ok]. split; [apply plain_as; lia|]. split; [constructor|]. split; [constructor|]. unfold int64, minInt64, maxInt64, two63. split; lia.
  Qed.

  (** ** What an answer says *)
  Lemma shuffle_map {A B} (f : A -> B) a b c' : shuffle a b c' -> forall c, c' = map f c -> exists a0 b0, a = map f a0 /\ b = map f b0 /\ shuffle a0 b0 c.
  Proof.
    induction 1 as [|x a b c' H IH|x a b c' H IH]; intros c E.
    - destruct c; [|discriminate E]. exists [], []. repeat split. constructor.
    - destruct c as [|y c]; [discriminate E|]. inversion E; subst. destruct (IH c eq_refl) as (a0 & b0 & -> & -> & Sh).
      exists (y :: a0), b0. repeat split. constructor. exact Sh.
    - destruct c as [|y c]; [discriminate E|]. inversion E; subst. destruct (IH c eq_refl) as (a0 & b0 & -> & -> & Sh).
      exists a0, (y :: b0). repeat split. constructor. exact Sh.
  Qed.
  Lemma shuffle_in_a {A} (a b c : list A) x : shuffle a b c -> In x a -> In x c.
  Proof. induction 1 as [|y a b c H IH|y a b c H IH]; intros J; [exact J|destruct J as [->|J]; [left; reflexivity|right; exact (IH J)]|right; exact (IH J)]. Qed.
  Lemma map_app_inv {A B} (f : A -> B) l : forall a b, map f l = a ++ b -> exists x y, l = x ++ y /\ map f x = a /\ map f y = b.
  Proof.
    induction l as [|z l IH]; intros a b E; cbn [map] in E.
    - destruct a; [|discriminate E]. cbn in E. subst b. exists [], []. auto.
    - destruct a as [|w a]; cbn [app] in E; [exists [], (z :: l); auto|]. inversion E; subst. destruct (IH _ _ H1) as (x & y & -> & <- & <-).
      exists (z :: x), y. auto.
  Qed.
  Lemma as_deployment evs : forall hs, messages_of evs = map (report_text gs) hs -> orders_ok evs -> exists devs : list ((report * (list metric -> list metric)) + unit),
    evs = map (devent_event gs) devs /\ flat_map (fun e => match e with inl (r, _) => [r] | inr _ => [] end) devs = hs /\
    (forall r o, In (inl (r, o)) devs -> forall l, Permutation l (o l)).
  Proof.
    induction evs as [|e evs IH]; intros hs E Oo.
    - destruct hs; [|discriminate E]. exists []. split; [reflexivity|]. split; [reflexivity|intros ? ? []].
    - assert (Oo' : orders_ok evs) by (intros d o J; apply (Oo d o); right; exact J). destruct e as [d order|].
      + cbn [messages_of flat_map app] in E. destruct hs as [|h hs]; [discriminate E|]. cbn [map] in E. inversion E; subst.
        destruct (IH hs H1 Oo') as (devs & -> & F & P). exists (inl (h, order) :: devs). split; [reflexivity|]. split; [cbn [flat_map app]; rewrite F; reflexivity|].
        intros r o [J|J]; [inversion J; subst; apply (Oo (report_text gs r) o); left; reflexivity|exact (P r o J)].
      + destruct (IH hs E Oo') as (devs & -> & F & P). exists (inr tt :: devs). split; [reflexivity|]. split; [exact F|].
        intros r o [J|J]; [discriminate J|exact (P r o J)].
  Qed.
  Lemma answer_says : sorts gs -> forall ls s o rs i page, run cstart ls = Some (s, o) -> In (OAnswer i page) o -> orders_of ls ->
    delivered_msgs ls = map (report_text gs) rs -> Forall report_ok rs ->
    exists l1 l2 r1 handled waiting lost ess, ls = l1 ++ CLock i :: l2 /\ In (CAsk i) l1 /\
      delivered_msgs l1 = map (report_text gs) r1 /\ (exists r2, rs = r1 ++ r2) /\ shuffle (handled ++ waiting) lost r1 /\ length waiting <= limit + 1 /\
      Forall2 reported handled ess /\ right_answer (concat ess) page.
  Proof.
    intros Hs ls s o rs i page H J Oo D Ok. destruct (of_one_moment ls s o i page H J) as (l1 & l2 & s1 & o1 & -> & Ask & H1 & ->).
    assert (Al : c_dead s1 = false).
    { rewrite crun_app, H1 in H. cbn [crun] in H. destruct (step s1 (CLock i)) as [[s2 o2]|] eqn:E; [|discriminate]. exact (dead_stays _ _ _ _ E). }
    destruct (one_by_one l1 s1 o1 H1 Al) as (evs & outs & M & _ & Sh & Oe).
    assert (Oo1 : orders_of l1) by (intros x Jx; apply Oo, in_or_app; left; exact Jx).
    rewrite delivered_app in D. symmetry in D. destruct (map_app_inv _ _ _ _ D) as (r1 & r2 & -> & D1 & D2).
    destruct (shuffle_map (report_text gs) _ _ _ Sh r1 (eq_sym D1)) as (hw & lost & E1 & E2 & Sh').
    destruct (map_app_inv _ _ _ _ (eq_sym E1)) as (handled & waiting & -> & E3 & E4).
    destruct (as_deployment evs handled (eq_sym E3) (Oe Oo1)) as (devs & -> & F & P).
    destruct (deployment_right gs Hs devs) as (set & outs' & answer & ess & R & Rp & Ra).
    { intros r ord Jr. split; [|exact (P r ord Jr)]. rewrite Forall_forall in Ok. apply Ok, in_or_app. left.
      apply (shuffle_in_a _ _ _ r Sh'), in_or_app. left. rewrite <- F. apply in_flat_map. exists (inl (r, ord)). split; [exact Jr|left; reflexivity]. }
    rewrite map_app in R. cbn [map devent_event] in R. rewrite mon_run_app, M in R. cbn [mon_run mon_step] in R.
    destruct (SetToBytes gs (c_set s1)) as [page set'] eqn:Sp. cbn [fst]. inversion R as [[R1 R2]]. apply app_inj_tail in R2. destruct R2 as [_ ->].
    exists l1, l2, r1, handled, waiting, lost, ess. split; [reflexivity|]. split; [exact Ask|]. split; [symmetry; exact D1|]. split; [exists r2; reflexivity|]. split; [exact Sh'|].
    split; [rewrite <- (map_length (report_text gs) waiting), E4; apply in_hand_bound; exact (cinv_run _ _ _ _ cinv_start H1)|].
    rewrite F in Rp. split; assumption.
  Qed.
End Lock.
