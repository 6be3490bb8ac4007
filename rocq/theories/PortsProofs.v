From Verif Require Import Base Config Ports.
Local Open Scope Z_scope.

Lemma sockets comp c s k : socket comp c s = Some k <-> named comp c s k.
Proof.
  split.
  - destruct s; cbn [socket].
    + destruct comp; intros H; inversion H; constructor.
    + destruct (Z.leb_spec (c_probe_port c) 0); intros X; inversion X. constructor. lia.
    + destruct (Z.ltb_spec 0 (c_pprof_port c)); intros X; inversion X. constructor. lia.
  - intros []; cbn [socket]; [reflexivity..| |]; [replace (c_probe_port c0 <=? 0) with false by lia|replace (0 <? c_pprof_port c0) with true by lia]; reflexivity.
Qed.

Section Run.
  Variables (comp : component) (c : cfg) (taken : sock -> bool).
  Notation sk := (socket comp c).

  Lemma proto_eqb_eq a b : proto_eqb a b = true <-> a = b.
  Proof. destruct a, b; cbn; split; intros; congruence. Qed.
  Lemma sock_eqb_eq a b : sock_eqb a b = true <-> a = b.
  Proof.
    destruct a as [p x], b as [q y]. unfold sock_eqb. cbn [fst snd]. rewrite andb_true_iff, proto_eqb_eq, Z.eqb_eq. split; [intros [-> ->]; reflexivity|].
    intros E. inversion E. auto.
  Qed.
  Lemma seqb_eq a b : seqb a b = true <-> a = b.
  Proof. destruct a, b; cbn; split; intros; congruence. Qed.
  Lemma update_same f s l : update f s l s = l.
  Proof. unfold update. replace (seqb s s) with true by (destruct s; reflexivity). reflexivity. Qed.
  Lemma update_other f s l x : s <> x -> update f s l x = f x.
  Proof. unfold update. intros N. destruct (seqb s x) eqn:E; [apply seqb_eq in E; contradiction|reflexivity]. Qed.

  (** The services still to be opened. *)
  Definition opens1 (i : instr) : list service := match i with IOpen s => [s] | _ => [] end.
  Definition opens (i : instr) : list service := match i with IOpen s => [s] | ISpawn s => flat_map opens1 (prog comp s) | _ => [] end.
  Definition gor_todo (f : service -> list instr) : list service :=
    flat_map opens1 (f Data) ++ flat_map opens1 (f Probes) ++ flat_map opens1 (f Pprof).
  Definition todo (st : pst) : list service := flat_map opens (p_main st) ++ gor_todo (p_gor st).
  Definition opened (tr : list event) : list service := flat_map (fun e => match e with Opened s => [s] | _ => [] end) tr.
  (** The services with a socket. *)
  Definition has (s : service) : bool := match sk s with Some _ => true | None => false end.
  Definition wanted : list service := filter has [Pprof; Probes; Data].
  Definition spawns (l : list instr) : list service := flat_map (fun i => match i with ISpawn s => [s] | _ => [] end) l.

  Lemma opened_app a b : opened (a ++ b) = opened a ++ opened b. Proof. apply flat_map_app. Qed.
  Lemma opened_in s tr : In s (opened tr) <-> In (Opened s) tr.
  Proof.
    unfold opened. rewrite in_flat_map. split.
    - intros ([x|x| | |] & J & K); cbn in K; try contradiction. destruct K as [->|[]]. exact J.
    - intros J. exists (Opened s). split; [exact J|left; reflexivity].
  Qed.

  Lemma wanted_in s : In s wanted <-> exists k, sk s = Some k.
  Proof.
    unfold wanted. rewrite filter_In. unfold has. split.
    - intros [_ H]. destruct (sk s) as [k|]; [exists k; reflexivity|discriminate H].
    - intros [k ->]. split; [destruct s; cbn; tauto|reflexivity].
  Qed.
  Lemma wanted_nodup : NoDup wanted.
  Proof. unfold wanted. apply NoDup_filter. repeat (constructor; [cbn; intuition discriminate|]). constructor. Qed.

  (** A goroutine's list changes. *)
  Lemma todo_update f s l : Permutation (flat_map opens1 (f s) ++ gor_todo (update f s l)) (flat_map opens1 l ++ gor_todo f).
  Proof.
    unfold gor_todo. destruct s; rewrite ?update_same, ?update_other by discriminate.
    - generalize (flat_map opens1 (f Data)), (flat_map opens1 l), (flat_map opens1 (f Probes) ++ flat_map opens1 (f Pprof)). intros a b x.
      rewrite !app_assoc. apply Permutation_app_tail, Permutation_app_comm.
    - generalize (flat_map opens1 (f Probes)), (flat_map opens1 l), (flat_map opens1 (f Data)), (flat_map opens1 (f Pprof)). intros a b x y.
      rewrite (Permutation_app_swap_app x b y), (Permutation_app_swap_app x a y), (Permutation_app_swap_app a b (x ++ y)). reflexivity.
    - generalize (flat_map opens1 (f Pprof)), (flat_map opens1 l), (flat_map opens1 (f Data)), (flat_map opens1 (f Probes)). intros a b x y.
      rewrite !(app_assoc x y). generalize (x ++ y). intros z. rewrite (Permutation_app_comm z b), (Permutation_app_comm z a).
      apply Permutation_app_swap_app.
  Qed.

  Record inv (st : pst) (tr : list event) (failed : list service) : Prop := mkI {
    i_spawn : NoDup (spawns (p_main st)) /\ forall s, In s (spawns (p_main st)) -> p_gor st s = [];
    i_gor : forall s, spawns (p_gor st s) = [];
    i_perm : Permutation (todo st ++ opened tr ++ failed) wanted;
    i_dead : p_dead st = true <-> In Exited tr;
    i_data : In Data failed -> p_dead st = true;
    i_pprof : In Pprof failed -> In (Logged Pprof) tr;
    i_logged : forall s, In (Logged s) tr -> In s failed /\ s = Pprof;
    i_exited : In Exited tr -> In Data failed;
    i_why : forall s, In s failed -> exists k, sk s = Some k /\ can_open taken (p_open st) k = false;
    i_open : forall k, In k (p_open st) <-> exists s, sk s = Some k /\ In s (opened tr) }.

  Lemma inv_start : inv (start_state comp c) [] [].
  Proof.
    constructor.
    - split; [|intros; reflexivity]. unfold start_state, main_prog. cbn [p_main]. destruct (sk Pprof), (sk Probes), comp; cbn;
        repeat (constructor; [cbn; intuition discriminate|]); constructor.
    - reflexivity.
    - unfold start_state, todo, main_prog, wanted, has. cbn [p_main p_gor gor_todo flat_map app filter].
      rewrite !app_nil_r. unfold opens, prog. destruct (sk Pprof), (sk Probes) eqn:E; clear E; unfold socket; destruct comp; cbn; reflexivity.
    - cbn. split; [discriminate|intros []].
    - intros [].
    - intros [].
    - intros s [].
    - intros [].
    - intros s [].
    - intros k. cbn. split; [intros []|intros (s & _ & [])].
  Qed.

  (** The step, once the instruction has been taken off: [i] was at the head of a list, the rest accounts for [todo]. *)
  Lemma exec_inv st i st' o tr failed :
    (NoDup (spawns (p_main st)) /\ forall s, In s (spawns (p_main st)) -> p_gor st s = []) ->
    (forall s, spawns (p_gor st s) = []) ->
    (forall s, i = ISpawn s -> p_gor st s = [] /\ ~ In s (spawns (p_main st))) ->
    Permutation (opens i ++ todo st ++ opened tr ++ failed) wanted ->
    p_dead st = false -> ~ In Exited tr -> ~ In Data failed -> (In Pprof failed -> In (Logged Pprof) tr) ->
    (forall s, In (Logged s) tr -> In s failed /\ s = Pprof) ->
    (forall s, In s failed -> exists k, sk s = Some k /\ can_open taken (p_open st) k = false) ->
    (forall k, In k (p_open st) <-> exists s, sk s = Some k /\ In s (opened tr)) ->
    exec comp c taken st i = (st', o) -> exists failed', inv st' (tr ++ o) failed' /\ incl failed failed' /\
      (forall s, In s failed' -> ~ In s failed -> exists k, sk s = Some k /\ can_open taken (p_open st) k = false).
  Proof.
    intros Sp Gs Si Pe De Ne Nd Pp Lg Wh Op H.
    assert (Op' : forall o0, opened o0 = [] -> forall k, In k (p_open st) <-> exists s, sk s = Some k /\ In s (opened (tr ++ o0))).
    { intros o0 E k. rewrite opened_app, E, app_nil_r. apply Op. }
    (* events other than Exited and Logged *)
    assert (Dd : forall o0, ~ In Exited o0 -> p_dead st = true <-> In Exited (tr ++ o0)).
    { intros o0 N. rewrite De, in_app_iff. split; [discriminate|]. intros [X|X]; contradiction. }
    assert (Ex : forall o0, ~ In Exited o0 -> In Exited (tr ++ o0) -> In Data failed).
    { intros o0 N J. apply in_app_or in J. destruct J; contradiction. }
    assert (Pl : forall o0, In Pprof failed -> In (Logged Pprof) (tr ++ o0)).
    { intros o0 J. apply in_or_app. left. auto. }
    assert (Ll : forall o0 f, incl failed f -> (forall s, ~ In (Logged s) o0) -> forall s, In (Logged s) (tr ++ o0) -> In s f /\ s = Pprof).
    { intros o0 f Ic N x J. apply in_app_or in J. destruct J as [J|J]; [|destruct (N x J)]. destruct (Lg x J) as [J1 J2]. split; [apply Ic; exact J1|exact J2]. }
    assert (Dt : In Data failed -> p_dead st = true) by (intros; contradiction).
    destruct i as [s|s| |]; cbn [exec] in H.
    - inversion H; subst. exists failed. destruct (Si s eq_refl) as [G0 Ns]. split; [|split; [apply incl_refl|intros; contradiction]].
      constructor; cbn [p_main p_gor p_open p_dead];
        [| | |apply Dd; intros []|exact Dt|apply Pl|apply Ll; [apply incl_refl|intros x []]|apply Ex; intros []|exact Wh|apply Op'; reflexivity].
      + split; [apply Sp|]. intros x J. rewrite update_other; [apply Sp; exact J|intros ->; contradiction].
      + intros x. destruct (seqb s x) eqn:E; [apply seqb_eq in E; subst; rewrite update_same; unfold prog; destruct x; destruct comp; reflexivity|].
        rewrite update_other; [apply Gs|intros ->; destruct x; discriminate E].
      + rewrite app_nil_r. unfold todo in *. cbn [p_main p_gor]. pose proof (todo_update (p_gor st) s (prog comp s)) as T. rewrite G0 in T. cbn [flat_map app] in T.
        cbn [opens] in Pe. rewrite <- Pe. rewrite T, <- !app_assoc. apply Permutation_app_swap_app.
    - destruct (sk s) as [k|] eqn:Es.
      2:{ exfalso. assert (J : In s wanted) by (apply (Permutation_in _ Pe); left; reflexivity). apply wanted_in in J. destruct J as [k J]. congruence. }
      destruct (can_open taken (p_open st) k) eqn:Eo; inversion H; subst.
      + exists failed. split; [|split; [apply incl_refl|intros; contradiction]].
        constructor; cbn [p_main p_gor p_open p_dead];
          [exact Sp|exact Gs| |apply Dd; intros [X|[]]; discriminate X|exact Dt|apply Pl|apply Ll; [apply incl_refl|intros x [X|[]]; discriminate X]
          |apply Ex; intros [X|[]]; discriminate X| |].
        * rewrite <- Pe. unfold todo. cbn [p_main p_gor opens app]. rewrite opened_app. cbn [opened flat_map app].
          rewrite <- !app_assoc. cbn [app]. rewrite !(app_assoc (flat_map opens (p_main st))), !(app_assoc (_ ++ gor_todo _)). symmetry. apply Permutation_middle.
        * intros x J. destruct (Wh x J) as (k' & E1 & E2). exists k'. split; [exact E1|]. unfold can_open in *. cbn [existsb].
          apply andb_false_iff in E2. apply andb_false_iff. destruct E2 as [E2|E2]; [left; exact E2|right].
          apply negb_false_iff in E2. apply negb_false_iff. apply orb_true_iff. right. exact E2.
        * intros k'. rewrite opened_app. cbn [opened flat_map app In]. split.
          -- intros [->|J]; [exists s; split; [exact Es|apply in_or_app; right; left; reflexivity]|].
             apply Op in J. destruct J as (x & E & J). exists x. split; [exact E|apply in_or_app; left; exact J].
          -- intros (x & E & J). apply in_app_or in J. destruct J as [J|[->|[]]]; [right; apply Op; exists x; auto|left; congruence].
      + assert (Wn : forall x, In x (s :: failed) -> exists k, sk x = Some k /\ can_open taken (p_open st) k = false).
        { intros x [<-|J]; [exists k; auto|auto]. }
        assert (Pf : Permutation (todo st ++ opened tr ++ s :: failed) wanted).
        { rewrite <- Pe. cbn [opens app]. rewrite !app_assoc. symmetry. apply Permutation_middle. }
        exists (s :: failed). split; [|split; [intros x J; right; exact J|intros x [<-|J] N; [exists k; auto|contradiction]]].
        assert (Ic : incl failed (s :: failed)) by (intros x J; right; exact J).
        destruct s; cbn [on_failure]; constructor; cbn [p_main p_gor p_open p_dead].
        all: try exact Sp. all: try exact Gs. all: try exact Wn. all: try (apply Op'; reflexivity).
        all: try (rewrite opened_app; cbn [opened flat_map]; rewrite app_nil_r; exact Pf).
        (* Data *)
        * rewrite in_app_iff. split; [intros _; right; left; reflexivity|reflexivity].
        * reflexivity.
        * intros [J|J]; [discriminate J|apply Pl; exact J].
        * apply Ll; [exact Ic|intros x [X|[]]; discriminate X].
        * intros _. left. reflexivity.
        (* Probes *)
        * apply Dd. intros [].
        * intros [J|J]; [discriminate J|contradiction].
        * intros [J|J]; [discriminate J|apply Pl; exact J].
        * apply Ll; [exact Ic|intros x []].
        * intros J. right. revert J. apply Ex. intros [].
        (* Pprof *)
        * apply Dd. intros [X|[]]. discriminate X.
        * intros [J|J]; [discriminate J|contradiction].
        * intros _. apply in_or_app. right. left. reflexivity.
        * intros x J. apply in_app_or in J. destruct J as [J|[J|[]]]; [destruct (Lg x J); split; [right|]; assumption|inversion J; subst; split; [left|]; reflexivity].
        * intros J. right. revert J. apply Ex. intros [X|[]]. discriminate X.
    - inversion H; subst. exists failed. split; [|split; [apply incl_refl|intros; contradiction]].
      constructor; [exact Sp|exact Gs| |apply Dd; intros [X|[]]; discriminate X|exact Dt|apply Pl|apply Ll; [apply incl_refl|intros x [X|[]]; discriminate X]
          |apply Ex; intros [X|[]]; discriminate X|exact Wh|apply Op'; reflexivity].
      rewrite opened_app. cbn [opened flat_map]. rewrite app_nil_r. exact Pe.
    - inversion H; subst. exists failed. split; [|split; [apply incl_refl|intros; contradiction]].
      constructor; [exact Sp|exact Gs| |apply Dd; intros [X|[]]; discriminate X|exact Dt|apply Pl|apply Ll; [apply incl_refl|intros x [X|[]]; discriminate X]
          |apply Ex; intros [X|[]]; discriminate X|exact Wh|apply Op'; reflexivity].
      rewrite opened_app. cbn [opened flat_map]. rewrite app_nil_r. exact Pe.
  Qed.

  Lemma step_inv st t st' o tr failed : inv st tr failed -> pstep comp c taken st t = (st', o) ->
    exists failed', inv st' (tr ++ o) failed' /\ (forall s, In s failed' -> ~ In s failed -> exists k, sk s = Some k /\ can_open taken (p_open st) k = false).
  Proof.
    intros I H. unfold pstep in H.
    assert (Same : (st', o) = (st, []) -> exists failed', inv st' (tr ++ o) failed' /\
      (forall s, In s failed' -> ~ In s failed -> exists k, sk s = Some k /\ can_open taken (p_open st) k = false)).
    { intros E. inversion E; subst. rewrite app_nil_r. exists failed. split; [exact I|intros; contradiction]. }
    destruct (p_dead st) eqn:De; [apply Same; symmetry; exact H|].
    assert (Ne : ~ In Exited tr) by (rewrite <- (i_dead _ _ _ I); congruence).
    assert (Nd : ~ In Data failed) by (intros J; apply (i_data _ _ _ I) in J; congruence).
    pose proof (i_spawn _ _ _ I) as Sp. pose proof (i_perm _ _ _ I) as Pe. pose proof (i_gor _ _ _ I) as Gs.
    destruct t as [s|].
    - destruct (p_gor st s) as [|i r] eqn:Eg; [apply Same; symmetry; exact H|].
      assert (Ei : forall x, i <> ISpawn x) by (intros x ->; specialize (Gs s); rewrite Eg in Gs; discriminate Gs).
      assert (Er : spawns r = []) by (specialize (Gs s); rewrite Eg in Gs; destruct i; [destruct (Ei s0 eq_refl)|exact Gs..]).
      assert (Ns : ~ In s (spawns (p_main st))) by (intros J; apply Sp in J; congruence).
      destruct (exec_inv (mkP (p_main st) (update (p_gor st) s r) (p_open st) false) i st' o tr failed) as (f' & I' & _ & W');
        cbn [p_main p_gor p_open p_dead]; [| | | |reflexivity|exact Ne|exact Nd|apply I|apply I|apply I|apply I|exact H|exists f'; split; assumption].
      + split; [apply Sp|]. intros x J. rewrite update_other; [apply Sp; exact J|intros ->; contradiction].
      + intros x. destruct (seqb s x) eqn:E; [apply seqb_eq in E; subst; rewrite update_same; exact Er|].
        rewrite update_other; [apply Gs|intros ->; destruct x; discriminate E].
      + intros x E. destruct (Ei x E).
      + rewrite <- Pe. rewrite !app_assoc. apply Permutation_app_tail. apply Permutation_app_tail. unfold todo. cbn [p_main p_gor].
        pose proof (todo_update (p_gor st) s r) as T. rewrite Eg in T. cbn [flat_map] in T. rewrite <- app_assoc in T.
        assert (Eo : opens i = opens1 i) by (destruct i; try reflexivity; destruct (Ei s0 eq_refl)). rewrite Eo.
        assert (T' : Permutation (opens1 i ++ gor_todo (update (p_gor st) s r)) (gor_todo (p_gor st))).
        { apply (Permutation_app_inv_l (flat_map opens1 r)). rewrite <- T. apply Permutation_app_swap_app. }
        rewrite <- T'. apply Permutation_app_swap_app.
    - destruct (p_main st) as [|i r] eqn:Em; [apply Same; symmetry; exact H|].
      destruct (exec_inv (mkP r (p_gor st) (p_open st) false) i st' o tr failed) as (f' & I' & _ & W');
        cbn [p_main p_gor p_open p_dead]; [|exact Gs| | |reflexivity|exact Ne|exact Nd|apply I|apply I|apply I|apply I|exact H|exists f'; split; assumption].
      + destruct Sp as [S1 S2]. split.
        * destruct i; try exact S1. inversion S1; assumption.
        * intros x J. apply S2. destruct i; try exact J. right. exact J.
      + intros x ->. destruct Sp as [S1 S2]. split; [apply S2; left; reflexivity|]. inversion S1; assumption.
      + rewrite <- Pe. unfold todo. rewrite Em. cbn [p_main p_gor flat_map]. rewrite <- !app_assoc. reflexivity.
  Qed.

  Lemma run_inv sched : forall st tr failed st' o, inv st tr failed -> prun comp c taken st sched = (st', o) -> exists failed', inv st' (tr ++ o) failed'.
  Proof.
    induction sched as [|t sched IH]; intros st tr failed st' o I H; cbn [prun] in H.
    - inversion H; subst. rewrite app_nil_r. exists failed. exact I.
    - destruct (pstep comp c taken st t) as [st1 o1] eqn:E. destruct (prun comp c taken st1 sched) as [st2 o2] eqn:E2. inversion H; subst.
      destruct (step_inv _ _ _ _ _ _ I E) as (f1 & I1 & _). rewrite app_assoc. exact (IH _ _ _ _ _ I1 E2).
  Qed.
End Run.

Section Top.
  Variables (comp : component) (c : cfg) (taken : sock -> bool).
  Notation sk := (socket comp c).
  Notation runs sched st tr := (prun comp c taken (start_state comp c) sched = (st, tr)).

  Lemma run_top sched st tr : runs sched st tr -> exists failed, inv comp c taken st tr failed.
  Proof. intros H. exact (run_inv _ _ _ _ _ [] [] _ _ (inv_start comp c taken) H). Qed.

  Lemma finished_todo st : finished st -> todo comp st = [].
  Proof. intros (_ & M & G). unfold todo, gor_todo. rewrite M, !G. reflexivity. Qed.

  (** Every service with a socket has been opened or has failed. *)
  Lemma finished_all sched st tr failed s k : inv comp c taken st tr failed -> finished st -> runs sched st tr -> sk s = Some k ->
    In (Opened s) tr \/ In s failed.
  Proof.
    intros I F _ Es. pose proof (i_perm _ _ _ _ _ _ I) as P. rewrite (finished_todo _ F) in P. cbn [app] in P.
    assert (J : In s (opened tr ++ failed)) by (apply (Permutation_in _ (Permutation_sym P)); apply (proj2 (wanted_in comp c taken s)); exists k; exact Es).
    apply in_app_or in J. rewrite opened_in in J. exact J.
  Qed.
  Lemma opened_not_failed st tr failed s : inv comp c taken st tr failed -> In s (opened tr) -> In s failed -> False.
  Proof.
    intros I J1 J2. pose proof (Permutation_NoDup (Permutation_sym (i_perm _ _ _ _ _ _ I)) (wanted_nodup comp c)) as N.
    apply in_split in J1. destruct J1 as (a & b & E). rewrite E in N. rewrite <- !app_assoc in N. cbn [app] in N. rewrite app_assoc in N.
    apply NoDup_remove_2 in N. apply N. apply in_or_app. right. apply in_or_app. right. exact J2.
  Qed.

  (** Why a service failed. *)
  Definition blocked (s : service) (tr : list event) : Prop :=
    exists k, sk s = Some k /\ (~ 0 <= snd k <= 65535 \/ taken k = true \/ exists s', s' <> s /\ sk s' = Some k /\ In (Opened s') tr).
  Lemma failed_why st tr failed s : inv comp c taken st tr failed -> In s failed -> blocked s tr.
  Proof.
    intros I J. destruct (i_why _ _ _ _ _ _ I s J) as (k & Es & C). exists k. split; [exact Es|]. unfold can_open in C.
    destruct (0 <=? snd k) eqn:E1; [|left; lia]. destruct (snd k <=? 65535) eqn:E2; [|left; lia]. cbn [andb] in C.
    destruct (taken k) eqn:E3; [right; left; reflexivity|]. cbn [negb andb] in C. apply negb_false_iff in C. right. right.
    apply existsb_exists in C. destruct C as (k' & J' & E). apply sock_eqb_eq in E. subst k'.
    apply (i_open _ _ _ _ _ _ I) in J'. destruct J' as (s' & Es' & J'). exists s'. split; [|split; [exact Es'|apply opened_in; exact J']].
    intros ->. exact (opened_not_failed _ _ _ _ I J' J).
  Qed.

  Lemma own_port sched st tr : runs sched st tr -> finished st -> forall k, sk Data = Some k -> In (Opened Data) tr.
  Proof.
    intros H F k Es. destruct (run_top _ _ _ H) as (failed & I). destruct (finished_all _ _ _ _ _ _ I F H Es) as [J|J]; [exact J|].
    apply (i_data _ _ _ _ _ _ I) in J. destruct F as [D _]. congruence.
  Qed.
  Lemma missing sched st tr : runs sched st tr -> finished st -> forall s k, sk s = Some k -> ~ In (Opened s) tr ->
    s <> Data /\ blocked s tr /\ (s = Pprof -> In (Logged Pprof) tr).
  Proof.
    intros H F s k Es N. destruct (run_top _ _ _ H) as (failed & I). destruct (finished_all _ _ _ _ _ _ I F H Es) as [J|J]; [contradiction|].
    split; [|split; [exact (failed_why _ _ _ _ I J)|intros ->; exact (i_pprof _ _ _ _ _ _ I J)]].
    intros ->. apply (i_data _ _ _ _ _ _ I) in J. destruct F as [D _]. congruence.
  Qed.
  Lemma exit_why sched st tr : runs sched st tr -> In Exited tr -> blocked Data tr.
  Proof. intros H J. destruct (run_top _ _ _ H) as (failed & I). exact (failed_why _ _ _ _ I (i_exited _ _ _ _ _ _ I J)). Qed.
  Lemma logged_why sched st tr s : runs sched st tr -> In (Logged s) tr -> s = Pprof /\ blocked Pprof tr.
  Proof.
    intros H J. destruct (run_top _ _ _ H) as (failed & I). destruct (i_logged _ _ _ _ _ _ I s J) as [K ->]. split; [reflexivity|].
    exact (failed_why _ _ _ _ I K).
  Qed.

  Lemma usable_not_blocked s tr : usable comp c taken -> ~ blocked s tr.
  Proof.
    intros [U1 U2] (k & Es & [X|[X|(s' & N & Es' & _)]]); destruct (U1 s k (proj1 (sockets _ _ _ _) Es)) as [R T]; [lia|congruence|].
    exact (N (U2 s' s k (proj1 (sockets _ _ _ _) Es') (proj1 (sockets _ _ _ _) Es))).
  Qed.
  Lemma all_up sched st tr : usable comp c taken -> runs sched st tr ->
    ~ In Exited tr /\ (forall s, ~ In (Logged s) tr) /\ (finished st -> forall s k, sk s = Some k -> In (Opened s) tr).
  Proof.
    intros U H. split; [|split].
    - intros J. exact (usable_not_blocked _ _ U (exit_why _ _ _ H J)).
    - intros s J. exact (usable_not_blocked _ _ U (proj2 (logged_why _ _ _ _ H J))).
    - intros F s k Es. destruct (run_top _ _ _ H) as (failed & I). destruct (finished_all _ _ _ _ _ _ I F H Es) as [J|J]; [exact J|].
      destruct (usable_not_blocked _ _ U (failed_why _ _ _ _ I J)).
  Qed.

  (** It always comes to an end. *)
  Lemma prun_app a : forall b st, prun comp c taken st (a ++ b) =
    let (st1, o1) := prun comp c taken st a in let (st2, o2) := prun comp c taken st1 b in (st2, o1 ++ o2).
  Proof.
    induction a as [|t a IH]; intros b st; cbn [app prun].
    - destruct (prun comp c taken st b). reflexivity.
    - destruct (pstep comp c taken st t) as [st1 o1]. rewrite IH. destruct (prun comp c taken st1 a) as [st2 o2]. destruct (prun comp c taken st2 b) as [st3 o3].
      rewrite app_assoc. reflexivity.
  Qed.
  Lemma exec_main st i st' o : exec comp c taken st i = (st', o) -> p_main st' = p_main st /\ (forall s, i <> ISpawn s) -> p_gor st' = p_gor st.
  Proof.
    destruct i as [s|s| |]; cbn [exec]; intros H [_ N]; [destruct (N s eq_refl)| |inversion H; reflexivity..].
    destruct (sk s); [|inversion H; reflexivity]. destruct (can_open _ _ _); inversion H; reflexivity.
  Qed.
  Lemma exec_keeps st i st' o : exec comp c taken st i = (st', o) -> p_main st' = p_main st.
  Proof.
    destruct i as [s|s| |]; cbn [exec]; intros H; [inversion H; reflexivity| |inversion H; reflexivity..].
    destruct (sk s); [|inversion H; reflexivity]. destruct (can_open _ _ _); inversion H; reflexivity.
  Qed.
  Lemma finish_main l : forall st, p_main st = l -> exists sched st' o, prun comp c taken st sched = (st', o) /\ (p_dead st' = true \/ p_main st' = []).
  Proof.
    induction l as [|i l IH]; intros st E.
    - exists [], st, []. split; [reflexivity|]. right. exact E.
    - destruct (p_dead st) eqn:D; [exists [], st, []; split; [reflexivity|left; exact D]|].
      destruct (exec comp c taken (mkP l (p_gor st) (p_open st) (p_dead st)) i) as [st1 o1] eqn:X. pose proof (exec_keeps _ _ _ _ X) as M. cbn [p_main] in M.
      destruct (IH st1 M) as (sched & st' & o & R & Q). exists (None :: sched), st', (o1 ++ o). split; [|exact Q].
      cbn [prun]. unfold pstep. rewrite D, E. rewrite D in X. rewrite X, R. reflexivity.
  Qed.
  Lemma finish_gor s l : spawns l = [] -> forall st, p_main st = [] -> p_gor st s = l -> exists sched st' o, prun comp c taken st sched = (st', o) /\
    (p_dead st' = true \/ (p_main st' = [] /\ p_gor st' s = [] /\ forall x, x <> s -> p_gor st' x = p_gor st x)).
  Proof.
    induction l as [|i l IH]; intros Sp st M E.
    - exists [], st, []. split; [reflexivity|]. right. split; [exact M|]. split; [exact E|reflexivity].
    - assert (Ni : forall x, i <> ISpawn x) by (intros x ->; discriminate Sp).
      assert (Sl : spawns l = []) by (destruct i; [destruct (Ni s0 eq_refl)|exact Sp..]).
      destruct (p_dead st) eqn:D; [exists [], st, []; split; [reflexivity|left; exact D]|].
      destruct (exec comp c taken (mkP (p_main st) (update (p_gor st) s l) (p_open st) (p_dead st)) i) as [st1 o1] eqn:X.
      pose proof (exec_keeps _ _ _ _ X) as M1. cbn [p_main] in M1. pose proof (exec_main _ _ _ _ X (conj M1 Ni)) as G1. cbn [p_gor] in G1.
      destruct (IH Sl st1 ltac:(congruence) ltac:(rewrite G1; apply update_same)) as (sched & st' & o & R & Q). exists (Some s :: sched), st', (o1 ++ o). split.
      + cbn [prun]. unfold pstep. rewrite D, E. rewrite D in X. rewrite X, R. reflexivity.
      + destruct Q as [Q|(Q1 & Q2 & Q3)]; [left; exact Q|right]. split; [exact Q1|]. split; [exact Q2|].
        intros x N. rewrite (Q3 x N), G1. apply update_other. congruence.
  Qed.
  Lemma finishes sched st tr : runs sched st tr -> exists sched' st' tr', runs (sched ++ sched') st' (tr ++ tr') /\ (finished st' \/ In Exited (tr ++ tr')).
  Proof.
    intros H.
    assert (Done : forall sched' st' o, prun comp c taken st sched' = (st', o) -> runs (sched ++ sched') st' (tr ++ o)).
    { intros sched' st' o R. rewrite prun_app, H, R. reflexivity. }
    assert (Dead : forall sched' st' o, prun comp c taken st sched' = (st', o) -> p_dead st' = true ->
      exists sched' st' tr', runs (sched ++ sched') st' (tr ++ tr') /\ (finished st' \/ In Exited (tr ++ tr'))).
    { intros sched' st' o R D. exists sched', st', o. pose proof (Done _ _ _ R) as R'. split; [exact R'|]. right.
      destruct (run_top _ _ _ R') as (f & I). apply (i_dead _ _ _ _ _ _ I). exact D. }
    assert (Gs : forall sched' st' o, prun comp c taken st sched' = (st', o) -> forall s, spawns (p_gor st' s) = []).
    { intros sched' st' o R. destruct (run_top _ _ _ (Done _ _ _ R)) as (f & I). apply (i_gor _ _ _ _ _ _ I). }
    destruct (finish_main _ st eq_refl) as (s1 & st1 & o1 & R1 & [D1|M1]); [exact (Dead _ _ _ R1 D1)|].
    destruct (finish_gor Data _ (Gs _ _ _ R1 Data) st1 M1 eq_refl) as (s2 & st2 & o2 & R2 & Q2).
    assert (R12 : prun comp c taken st (s1 ++ s2) = (st2, o1 ++ o2)) by (rewrite prun_app, R1, R2; reflexivity).
    destruct Q2 as [D2|(M2 & G2 & K2)]; [exact (Dead _ _ _ R12 D2)|].
    destruct (finish_gor Probes _ (Gs _ _ _ R12 Probes) st2 M2 eq_refl) as (s3 & st3 & o3 & R3 & Q3).
    assert (R13 : prun comp c taken st ((s1 ++ s2) ++ s3) = (st3, (o1 ++ o2) ++ o3)) by (rewrite prun_app, R12, R3; reflexivity).
    destruct Q3 as [D3|(M3 & G3 & K3)]; [exact (Dead _ _ _ R13 D3)|].
    destruct (finish_gor Pprof _ (Gs _ _ _ R13 Pprof) st3 M3 eq_refl) as (s4 & st4 & o4 & R4 & Q4).
    assert (R14 : prun comp c taken st (((s1 ++ s2) ++ s3) ++ s4) = (st4, ((o1 ++ o2) ++ o3) ++ o4)) by (rewrite prun_app, R13, R4; reflexivity).
    destruct Q4 as [D4|(M4 & G4 & K4)]; [exact (Dead _ _ _ R14 D4)|].
    destruct (p_dead st4) eqn:D; [exact (Dead _ _ _ R14 D)|].
    eexists _, _, _. split; [exact (Done _ _ _ R14)|]. left. split; [exact D|]. split; [exact M4|].
    intros s. destruct s; [rewrite K4 by discriminate; rewrite K3 by discriminate; exact G2|rewrite K4 by discriminate; exact G3|exact G4].
  Qed.
End Top.

(** ** Readiness of a UDP listener *)
Section Udp.
  Variables (c : cfg) (taken : sock -> bool).
  Notation L := Config.Listener.
  Definition uinv (st : pst) (tr : list event) : Prop :=
    (exists pre, main_prog L c = pre ++ p_main st /\ (In (IOpen Data) pre -> p_dead st = false -> In (Opened Data) tr)) /\
    (forall s, In IReady (p_gor st s) -> In (Opened Data) tr) /\
    (forall a b, tr = a ++ Ready :: b -> In (Opened Data) a).

  Lemma main_listener : exists l, (forall i, In i l -> exists s, i = ISpawn s /\ s <> Data) /\ main_prog L c = l ++ [IOpen Data; ISpawn Data; IReturn].
  Proof.
    unfold main_prog. destruct (socket L c Pprof), (socket L c Probes); cbn [app].
    - exists [ISpawn Pprof; ISpawn Probes]. split; [|reflexivity]. intros i [<-|[<-|[]]]; eexists; (split; [reflexivity|discriminate]).
    - exists [ISpawn Pprof]. split; [|reflexivity]. intros i [<-|[]]; eexists; (split; [reflexivity|discriminate]).
    - exists [ISpawn Probes]. split; [|reflexivity]. intros i [<-|[]]; eexists; (split; [reflexivity|discriminate]).
    - exists []. split; [|reflexivity]. intros i [].
  Qed.
  (** In the main program the socket comes before the goroutine, and readiness is not reported. *)
  Lemma main_order pre r : main_prog L c = pre ++ ISpawn Data :: r -> In (IOpen Data) pre.
  Proof.
    destruct main_listener as (l & Hl & ->). intros E. revert pre E. induction l as [|x l IH]; intros pre E.
    - destruct pre as [|y pre]; [discriminate E|]. inversion E. left. reflexivity.
    - destruct pre as [|y pre].
      + inversion E; subst. destruct (Hl (ISpawn Data) (or_introl eq_refl)) as (s & Es & N). inversion Es; subst. destruct (N eq_refl).
      + inversion E; subst. right. apply IH; [intros i J; apply Hl; right; exact J|assumption].
  Qed.
  Lemma main_ready pre r : main_prog L c = pre ++ IReady :: r -> False.
  Proof.
    destruct main_listener as (l & Hl & ->). intros E. assert (J : In IReady (l ++ [IOpen Data; ISpawn Data; IReturn])).
    { rewrite E. apply in_or_app. right. left. reflexivity. }
    apply in_app_or in J. destruct J as [J|[J|[J|[J|[]]]]]; try discriminate J. destruct (Hl _ J) as (s & X & _). discriminate X.
  Qed.

  Lemma ready_snoc tr o : (forall a b, tr = a ++ Ready :: b -> In (Opened Data) a) -> (In Ready o -> In (Opened Data) tr) ->
    forall a b, tr ++ o = a ++ Ready :: b -> In (Opened Data) a.
  Proof.
    intros H1 H2 a b E. destruct (Nat.lt_ge_cases (length a) (length tr)) as [G|G].
    - assert (X : tr = a ++ Ready :: firstn (length tr - length a - 1) b).
      { assert (Y : firstn (length tr) (tr ++ o) = tr) by (rewrite firstn_app, Nat.sub_diag, firstn_all, firstn_O, app_nil_r; reflexivity).
        rewrite <- Y at 1. rewrite E, firstn_app, firstn_all2 by lia. f_equal.
        destruct (length tr - length a)%nat as [|n] eqn:En; [lia|]. cbn [firstn]. f_equal. f_equal. lia. }
      exact (H1 _ _ X).
    - assert (X : exists a', a = tr ++ a' /\ o = a' ++ Ready :: b).
      { exists (skipn (length tr) a). assert (Y : skipn (length tr) (tr ++ o) = o) by (rewrite skipn_app, skipn_all, Nat.sub_diag; reflexivity).
        split; [|rewrite E, skipn_app in Y; replace (length tr - length a)%nat with 0%nat in Y by lia; symmetry; exact Y].
        assert (Z : firstn (length tr) (tr ++ o) = tr) by (rewrite firstn_app, Nat.sub_diag, firstn_all, firstn_O, app_nil_r; reflexivity).
        rewrite E, firstn_app in Z. replace (length tr - length a)%nat with 0%nat in Z by lia. rewrite firstn_O, app_nil_r in Z.
        rewrite <- (firstn_skipn (length tr) a) at 1. rewrite Z. reflexivity. }
      destruct X as (a' & -> & Eo). apply in_or_app. left. apply H2. rewrite Eo. apply in_or_app. right. left. reflexivity.
  Qed.

  Lemma uinv_step st t st' o tr : (forall s, spawns (p_gor st s) = []) -> uinv st tr -> pstep L c taken st t = (st', o) -> uinv st' (tr ++ o).
  Proof.
    intros Gs (U1 & U2 & U3) H. unfold pstep in H.
    assert (Same : (st', o) = (st, []) -> uinv st' (tr ++ o)).
    { intros E. inversion E; subst. rewrite app_nil_r. split; [exact U1|split; assumption]. }
    destruct (p_dead st) eqn:D; [apply Same; symmetry; exact H|]. destruct U1 as (pre & E1 & O1).
    assert (Ow : forall o, In (Opened Data) tr -> In (Opened Data) (tr ++ o)) by (intros o0 J; apply in_or_app; left; exact J).
    destruct t as [s|].
    - destruct (p_gor st s) as [|i r] eqn:Eg; [apply Same; symmetry; exact H|].
      assert (Ni : forall x, i <> ISpawn x) by (intros x ->; specialize (Gs s); rewrite Eg in Gs; discriminate Gs).
      assert (Gu : forall x, In IReady (update (p_gor st) s r x) -> In (Opened Data) tr).
      { intros x J. destruct (seqb s x) eqn:E; [apply seqb_eq in E; subst; rewrite update_same in J; apply (U2 x); rewrite Eg; right; exact J|].
        rewrite update_other in J; [exact (U2 x J)|intros ->; destruct x; discriminate E]. }
      assert (Fin : forall op dd o0, (In Ready o0 -> i = IReady) -> (dd = false -> p_dead st = false) ->
        uinv (mkP (p_main st) (update (p_gor st) s r) op dd) (tr ++ o0)).
      { intros op dd o0 Ro Dd. split; [|split].
        - exists pre. cbn [p_main p_dead]. split; [exact E1|]. intros J De. apply Ow. apply O1; [exact J|auto].
        - intros x J. apply Ow. exact (Gu x J).
        - apply ready_snoc; [exact U3|]. intros J. apply (U2 s). rewrite Eg, (Ro J). left. reflexivity. }
      destruct i as [x|x| |]; cbn [exec p_main p_gor p_open p_dead] in H; [destruct (Ni x eq_refl)| |inversion H; subst; apply Fin; auto..].
      + destruct (socket L c x) as [k|]; [|inversion H; subst; apply Fin; auto; intros []].
        destruct (can_open taken (p_open st) k); inversion H; subst.
        * apply Fin; [intros [J|[]]; discriminate J|auto].
        * apply Fin; [destruct x; cbn [on_failure]; [intros [J|[]]; discriminate J|intros []|intros [J|[]]; discriminate J]|destruct x; [discriminate|auto..]].
      + intros [J|[]]; discriminate J.
    - destruct (p_main st) as [|i r] eqn:Em; [apply Same; symmetry; exact H|].
      assert (E2 : main_prog L c = (pre ++ [i]) ++ r) by (rewrite <- app_assoc; exact E1).
      assert (Fin : forall g op dd o0, ~ In Ready o0 -> (dd = false -> In (IOpen Data) (pre ++ [i]) -> In (Opened Data) (tr ++ o0)) ->
        (forall x, In IReady (g x) -> In (Opened Data) tr) -> uinv (mkP r g op dd) (tr ++ o0)).
      { intros g op dd o0 Ro Dd Gr. split; [|split].
        - exists (pre ++ [i]). cbn [p_main p_dead]. split; [exact E2|]. intros J De. exact (Dd De J).
        - intros x J. apply Ow. exact (Gr x J).
        - apply ready_snoc; [exact U3|]. intros J. contradiction. }
      assert (Old : i <> IOpen Data -> In (IOpen Data) (pre ++ [i]) -> In (Opened Data) tr).
      { intros N J. apply in_app_or in J. destruct J as [J|[J|[]]]; [apply O1; [exact J|reflexivity]|contradiction]. }
      destruct i as [x|x| |]; cbn [exec p_main p_gor p_open p_dead] in H.
      + inversion H; subst. apply Fin; [intros []|intros _ J; apply Ow; apply Old; [discriminate|exact J]|].
        intros y J. destruct (seqb x y) eqn:E; [apply seqb_eq in E; subst; rewrite update_same in J|].
        * destruct y; cbn [prog] in J; [|destruct J as [J|[]]; discriminate J|destruct J as [J|[]]; discriminate J].
          apply O1; [exact (main_order _ _ E1)|reflexivity].
        * rewrite update_other in J; [exact (U2 y J)|intros ->; destruct y; discriminate E].
      + destruct (socket L c x) as [k|] eqn:Ex.
        2:{ inversion H; subst. apply Fin; [intros []| |exact U2]. intros _ J. apply Ow. apply Old; [|exact J]. intros X. inversion X; subst. discriminate Ex. }
        destruct (can_open taken (p_open st) k); inversion H; subst.
        * apply Fin; [intros [J|[]]; discriminate J| |exact U2]. intros _ J. destruct x; [apply in_or_app; right; left; reflexivity|..]; apply Ow; apply Old; try discriminate; exact J.
        * apply Fin; [destruct x; cbn [on_failure]; [intros [J|[]]; discriminate J|intros []|intros [J|[]]; discriminate J]| |exact U2].
          intros De J. destruct x; [discriminate De|..]; apply Ow; apply Old; try discriminate; exact J.
      + destruct (main_ready _ _ E1).
      + inversion H; subst. apply Fin; [intros [J|[]]; discriminate J| |exact U2]. intros _ J. apply Ow. apply Old; [discriminate|exact J].
  Qed.

  Lemma udp_ready sched st tr : prun L c taken (start_state L c) sched = (st, tr) -> forall a b, tr = a ++ Ready :: b -> In (Opened Data) a.
  Proof.
    intros H.
    assert (Go : forall sched st0 tr0 f st o, inv L c taken st0 tr0 f -> uinv st0 tr0 -> prun L c taken st0 sched = (st, o) -> uinv st (tr0 ++ o)).
    { clear sched st tr H. induction sched as [|t sched IH]; intros st0 tr0 f st o I U H; cbn [prun] in H.
      - inversion H; subst. rewrite app_nil_r. exact U.
      - destruct (pstep L c taken st0 t) as [st1 o1] eqn:E. destruct (prun L c taken st1 sched) as [st2 o2] eqn:E2. inversion H; subst.
        destruct (step_inv _ _ _ _ _ _ _ _ _ I E) as (f1 & I1 & _). rewrite app_assoc.
        exact (IH _ _ _ _ _ I1 (uinv_step _ _ _ _ _ (i_gor _ _ _ _ _ _ I) U E) E2). }
    assert (U0 : uinv (start_state L c) []).
    { split; [exists []; split; [reflexivity|intros []]|]. split; [intros s []|]. intros a b E. destruct a; discriminate E. }
    pose proof (Go _ _ _ _ _ _ (inv_start L c taken) U0 H) as (_ & _ & U3). exact U3.
  Qed.
End Udp.

(** ** What goes wrong *)
Lemma probes_silent comp c taken sched st tr : 0 < c_probe_port c -> taken (TCP, c_probe_port c) = true ->
  prun comp c taken (start_state comp c) sched = (st, tr) -> ~ In (Opened Probes) tr /\ ~ In (Logged Probes) tr.
Proof.
  intros Pp Tk H. destruct (run_top _ _ _ _ _ _ H) as (f & I). split; [|intros J; destruct (i_logged _ _ _ _ _ _ I _ J); discriminate].
  assert (Go : forall sched st0 st o, prun comp c taken st0 sched = (st, o) -> ~ In (Opened Probes) o).
  { clear - Pp Tk.
    assert (Ex : forall st0 i st o, exec comp c taken st0 i = (st, o) -> ~ In (Opened Probes) o).
    { intros st0 i st o H. destruct i as [s|s| |]; cbn [exec] in H; [inversion H; subst; intros []| |inversion H; subst; intros [J|[]]; discriminate J..].
      destruct (socket comp c s) as [k|] eqn:Es; [|inversion H; subst; intros []].
      destruct (can_open taken (p_open st0) k) eqn:Eo; inversion H; subst.
      - intros [J|[]]. inversion J; subst. cbn [socket] in Es. replace (c_probe_port c <=? 0) with false in Es by lia. inversion Es; subst.
        unfold can_open in Eo. rewrite Tk in Eo. cbn [negb] in Eo. rewrite andb_false_r in Eo. discriminate Eo.
      - destruct s; cbn [on_failure]; [intros [J|[]]; discriminate J|intros []|intros [J|[]]; discriminate J]. }
    induction sched as [|t sched IH]; intros st0 st o H; cbn [prun] in H; [inversion H; subst; intros []|].
    destruct (pstep comp c taken st0 t) as [st1 o1] eqn:E. destruct (prun comp c taken st1 sched) as [st2 o2] eqn:E2. inversion H; subst.
    intros J. apply in_app_or in J. destruct J as [J|J]; [|exact (IH _ _ _ E2 J)]. revert J. unfold pstep in E.
    destruct (p_dead st0); [inversion E; subst; intros []|]. destruct t as [s|].
    - destruct (p_gor st0 s); [inversion E; subst; intros []|exact (Ex _ _ _ _ E)].
    - destruct (p_main st0); [inversion E; subst; intros []|exact (Ex _ _ _ _ E)]. }
  exact (Go _ _ _ _ H).
Qed.

Lemma same_port comp c taken : comp = Config.HTTPListener \/ comp = Config.Monitor ->
  1 <= c_port c <= 65535 -> c_probe_port c = c_port c -> c_pprof_port c = 0 -> taken (TCP, c_port c) = false ->
  (exists sched st, prun comp c taken (start_state comp c) sched = (st, [Returned; Ready; Opened Data]) /\ finished st) /\
  (exists sched st, prun comp c taken (start_state comp c) sched = (st, [Returned; Opened Probes; Ready; Exited])).
Proof.
  intros Hc R E1 E2 T.
  assert (S1 : socket comp c Probes = Some (TCP, c_port c)) by (cbn [socket]; rewrite E1; replace (c_port c <=? 0) with false by lia; reflexivity).
  assert (S2 : socket comp c Pprof = None) by (cbn [socket]; rewrite E2; reflexivity).
  assert (S3 : socket comp c Data = Some (TCP, c_port c)) by (destruct Hc as [-> | ->]; reflexivity).
  assert (M : main_prog comp c = [ISpawn Probes; ISpawn Data; IReturn]) by (unfold main_prog; rewrite S1, S2; destruct Hc as [-> | ->]; reflexivity).
  assert (P1 : prog comp Data = [IReady; IOpen Data]) by (destruct Hc as [-> | ->]; reflexivity).
  assert (P2 : prog comp Probes = [IOpen Probes]) by reflexivity.
  assert (C1 : can_open taken [] (TCP, c_port c) = true).
  { unfold can_open. cbn [snd existsb]. rewrite T. replace (0 <=? c_port c) with true by lia. replace (c_port c <=? 65535) with true by lia. reflexivity. }
  assert (C2 : can_open taken [(TCP, c_port c)] (TCP, c_port c) = false).
  { unfold can_open. cbn [snd existsb sock_eqb fst proto_eqb andb]. rewrite T, Z.eqb_refl. cbn. rewrite andb_false_r. reflexivity. }
  unfold start_state. rewrite M. split.
  - exists [None; None; None; Some Data; Some Data; Some Probes].
    eexists. split.
    + cbn [prun pstep p_dead p_main p_gor exec update seqb app p_open]. rewrite ?P1, ?P2; cbn [prun pstep p_dead p_main p_gor exec update seqb app p_open].
      cbn [prun pstep p_dead p_main p_gor exec update seqb app p_open]. rewrite ?P1, ?P2; cbn [prun pstep p_dead p_main p_gor exec update seqb app p_open]. rewrite S3, C1.
      cbn [prun pstep p_dead p_main p_gor exec update seqb app p_open]. rewrite ?P1, ?P2; cbn [prun pstep p_dead p_main p_gor exec update seqb app p_open]. rewrite S1. change (can_open taken _ _) with (can_open taken [(TCP, c_port c)] (TCP, c_port c)). rewrite C2. reflexivity.
    + split; [reflexivity|]. split; [reflexivity|]. intros s. destruct s; reflexivity.
  - exists [None; None; None; Some Probes; Some Data; Some Data]. eexists.
    cbn [prun pstep p_dead p_main p_gor exec update seqb app p_open]. rewrite ?P1, ?P2; cbn [prun pstep p_dead p_main p_gor exec update seqb app p_open]. rewrite S1, C1.
    cbn [prun pstep p_dead p_main p_gor exec update seqb app p_open]. rewrite ?P1, ?P2; cbn [prun pstep p_dead p_main p_gor exec update seqb app p_open].
    cbn [prun pstep p_dead p_main p_gor exec update seqb app p_open]. rewrite ?P1, ?P2; cbn [prun pstep p_dead p_main p_gor exec update seqb app p_open]. rewrite S3. change (can_open taken _ _) with (can_open taken [(TCP, c_port c)] (TCP, c_port c)). rewrite C2. reflexivity.
Qed.

Lemma early_ready comp c taken : comp = Config.HTTPListener \/ comp = Config.Monitor ->
  exists sched st, (prun comp c taken (start_state comp c) sched = (st, [Returned; Ready])) /\
  (taken (TCP, c_port c) = true -> exists sched' st', prun comp c taken (start_state comp c) (sched ++ sched') = (st', [Returned; Ready; Exited])).
Proof.
  intros Hc.
  assert (S3 : socket comp c Data = Some (TCP, c_port c)) by (destruct Hc as [-> | ->]; reflexivity).
  assert (P1 : prog comp Data = [IReady; IOpen Data]) by (destruct Hc as [-> | ->]; reflexivity).
  assert (M : exists l, main_prog comp c = l ++ [ISpawn Data; IReturn] /\ forall i, In i l -> i = ISpawn Pprof \/ i = ISpawn Probes).
  { unfold main_prog. exists ((match socket comp c Pprof with Some _ => [ISpawn Pprof] | None => [] end) ++ (match socket comp c Probes with Some _ => [ISpawn Probes] | None => [] end)).
    split; [rewrite <- app_assoc; destruct Hc as [-> | ->]; reflexivity|]. intros i J. apply in_app_or in J.
    destruct J as [J|J]; [destruct (socket comp c Pprof)|destruct (socket comp c Probes)]; try destruct J as [<-|[]]; try destruct J; auto. }
  destruct M as (l & M & Hl).
  assert (Sp : forall l rest g, (forall i, In i l -> i = ISpawn Pprof \/ i = ISpawn Probes) ->
    exists g', prun comp c taken (mkP (l ++ rest) g [] false) (repeat None (length l)) = (mkP rest g' [] false, [])).
  { clear. induction l as [|i l IH]; intros rest g H; [exists g; reflexivity|].
    assert (Ei : exists s, i = ISpawn s) by (destruct (H i (or_introl eq_refl)) as [-> | ->]; eexists; reflexivity). destruct Ei as [s ->].
    destruct (IH rest (update g s (prog comp s)) (fun j J => H j (or_intror J))) as (g' & E). exists g'.
    cbn [length repeat prun]. unfold pstep at 1. cbn [p_dead p_main app]. cbn [exec p_main p_gor p_open p_dead]. rewrite E. reflexivity. }
  destruct (Sp l [ISpawn Data; IReturn] (fun _ => []) Hl) as (g & E). unfold start_state. rewrite M.
  exists (repeat None (length l) ++ [None; None; Some Data]). eexists. split.
  - rewrite prun_app, E. cbn [prun pstep p_dead p_main p_gor exec update seqb app p_open]. rewrite P1.
    cbn [prun pstep p_dead p_main p_gor exec update seqb app p_open]. reflexivity.
  - intros T. exists [Some Data]. eexists. rewrite <- app_assoc, prun_app, E. cbn [app prun pstep p_dead p_main p_gor exec update seqb p_open]. rewrite P1.
    cbn [app prun pstep p_dead p_main p_gor exec update seqb p_open]. rewrite S3. unfold can_open. rewrite T. cbn [negb]. rewrite andb_false_r. cbn [andb]. reflexivity.
Qed.

(** The same configuration (config/config.go:36-71) with another probe_port. *)
Definition set_probe (v : Z) (c : cfg) : cfg :=
  {| c_name := c_name c; c_mode := c_mode c; c_nats_address := c_nats_address c; c_subjects := c_subjects c; c_subject_monitor := c_subject_monitor c; c_subject_junk := c_subject_junk c; c_db_address := c_db_address c; c_db_protocol := c_db_protocol c; c_db_port := c_db_port c; c_db_user := c_db_user c; c_db_pass := c_db_pass c; c_db_name := c_db_name c; c_batch_count := c_batch_count c; c_batch_size := c_batch_size c; c_batch_age := c_batch_age c; c_port := c_port c; c_workers := c_workers c; c_write_timeout := c_write_timeout c; c_retry_batches := c_retry_batches c; c_retry_interval := c_retry_interval c; c_retry_timeout := c_retry_timeout c; c_read_buffer := c_read_buffer c; c_max_pending := c_max_pending c; c_rules := c_rules c; c_max_time_delta := c_max_time_delta c; c_stats_interval := c_stats_interval c; c_probe_port := v; c_pprof_port := c_pprof_port c; c_debug := c_debug c; c_period := c_period c; c_suffix := c_suffix c; c_queue_group := c_queue_group c |}.
(** config/config.go:109-138 only looks at its range. *)
Lemma probe_unchecked c : Validate c = None -> 0 <= c_port c <= 65535 -> Validate (set_probe (c_port c) c) = None.
Proof.
  intros V R. rewrite <- V. unfold Validate in *. destruct ((c_probe_port c <? 0) || (65535 <? c_probe_port c)) eqn:E; [discriminate V|].
  unfold set_probe. cbn [c_probe_port c_pprof_port c_mode c_period].
  replace (c_port c <? 0) with false by lia. replace (65535 <? c_port c) with false by lia. reflexivity.
Qed.

(** ** Readiness is reported once *)
Section Ready.
  Variables (comp : component) (c : cfg) (taken : sock -> bool).
  Definition rd1 (i : instr) : nat := match i with IReady => 1 | _ => 0 end.
  Fixpoint sum1 (l : list instr) : nat := match l with [] => 0 | i :: r => rd1 i + sum1 r end.
  Definition rd (i : instr) : nat := match i with ISpawn s => sum1 (prog comp s) | i => rd1 i end.
  Fixpoint sumr (l : list instr) : nat := match l with [] => 0 | i :: r => rd i + sumr r end.
  Definition rleft (st : pst) : nat := sumr (p_main st) + (sum1 (p_gor st Data) + sum1 (p_gor st Probes) + sum1 (p_gor st Pprof)).
  Definition is_ready (e : event) : bool := match e with Ready => true | _ => false end.
  Definition readies (tr : list event) : nat := length (filter is_ready tr).

  Lemma exec_ready st i st' o : (forall s, i = ISpawn s -> p_gor st s = []) -> exec comp c taken st i = (st', o) ->
    (rleft st' + readies o = rd i + rleft st)%nat.
  Proof.
    intros Si H. destruct i as [s|s| |]; cbn [exec] in H.
    - inversion H; subst. specialize (Si s eq_refl). unfold rleft, readies. cbn [p_main p_gor filter length rd].
      destruct s; rewrite ?update_same, ?update_other by discriminate; rewrite Si; cbn [sum1]; lia.
    - destruct (socket comp c s) as [k|]; [|inversion H; subst; cbn; lia]. destruct (can_open taken (p_open st) k); inversion H; subst; unfold rleft, readies; cbn [p_main p_gor filter is_ready length rd rd1]; [lia|].
      destruct s; cbn; lia.
    - inversion H; subst. cbn. lia.
    - inversion H; subst. cbn. lia.
  Qed.
  Lemma step_ready st t st' o tr failed : inv comp c taken st tr failed -> pstep comp c taken st t = (st', o) -> (rleft st' + readies o = rleft st)%nat.
  Proof.
    intros I H. unfold pstep in H. destruct (p_dead st); [inversion H; subst; cbn; lia|]. pose proof (i_spawn _ _ _ _ _ _ I) as [S1 S2]. destruct t as [s|].
    - destruct (p_gor st s) as [|i r] eqn:Eg; [inversion H; subst; cbn; lia|].
      pose proof (i_gor _ _ _ _ _ _ I s) as Gs. rewrite Eg in Gs.
      assert (Ei : forall x, i <> ISpawn x) by (intros x ->; discriminate Gs).
      rewrite (exec_ready _ _ _ _ (fun x Ex => False_ind _ (Ei x Ex)) H). unfold rleft. cbn [p_main p_gor].
      assert (E1 : rd i = rd1 i) by (destruct i; [destruct (Ei s0 eq_refl)|reflexivity..]). rewrite E1.
      destruct s; rewrite ?update_same, ?update_other by discriminate; rewrite Eg; cbn [sum1]; lia.
    - destruct (p_main st) as [|i r] eqn:Em; [inversion H; subst; cbn; lia|].
      assert (Si : forall x, i = ISpawn x -> p_gor (mkP r (p_gor st) (p_open st) false) x = []) by (intros x ->; apply S2; left; reflexivity).
      rewrite (exec_ready _ _ _ _ Si H). unfold rleft. cbn [p_main p_gor]. rewrite Em. cbn [sumr]. lia.
  Qed.
  Lemma readies_app a b : (readies (a ++ b) = readies a + readies b)%nat.
  Proof. unfold readies. rewrite filter_app, app_length. reflexivity. Qed.
  Lemma run_ready sched : forall st tr failed st' o, inv comp c taken st tr failed -> prun comp c taken st sched = (st', o) -> (rleft st' + readies o = rleft st)%nat.
  Proof.
    induction sched as [|t sched IH]; intros st tr failed st' o I H; cbn [prun] in H; [inversion H; subst; cbn; lia|].
    destruct (pstep comp c taken st t) as [st1 o1] eqn:E. destruct (prun comp c taken st1 sched) as [st2 o2] eqn:E2. inversion H; subst.
    destruct (step_inv _ _ _ _ _ _ _ _ _ I E) as (f1 & I1 & _). pose proof (step_ready _ _ _ _ _ _ I E) as X. pose proof (IH _ _ _ _ _ I1 E2) as Y.
    rewrite readies_app. lia.
  Qed.
End Ready.
Lemma start_ready comp c : rleft comp (start_state comp c) = 1%nat.
Proof. unfold rleft, start_state, main_prog. cbn [p_main p_gor sum1]. destruct (socket comp c Pprof), (socket comp c Probes), comp; reflexivity. Qed.
  Lemma ready_once comp c taken sched st tr : prun comp c taken (start_state comp c) sched = (st, tr) ->
    (length (filter (fun e => match e with Ready => true | _ => false end) tr) <= 1)%nat /\ (finished st -> In Ready tr).
  Proof.
    intros H. pose proof (run_ready comp c taken _ _ _ _ _ _ (inv_start comp c taken) H) as X.
    rewrite start_ready in X. change (filter (fun e => match e with Ready => true | _ => false end) tr) with (filter is_ready tr). fold (readies tr). split; [lia|].
    intros (_ & F1 & F2). unfold rleft in X. rewrite F1, !F2 in X. cbn [sumr sum1] in X.
    assert (Z : readies tr = 1%nat) by lia. unfold readies in Z. destruct (filter is_ready tr) as [|e l] eqn:E; [discriminate Z|].
    assert (J : In e (filter is_ready tr)) by (rewrite E; left; reflexivity). apply filter_In in J. destruct e; destruct J as [J1 J2]; try discriminate J2. exact J1.
  Qed.

(** ** The same in terms of [named] *)
Section Named.
  Variables (comp : component) (c : cfg) (taken : sock -> bool) (sched : list (option service)) (st : pst) (tr : list event).
  Hypothesis H : prun comp c taken (start_state comp c) sched = (st, tr).
  Definition blocked' (s : service) : Prop := exists k, named comp c s k /\
    (~ 0 <= snd k <= 65535 \/ taken k = true \/ exists s', s' <> s /\ named comp c s' k /\ In (Opened s') tr).
  Lemma blocked_named s : blocked comp c taken s tr -> blocked' s.
  Proof.
    intros (k & E & X). exists k. split; [apply sockets; exact E|]. destruct X as [X|[X|(s' & X1 & X2 & X3)]]; [left; exact X|right; left; exact X|].
    right. right. exists s'. split; [exact X1|]. split; [apply sockets; exact X2|exact X3].
  Qed.
  Lemma all_up' : usable comp c taken -> ~ In Exited tr /\ (forall s, ~ In (Logged s) tr) /\ (finished st -> forall s k, named comp c s k -> In (Opened s) tr).
  Proof.
    intros U. destruct (all_up comp c taken sched st tr U H) as (A & B & C). split; [exact A|]. split; [exact B|].
    intros F s k E. apply (C F s k). apply sockets. exact E.
  Qed.
  Lemma own_port' : finished st -> forall k, named comp c Data k -> In (Opened Data) tr.
  Proof. intros F k E. apply (own_port comp c taken sched st tr H F k). apply sockets. exact E. Qed.
  Lemma exit_why' : In Exited tr -> blocked' Data.
  Proof. intros J. apply blocked_named. exact (exit_why comp c taken sched st tr H J). Qed.
  Lemma missing' : finished st -> forall s k, named comp c s k -> ~ In (Opened s) tr -> s <> Data /\ blocked' s /\ (s = Pprof -> In (Logged Pprof) tr).
  Proof.
    intros F s k E N. apply sockets in E. destruct (missing comp c taken sched st tr H F s k E N) as (A & B & C).
    split; [exact A|]. split; [apply blocked_named; exact B|exact C].
  Qed.
  Lemma nothing_else s : In (Opened s) tr -> exists k, named comp c s k.
  Proof.
    intros J. destruct (run_top _ _ _ _ _ _ H) as (failed & I). apply (proj2 (opened_in s tr)) in J.
    assert (W : In s (wanted comp c)) by (apply (Permutation_in _ (i_perm _ _ _ _ _ _ I)); apply in_or_app; right; apply in_or_app; left; exact J).
    apply (proj1 (wanted_in comp c taken s)) in W. destruct W as [k W]. exists k. apply sockets. exact W.
  Qed.
End Named.
