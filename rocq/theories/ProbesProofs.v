From Verif Require Import Base Config Probes.
Local Open Scope nat_scope.

Definition did (w : who) (l : list seen) : list instr :=
  flat_map (fun e => match e with Did Main i => match w with Main => [i] | Spawned => [] end
                           | Did Spawned i => match w with Main => [] | Spawned => [i] end
                           | Reply _ _ => [] end) l.

Lemma did_app w a b : did w (a ++ b) = did w a ++ did w b.
Proof. apply flat_map_app. Qed.

Definition dids (l : list seen) : list instr := flat_map (fun e => match e with Did _ i => [i] | _ => [] end) l.
Lemma dids_app a b : dids (a ++ b) = dids a ++ dids b.
Proof. apply flat_map_app. Qed.

Definition f_ready (is : list instr) : bool := fold_left (fun r i => match i with IListen => false | IReady b => b | _ => r end) is false.
Definition f_alive (is : list instr) : bool := fold_left (fun r i => match i with IListen => true | IAlive b => b | _ => r end) is false.
Definition f_open (is : list instr) : bool := fold_left (fun r i => match i with IListen => true | IClose => false | _ => r end) is false.

(** Replies are those of the flags at the time. *)
Fixpoint replies_ok (past : list seen) (l : list seen) : Prop :=
  match l with
  | [] => True
  | e :: r =>
      match e with
      | Did _ _ => True
      | Reply Healthz s => s = status (f_alive (dids past)) /\ f_open (dids past) = true
      | Reply Readyz s => s = status (f_ready (dids past)) /\ f_open (dids past) = true
      end /\ replies_ok (past ++ [e]) r
  end.

Lemma replies_app l : forall past r, replies_ok past (l ++ r) <-> replies_ok past l /\ replies_ok (past ++ l) r.
Proof.
  induction l as [|e l IH]; intros past r; cbn [app replies_ok].
  - rewrite app_nil_r. tauto.
  - rewrite IH, <- app_assoc. cbn [app]. tauto.
Qed.

Record PInv (c : component) (s : start) (st : pstate) : Prop := {
  pi_main : did Main (ps_log st) ++ ps_main st = main_steps c s;
  pi_spawn : match ps_spawned st with
             | None => did Spawned (ps_log st) = [] /\ ~ In ISpawn (did Main (ps_log st))
             | Some m => did Spawned (ps_log st) ++ m = spawned_steps /\ In ISpawn (did Main (ps_log st))
             end;
  pi_ready : ps_ready st = f_ready (dids (ps_log st));
  pi_alive : ps_alive st = f_alive (dids (ps_log st));
  pi_open : ps_open st = f_open (dids (ps_log st));
  pi_replies : replies_ok [] (ps_log st);
  (** after the wait, a waited goroutine has finished *)
  pi_wait : waited c = true -> In IWait (did Main (ps_log st)) -> ps_spawned st = None \/ ps_spawned st = Some [];
  pi_once : In ISpawn (ps_main st) -> ps_spawned st = None
}.

Lemma main_spawn_once c s d m : d ++ ISpawn :: m = main_steps c s -> ~ In ISpawn d /\ ~ In ISpawn m.
Proof.
  intros E. destruct c, s; cbn in E;
    repeat (destruct d as [|? d]; cbn in E; [inversion E; subst; split; cbn; intuition discriminate|inversion E; subst; clear E;
      match goal with H : d ++ _ = _ |- _ => rename H into E end]);
    try (destruct d; discriminate).
Qed.

Lemma f_ready_snoc l i : f_ready (l ++ [i]) = match i with IListen => false | IReady b => b | _ => f_ready l end.
Proof. unfold f_ready. rewrite fold_left_app. destruct i; reflexivity. Qed.
Lemma f_alive_snoc l i : f_alive (l ++ [i]) = match i with IListen => true | IAlive b => b | _ => f_alive l end.
Proof. unfold f_alive. rewrite fold_left_app. destruct i; reflexivity. Qed.
Lemma f_open_snoc l i : f_open (l ++ [i]) = match i with IListen => true | IClose => false | _ => f_open l end.
Proof. unfold f_open. rewrite fold_left_app. destruct i; reflexivity. Qed.

Lemma exec_main_inv c s st i r : PInv c s st -> ps_main st = i :: r ->
  (i = IWait -> waited c = true -> ps_spawned st = None \/ ps_spawned st = Some []) ->
  PInv c s (exec Main i (set_main st r)).
Proof.
  intros [P1 P2 P3 P4 P5 P6 P7 P8] E W. rewrite E in *.
  constructor; cbn [exec set_main ps_main ps_spawned ps_ready ps_alive ps_open ps_log];
    rewrite ?did_app, ?dids_app; cbn [did dids flat_map app]; rewrite ?app_nil_r.
  - rewrite <- app_assoc. exact P1.
  - destruct i; try (destruct (ps_spawned st); [destruct P2 as [Q1 Q2]; split; [exact Q1|apply in_app_iff; left; exact Q2]|destruct P2 as [Q1 Q2]; split; [exact Q1|intros H; apply in_app_iff in H; destruct H as [H|[H|[]]]; [auto|discriminate]]]; fail).
    rewrite (P8 (or_introl eq_refl)) in P2. destruct P2 as [Q1 _]. rewrite Q1. split; [reflexivity|apply in_app_iff; right; left; reflexivity].
  - rewrite f_ready_snoc. destruct i; auto.
  - rewrite f_alive_snoc. destruct i; auto.
  - rewrite f_open_snoc. destruct i; auto.
  - apply replies_app. cbn. auto.
  - intros Wc H. apply in_app_iff in H. destruct H as [H|[H|[]]].
    + specialize (P7 Wc H). destruct i; try exact P7. exfalso.
      (* spawn after wait cannot be *)
      assert (X : exists d m, d ++ ISpawn :: m = main_steps c s /\ In IWait d) by (exists (did Main (ps_log st)), r; auto).
      destruct X as (d & m & Ed & Hd). clear - Ed Hd. destruct c, s; cbn in Ed;
        repeat (destruct d as [|? d]; cbn in Ed; [inversion Ed; subst; cbn in Hd; intuition discriminate|inversion Ed; subst; clear Ed;
          cbn in Hd; destruct Hd as [Hd|Hd]; try discriminate;
          match goal with H : d ++ _ = _ |- _ => rename H into Ed end]);
        try (destruct d as [|? [|? [|? [|? ?]]]]; discriminate).
    + subst i. apply W; auto.
  - intros H. destruct i; try (apply P8; right; exact H).
    exfalso. destruct (main_spawn_once c s _ _ P1) as [_ N]. auto.
Qed.

Lemma pinv_step c s st k : PInv c s st -> PInv c s (pstep c st k).
Proof.
  intros P. destruct k as [w|p]; [destruct w|]; cbn [pstep].
  - destruct (ps_main st) as [|i r] eqn:E; auto.
    assert (G : (i = IWait -> waited c = true -> ps_spawned st = None \/ ps_spawned st = Some []) -> PInv c s (exec Main i (set_main st r))).
    { intros W. apply exec_main_inv; auto. }
    destruct i; try (apply G; discriminate).
    destruct (waited c) eqn:Wc; cbn [andb]; [|apply G; congruence].
    destruct (ps_spawned st) as [[|x m]|] eqn:Es; auto.
  - destruct (ps_spawned st) as [[|i m]|] eqn:Es; auto. destruct P as [P1 P2 P3 P4 P5 P6 P7 P8]. rewrite Es in *.
    assert (i = IReady true /\ did Spawned (ps_log st) = [] /\ m = []) as (-> & D & ->).
    { destruct P2 as [P2 _]. unfold spawned_steps in P2. destruct (did Spawned (ps_log st)) as [|x d]; cbn in P2.
      - inversion P2; subst; auto.
      - inversion P2. destruct d; discriminate. }
    constructor; cbn [exec set_spawned ps_main ps_spawned ps_ready ps_alive ps_open ps_log];
      rewrite ?did_app, ?dids_app; cbn [did dids flat_map app]; rewrite ?app_nil_r; auto.
    + rewrite f_ready_snoc. reflexivity.
    + rewrite f_alive_snoc. auto.
    + rewrite f_open_snoc. auto.
    + apply replies_app. cbn. auto.
    + intros H. specialize (P8 H). discriminate.
  - destruct (ps_open st) eqn:O; auto. destruct P as [P1 P2 P3 P4 P5 P6 P7 P8].
    constructor; cbn [ps_main ps_spawned ps_ready ps_alive ps_open ps_log];
      rewrite ?did_app, ?dids_app; cbn [did dids flat_map app]; rewrite ?app_nil_r; auto; try congruence.
    apply replies_app. split; auto. cbn [replies_ok app]. split; auto. destruct p; split; congruence.
Qed.

Lemma life_inv c s ks : exists st, PInv c s st /\ ps_log st = life c s ks.
Proof.
  unfold life. exists (fold_left (pstep c) ks (initial c s)). split; auto.
  assert (G : forall ks st, PInv c s st -> PInv c s (fold_left (pstep c) ks st)).
  { clear. induction ks as [|k ks IH]; intros st P; cbn [fold_left]; auto. apply IH. apply pinv_step. auto. }
  apply G. constructor; cbn; auto.
Qed.


(** Every prefix of a life is a life: of fewer scheduling decisions. *)
Lemma step_log c st k : ps_log (pstep c st k) = ps_log st \/ exists e, ps_log (pstep c st k) = ps_log st ++ [e].
Proof.
  destruct k as [w|p]; [destruct w|]; cbn [pstep].
  - destruct (ps_main st) as [|i r]; auto.
    assert (G : exists e, ps_log (exec Main i (set_main st r)) = ps_log st ++ [e]) by (exists (Did Main i); reflexivity).
    destruct i; auto. destruct (waited c && _); auto.
  - destruct (ps_spawned st) as [[|i m]|]; auto. right. exists (Did Spawned i). reflexivity.
  - destruct (ps_open st); auto. right. cbn [ps_log]. eauto.
Qed.

Lemma life_snoc c s ks k : life c s (ks ++ [k]) = life c s ks \/ exists e, life c s (ks ++ [k]) = life c s ks ++ [e].
Proof. unfold life. rewrite fold_left_app. cbn [fold_left]. apply step_log. Qed.

Lemma life_prefix c s ks : forall a b, life c s ks = a ++ b -> exists ks', life c s ks' = a.
Proof.
  induction ks as [|k ks IH] using rev_ind; intros a b E.
  - cbn in E. exists []. destruct a; [reflexivity|discriminate].
  - destruct (life_snoc c s ks k) as [N|[e N]].
    + rewrite N in E. eapply IH, E.
    + destruct b as [|x b _] using rev_ind.
      * rewrite app_nil_r in E. exists (ks ++ [k]). exact E.
      * rewrite N, app_assoc in E. apply app_inj_tail in E. destruct E as [E _]. eapply IH, E.
Qed.


Lemma dids_main l : did Spawned l = [] -> dids l = did Main l.
Proof.
  induction l as [|e l IH]; auto. destruct e as [w i|p z]; [destruct w|]; cbn; intros H; try discriminate; try (f_equal; apply IH; exact H); auto.
Qed.

Lemma did_in w i l : In i (did w l) <-> In (Did w i) l.
Proof.
  unfold did. rewrite in_flat_map. split.
  - intros (e & He & H). destruct e as [x j|p z]; [destruct x, w|]; cbn in H; intuition; subst; auto.
  - intros H. exists (Did w i). split; auto. destruct w; cbn; auto.
Qed.

Lemma did_split a : did Spawned a = [IReady true] -> exists a1 a2, a = a1 ++ Did Spawned (IReady true) :: a2 /\ did Spawned a1 = [] /\ did Spawned a2 = [].
Proof.
  induction a as [|e a IH]; [discriminate|]. destruct e as [w i|p z]; [destruct w|]; cbn; intros H.
  - destruct (IH H) as (a1 & a2 & -> & H1 & H2). exists (Did Main i :: a1), a2. auto.
  - exists [], a. inversion H; subst. auto.
  - destruct (IH H) as (a1 & a2 & -> & H1 & H2). exists (Reply p z :: a1), a2. auto.
Qed.

(** What has been done at some point of a life: the two possible shapes. *)
Lemma point c s ks a b : life c s ks = a ++ b ->
  (did Spawned a = [] /\ dids a = did Main a /\ exists m, did Main a ++ m = main_steps c s) \/
  (exists a1 a2 m, a = a1 ++ Did Spawned (IReady true) :: a2 /\ dids a = did Main a1 ++ IReady true :: did Main a2 /\
     In ISpawn (did Main a1) /\ did Main a1 ++ did Main a2 ++ m = main_steps c s /\
     (waited c = true -> ~ In IWait (did Main a1))).
Proof.
  intros E. destruct (life_prefix _ _ _ _ _ E) as (k1 & E1). clear E b ks.
  destruct (life_inv c s k1) as (st & P & L). rewrite E1 in L.
  assert (S : did Spawned a = [] \/ did Spawned a = [IReady true] /\ In ISpawn (did Main a)).
  { pose proof (pi_spawn _ _ _ P) as Q. rewrite L in Q. destruct (ps_spawned st) as [m|].
    - destruct Q as [Q1 Q2]. unfold spawned_steps in Q1. destruct (did Spawned a) as [|x d]; auto. right. split; auto.
      injection Q1 as Q3 Q4. destruct d; [rewrite Q3; reflexivity|discriminate].
    - left. apply Q. }
  pose proof (pi_main _ _ _ P) as Q. rewrite L in Q.
  destruct S as [S|[S _]].
  - left. split; auto. split; [apply dids_main; auto|eauto].
  - right. destruct (did_split a S) as (a1 & a2 & -> & S1 & S2). exists a1, a2, (ps_main st).
    rewrite did_app in Q. cbn [did flat_map app] in Q. fold (did Main a2) in Q. rewrite <- app_assoc in Q.
    assert (D : dids (a1 ++ Did Spawned (IReady true) :: a2) = did Main a1 ++ IReady true :: did Main a2).
    { rewrite dids_app. cbn [dids flat_map app]. fold (dids a2). rewrite (dids_main a1), (dids_main a2); auto. }
    assert (E2 : life c s k1 = (a1 ++ [Did Spawned (IReady true)]) ++ a2) by (rewrite <- app_assoc; exact E1).
    destruct (life_prefix _ _ _ _ _ E2) as (k2 & E3).
    destruct (life_inv c s k2) as (st2 & P2 & L2). rewrite E3 in L2.
    assert (X : In ISpawn (did Main a1)).
    { pose proof (pi_spawn _ _ _ P2) as R. rewrite L2, !did_app in R. cbn [did flat_map app] in R. rewrite !app_nil_r in R.
      destruct (ps_spawned st2) as [m|]; [tauto|]. destruct R as [R _]. rewrite S1 in R. discriminate. }
    split; [reflexivity|split; [exact D|split; [exact X|split; [exact Q|]]]].
    intros Wc Hw. assert (E4 : life c s k2 = a1 ++ [Did Spawned (IReady true)]) by exact E3.
    destruct (life_prefix _ _ _ _ _ E4) as (k3 & E5). 
    (* the step from the state before *)
    clear - Wc Hw E3 S1 X.
    revert a1 E3 S1 X Hw. induction k2 as [|k k2 IH] using rev_ind; intros a1 E3 S1 X Hw; [cbn in E3; destruct a1; discriminate|].
    destruct (life_snoc c s k2 k) as [N|[e N]].
    + rewrite N in E3. eapply IH; eauto.
    + rewrite N in E3. apply app_inj_tail in E3. destruct E3 as [E3 He]. subst e.
      unfold life in N. rewrite fold_left_app in N. cbn [fold_left] in N. fold (life c s k2) in N.
      pose proof (life_inv c s k2) as _.
      assert (P : PInv c s (fold_left (pstep c) k2 (initial c s))).
      { destruct (life_inv c s k2) as (st & P & L). clear - P. 
        assert (G : forall ks st, PInv c s st -> PInv c s (fold_left (pstep c) ks st)).
        { clear. induction ks as [|k ks IH]; intros st P; cbn [fold_left]; auto. apply IH. apply pinv_step. auto. }
        apply G. constructor; cbn; auto. }
      set (st := fold_left (pstep c) k2 (initial c s)) in *.
      assert (L : ps_log st = a1) by exact E3.
      pose proof (pi_wait _ _ _ P Wc) as Q. rewrite L in Q. specialize (Q Hw).
      assert (G : exists i m, ps_spawned st = Some (i :: m)).
      { destruct k as [w|p]; [destruct w|]; cbn [pstep] in N.
        - exfalso. assert (Y : forall i r, ps_log (exec Main i (set_main st r)) = life c s k2 ++ [Did Spawned (IReady true)] -> False).
          { intros i r Z. cbn [exec set_main ps_log] in Z. rewrite E3, L in Z. apply app_inj_tail in Z. destruct Z; discriminate. }
          assert (Z : ps_log st = life c s k2 ++ [Did Spawned (IReady true)] -> False).
          { intros Z. rewrite E3, L in Z. apply (f_equal (@List.length _)) in Z. rewrite app_length in Z. cbn in Z. lia. }
          destruct (ps_main st) as [|i r]; [auto|]. destruct i; try (eapply Y; exact N). destruct (waited c && _); [auto|eapply Y; exact N].
        - destruct (ps_spawned st) as [[|i m]|]; eauto;
            exfalso; rewrite E3, L in N; apply (f_equal (@List.length _)) in N; rewrite app_length in N; cbn in N; lia.
        - exfalso. destruct (ps_open st).
          + cbn [ps_log] in N. rewrite E3, L in N. apply app_inj_tail in N. destruct N; discriminate.
          + rewrite E3, L in N; apply (f_equal (@List.length _)) in N; rewrite app_length in N; cbn in N; lia. }
      destruct G as (i & m & G). rewrite G in Q. destruct Q as [Q|Q]; discriminate.
Qed.

(** A reply is that of the flags. *)
Lemma reply_flags c s ks a p code b : life c s ks = a ++ Reply p code :: b ->
  code = status (match p with Healthz => f_alive (dids a) | Readyz => f_ready (dids a) end) /\ f_open (dids a) = true.
Proof.
  intros E. destruct (life_inv c s ks) as (st & P & L). pose proof (pi_replies _ _ _ P) as P6. rewrite L, E in P6.
  apply replies_app in P6. destruct P6 as [_ P6]. cbn [replies_ok app] in P6. destruct P6 as [P6 _]. destruct p; exact P6.
Qed.

Ltac enum d E := cbn in E;
  repeat (let x := fresh "x" in destruct d as [|x d]; [clear E|cbn in E; (discriminate E || (injection E as ? E; subst x))]).
Ltac enum2 d E := cbn in E;
  repeat (let x := fresh "x" in destruct d as [|x d]; [|cbn in E; (discriminate E || (injection E as ? E; subst x))]).

(** Ready is only answered after the component said so, and only by one that started. *)
Lemma ready_means c s ks a b : life c s ks = a ++ Reply Readyz 200 :: b ->
  s = StartsOk /\ (In (Did Main (IReady true)) a \/ In (Did Spawned (IReady true)) a).
Proof.
  intros E. destruct (reply_flags _ _ _ _ _ _ _ E) as [F _].
  destruct (point _ _ _ _ _ E) as [(S & D & m & M)|(a1 & a2 & m & A & D & X & M & _)].
  - rewrite <- (did_in Main). rewrite D in F. destruct c, s; cbn [main_steps stop_steps] in M; clear E S D;
      generalize dependent (did Main a); intros d F M; enum d M; cbn in F; try discriminate F; cbn; auto; tauto.
  - split; [|right; rewrite A; apply in_app_iff; right; left; reflexivity].
    clear - X M. revert X M. generalize (did Main a1) (did Main a2). intros d e X M.
    assert (Y : In ISpawn (main_steps c s)) by (rewrite <- M; apply in_app_iff; auto).
    destruct c, s; auto; cbn in Y; intuition discriminate.
Qed.

(** A component that sets itself ready in Start, between Start's return and Stop. *)
Lemma direct_up c ks a p code b : direct c -> life c StartsOk ks = a ++ Reply p code :: b ->
  In (Did Main IReturned) a -> ~ In (Did Main IStop) a -> code = 200%Z.
Proof.
  intros Dc E Ret NS. destruct (reply_flags _ _ _ _ _ _ _ E) as [F _]. rewrite <- did_in in Ret, NS.
  destruct (point _ _ _ _ _ E) as [(S & D & m & M)|(a1 & a2 & m & A & D & X & M & _)].
  - rewrite D in F. clear E S D. generalize dependent (did Main a). intros d F R N M.
    destruct Dc as [->|[->| ->]]; enum d M; cbn in F, R, N; try tauto; destruct p; try exact F; intuition discriminate.
  - exfalso. assert (Y : In ISpawn (main_steps c StartsOk)) by (rewrite <- M; apply in_app_iff; auto).
    destruct Dc as [->|[->| ->]]; cbn in Y; intuition discriminate.
Qed.

(** ... and once Stop has cleared its readiness. *)
Lemma direct_down c s ks a code b : direct c -> life c s ks = a ++ Reply Readyz code :: b -> In (Did Main (IReady false)) a -> code = 503%Z.
Proof.
  intros Dc E Ret. destruct (reply_flags _ _ _ _ _ _ _ E) as [F _]. rewrite <- did_in in Ret.
  destruct (point _ _ _ _ _ E) as [(S & D & m & M)|(a1 & a2 & m & A & D & X & M & _)].
  - rewrite D in F. clear E S D. generalize dependent (did Main a). intros d F R M.
    destruct Dc as [->|[->| ->]], s; enum d M; cbn in F, R; try tauto; try exact F; intuition discriminate.
  - exfalso. assert (Y : In ISpawn (main_steps c s)) by (rewrite <- M; apply in_app_iff; auto).
    destruct Dc as [->|[->| ->]], s; cbn in Y; intuition discriminate.
Qed.

(** The others: once their goroutine has reported, until Stop; and after Stop cleared it, if the goroutine reported before. *)
Lemma spawned_up c ks a1 a2 p code b : life c StartsOk ks = a1 ++ Did Spawned (IReady true) :: a2 ++ Reply p code :: b ->
  ~ In (Did Main IStop) a1 -> ~ In (Did Main IStop) a2 -> code = 200%Z.
Proof.
  intros E N1 N2. change (Did Spawned (IReady true) :: a2 ++ Reply p code :: b) with ((Did Spawned (IReady true) :: a2) ++ Reply p code :: b) in E.
  rewrite app_assoc in E. destruct (reply_flags _ _ _ _ _ _ _ E) as [F _]. rewrite <- did_in in N1, N2.
  destruct (point _ _ _ _ _ E) as [(S & _)|(x1 & x2 & m & A & D & X & M & _)].
  - exfalso. rewrite did_app in S. destruct (did Spawned a1); discriminate.
  - rewrite D in F. assert (N : ~ In IStop (did Main x1 ++ did Main x2)).
    { intros H. assert (G : In IStop (did Main (a1 ++ Did Spawned (IReady true) :: a2))).
      { rewrite A, did_app. exact H. }
      rewrite did_app in G. apply in_app_iff in G. destruct G; auto. }
    clear - F M N X. revert F M N X. generalize (did Main x1) (did Main x2). intros d e F M N X.
    destruct c; cbn in M; enum2 d M; cbn in X; try (exfalso; intuition discriminate); enum e M; cbn in F, N; try tauto; destruct p; exact F.
Qed.

Lemma spawned_down c ks a1 a2 code b : life c StartsOk ks = a1 ++ Did Spawned (IReady true) :: a2 ++ Reply Readyz code :: b ->
  In (Did Main (IReady false)) a2 -> code = 503%Z.
Proof.
  intros E N. change (Did Spawned (IReady true) :: a2 ++ Reply Readyz code :: b) with ((Did Spawned (IReady true) :: a2) ++ Reply Readyz code :: b) in E.
  rewrite app_assoc in E. destruct (reply_flags _ _ _ _ _ _ _ E) as [F _]. rewrite <- did_in in N.
  destruct (point _ _ _ _ _ E) as [(S & _)|(x1 & x2 & m & A & D & X & M & _)].
  - exfalso. rewrite did_app in S. destruct (did Spawned a1); discriminate.
  - assert (U : x1 = a1 /\ x2 = a2).
    { assert (O : did Spawned (a1 ++ Did Spawned (IReady true) :: a2) = [IReady true]).
      { destruct (life_prefix _ _ _ _ _ E) as (k & L). destruct (life_inv c StartsOk k) as (st & P & Ls). rewrite L in Ls.
        pose proof (pi_spawn _ _ _ P) as Q. rewrite Ls in Q. destruct (ps_spawned st) as [q|].
        - destruct Q as [Q _]. rewrite did_app in Q |- *. change (did Spawned (Did Spawned (IReady true) :: a2)) with (IReady true :: did Spawned a2) in *.
          unfold spawned_steps in Q. destruct (did Spawned a1) as [|y l]; cbn in Q.
          + injection Q as Q. destruct (did Spawned a2) as [|z l2]; [reflexivity|discriminate].
          + injection Q as Q1 Q2. destruct l; discriminate.
        - destruct Q as [Q _]. rewrite did_app in Q. destruct (did Spawned a1); discriminate. }
      clear - A O. revert x1 A O. induction a1 as [|e a1 IH]; intros x1 A O.
      - destruct x1 as [|y x1]; cbn in A; [injection A as A2; auto|injection A as A1 A2]. exfalso. subst y. rewrite A2 in O. cbn [app did flat_map] in O.
        fold (did Spawned (x1 ++ Did Spawned (IReady true) :: x2)) in O. rewrite did_app in O. cbn in O. destruct (did Spawned x1); discriminate.
      - destruct x1 as [|y x1]; cbn in A; injection A as A1 A2.
        + exfalso. subst e. cbn [app did flat_map] in O. fold (did Spawned (a1 ++ Did Spawned (IReady true) :: a2)) in O.
          rewrite did_app in O. cbn in O. destruct (did Spawned a1); discriminate.
        + destruct (IH x1 A2) as [-> ->]; [|split; congruence].
          cbn [app did flat_map] in O. fold (did Spawned (a1 ++ Did Spawned (IReady true) :: a2)) in O.
          destruct e as [w i|q z]; [destruct w|]; cbn in O; auto. exfalso. injection O as _ O. rewrite did_app in O. cbn in O. destruct (did Spawned a1); discriminate. }
    destruct U as [-> ->]. rewrite D in F.
    clear - F M N X. revert F M N X. generalize (did Main a1) (did Main a2). intros d e F M N X.
    destruct c; cbn in M; enum2 d M; cbn in X; try (exfalso; intuition discriminate); enum e M; cbn in F, N; try tauto; try exact F; exfalso; intuition discriminate.
Qed.

(** Liveness: from the first to the moment Stop clears it. *)
Lemma healthz c s ks a code b : life c s ks = a ++ Reply Healthz code :: b ->
  (code = 200%Z /\ ~ In (Did Main (IAlive false)) a) \/ (code = 503%Z /\ In (Did Main (IAlive false)) a).
Proof.
  intros E. destruct (reply_flags _ _ _ _ _ _ _ E) as [F O]. rewrite <- did_in.
  destruct (point _ _ _ _ _ E) as [(S & D & m & M)|(a1 & a2 & m & A & D & X & M & _)].
  - rewrite D in F, O. clear E S D. generalize dependent (did Main a). intros d F O M.
    destruct c, s; cbn [main_steps stop_steps] in M; enum d M; cbn in F, O; try discriminate O; cbn;
      first [left; split; [exact F|intuition discriminate]|right; split; [exact F|tauto]].
  - rewrite D in F, O. assert (R : did Main a = did Main a1 ++ did Main a2) by (rewrite A, did_app; reflexivity). rewrite R.
    clear - F M X O. revert F M X O. generalize (did Main a1) (did Main a2). intros d e F M X O.
    destruct c, s; cbn in M; enum2 d M; cbn in X; try (exfalso; intuition discriminate); enum e M; cbn in F, O; try discriminate O; cbn;
      first [left; split; [exact F|intuition discriminate]|right; split; [exact F|tauto]].
Qed.

(** Nothing is answered after the server is closed; a component that fails to start, except a listener that fails early,
    and a component that was stopped has closed it. *)
Lemma closed c s ks a p code b : life c s ks = a ++ Reply p code :: b -> ~ In (Did Main IClose) a.
Proof.
  intros E. destruct (reply_flags _ _ _ _ _ _ _ E) as [F O]. rewrite <- did_in.
  destruct (point _ _ _ _ _ E) as [(S & D & m & M)|(a1 & a2 & m & A & D & X & M & _)].
  - rewrite D in O. clear E S D F. generalize dependent (did Main a). intros d O M.
    destruct c, s; cbn [main_steps stop_steps] in M; enum d M; cbn in O; try discriminate O; cbn; intuition discriminate.
  - rewrite D in O. assert (R : did Main a = did Main a1 ++ did Main a2) by (rewrite A, did_app; reflexivity). rewrite R.
    clear - M X O. revert M X O. generalize (did Main a1) (did Main a2). intros d e M X O.
    destruct c, s; cbn in M; enum2 d M; cbn in X; try (exfalso; intuition discriminate); enum e M; cbn in O; try discriminate O; cbn; intuition discriminate.
Qed.

Lemma failed_closed c s ks : In (Did Main IFailed) (life c s ks) ->
  In (Did Main IClose) (life c s ks) \/ (c = Config.Listener /\ s = FailsEarly) \/ c = Config.HTTPListener.
Proof.
  intros H. rewrite <- !did_in in *. assert (E : life c s ks = life c s ks ++ []) by (symmetry; apply app_nil_r).
  assert (M : exists m, did Main (life c s ks) ++ m = main_steps c s).
  { destruct (life_inv c s ks) as (st & P & L). exists (ps_main st). rewrite <- L. apply (pi_main _ _ _ P). }
  destruct M as (m & M). clear E. generalize dependent (did Main (life c s ks)). intros d H M.
  destruct c, s; auto; cbn [main_steps stop_steps] in M; enum d M; cbn in H |- *; intuition discriminate.
Qed.

Lemma app_cons_last (a b : list seen) i : a ++ Did Spawned i :: b = (a ++ [Did Spawned i]) ++ b.
Proof. rewrite <- app_assoc. reflexivity. Qed.

Lemma listener_waited ks s a i : life Config.Listener s ks = a ++ [Did Spawned i] -> ~ In (Did Main IWait) a.
Proof.
  intros E Hw. rewrite <- (app_nil_r (a ++ [Did Spawned i])) in E. destruct (point _ _ _ _ _ E) as [(N & _ & _)|(a1 & a2 & m & Ea & _ & _ & _ & W)].
  - unfold did in N. rewrite flat_map_app in N. apply app_eq_nil in N. destruct N as [_ N]. discriminate N.
  - destruct a2 as [|x a2] using rev_ind.
    + apply app_inj_tail in Ea. destruct Ea as [-> _]. apply (W eq_refl). unfold did. apply in_flat_map. exists (Did Main IWait). split; [exact Hw|left; reflexivity].
    + clear IHa2. exfalso. rewrite app_comm_cons, app_assoc in Ea. apply app_inj_tail in Ea. destruct Ea as [Ea Ex].
      assert (D : (length (did Spawned (a ++ [Did Spawned i])) <= 1)%nat).
      { destruct (life_inv Config.Listener s ks) as (st & P & L). rewrite E, app_nil_r in L. pose proof (pi_spawn _ _ _ P) as Q. rewrite L in Q.
        destruct (ps_spawned st) as [q|]; [|destruct Q as [-> _]; cbn; lia]. destruct Q as [Q _]. apply (f_equal (@length _)) in Q. rewrite app_length in Q. cbn [spawned_steps length] in Q. lia. }
      rewrite Ea in D. unfold did in D. rewrite !flat_map_app in D. cbn [flat_map app] in D. rewrite !app_length in D. cbn [length] in D. lia.
Qed.
