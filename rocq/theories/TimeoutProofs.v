From Verif Require Import Base Text LinesSpec Batch BatchProofs Splitter SplitterProofs Rules RulesSpec RulesProofs Retry RetrySpec RetryProofs RetryMain
  Writer WriterSpec WriterProofs WriterMain WriterTop Config ConfigSpec ConfigProofs Timeout.
Local Open Scope Z_scope.

Lemma trun_cons c T s l ls : trun c T s (l :: ls) =
  match tstep c T s l with
  | None => None
  | Some (s1, o1) => match trun c T s1 ls with None => None | Some (s2, o2) => Some (s2, o1 ++ o2) end
  end.
Proof. reflexivity. Qed.

Lemma post_step c w ch rest r t : w_pc w = WSend (ch :: rest) ->
  exists w', wstep c w (PPost r t) = Some (w', [VPost (w_n w) ch r]) /\
    (ok r = true \/ wc_retry c <= 0 -> w_pc w' = (match rest with [] => WIdle | _ => WSend rest end)) /\
    (ok r = false -> 1 <= wc_retry c -> w_pc w' = WHand (w_n w, ch) rest) /\
    w_received w' = w_received w /\ w_n w' = S (w_n w).
Proof.
  intros P. unfold wstep. rewrite P, <- ok_Write. destruct (ok r) eqn:E; cbn [orb].
  - eexists. split; [reflexivity|]. rewrite continue_pc. split; [reflexivity|]. split; [discriminate|]. destruct rest; split; reflexivity.
  - destruct (Z.ltb_spec 0 (wc_retry c)) as [L|L]; cbn [negb].
    + eexists. split; [reflexivity|]. split; [intros [X|X]; [discriminate X|lia]|]. split; [reflexivity|]. split; reflexivity.
    + eexists. split; [reflexivity|]. rewrite continue_pc. split; [reflexivity|]. split; [intros _ X; lia|]. destruct rest; split; reflexivity.
Qed.

(** Without retries a batch of [n] chunks is dealt with in [n] times the timeout, whatever the database does. *)
Lemma send_off c T : wc_retry c <= 0 -> 0 < T -> forall rest w now answers,
  w_pc w = (match rest with [] => WIdle | _ => WSend rest end) -> length answers = length rest ->
  exists w' now' tr, trun c T (w, now) (map TPost answers) = Some ((w', now'), tr) /\ w_pc w' = WIdle /\
    now' <= now + Z.of_nat (length rest) * T /\ bodies tr = rest /\ retries tr = [].
Proof.
  intros Hr HT. induction rest as [|ch rest IH]; intros w now answers P L.
  - destruct answers; [|discriminate L]. exists w, now, []. cbn. split; [reflexivity|]. split; [exact P|]. split; [lia|]. split; reflexivity.
  - destruct answers as [|a answers]; [discriminate L|]. destruct (do_returns T a HT) as (d & r & E & Ed & _).
    destruct (post_step c w ch rest r (now + d) P) as (w1 & S1 & P1 & _).
    specialize (P1 (or_intror Hr)). destruct (IH w1 (now + d) answers P1 ltac:(cbn [length] in L; lia)) as (w' & now' & tr & R & Pi & Le & B & Re).
    exists w', now', ([VPost (w_n w) ch r] ++ tr). split; [|split; [exact Pi|split; [|split]]].
    + cbn [map trun tstep]. rewrite E, S1, R. reflexivity.
    + cbn [length]. lia.
    + rewrite bodies_app, B. reflexivity.
    + rewrite retries_app, Re. reflexivity.
Qed.

(** A hand-over waits for at most the POST the retry goroutine is in. *)
Lemma hand_timed c T : (1 <= wc_size c)%nat -> 0 < T -> forall cap start ls w now tr a rest, 0 <= cap ->
  trun c T (newWorker cap start, start) ls = Some ((w, now), tr) -> w_pc w = WHand a rest ->
  forall ans, (match ans with After d _ => 0 <= d | Silent => True end) -> exists ls' w' now' tr',
    (length ls' <= 3)%nat /\ (forall l, In l ls' -> l = TRetry ans \/ exists m, l = TMove m) /\
    trun c T (w, now) ls' = Some ((w', now'), tr') /\ In (VHand a) tr' /\
    w_pc w' = (match rest with [] => WIdle | _ => WSend rest end) /\ now' <= Z.max now (r_now (w_retry w) + T).
Proof.
  intros Hs HT cap start ls w now tr a rest Hc R P ans San.
  destruct (run_untimed _ _ _ _ _ _ R) as [ms M]. cbn [fst] in M.
  pose proof (ok_run c Hs cap start ms w tr Hc M) as (Lv & Off & _).
  assert (Hr : (0 <? wc_retry c) = true).
  { destruct (0 <? wc_retry c) eqn:E; [reflexivity|]. destruct (Off eq_refl) as [_ X]. rewrite P in X. destruct X. }
  (* the end: the channel is free *)
  assert (Last : forall w1 t, w_pc w1 = WHand a rest -> w_chan w1 = None -> now <= t ->
    exists w', trun c T (w1, now) [TMove (PHand t)] = Some ((w', t), [VHand a]) /\ w_pc w' = (match rest with [] => WIdle | _ => WSend rest end)).
  { intros w1 t P1 C1 Lt. destruct (wstep_hand c w1 t a rest P1 C1) as (w' & E & Q & _). exists w'. split; [|exact Q].
    cbn [trun tstep result span]. replace ((now <=? t) && (t <=? t)) with true by lia. rewrite E. reflexivity. }
  (* the middle: the retry goroutine waits *)
  assert (Mid : forall w1 b, w_pc w1 = WHand a rest -> w_chan w1 = Some b -> r_ph (w_retry w1) = RIdle ->
    exists w' tr', trun c T (w1, now) [TMove (PIn (r_now (w_retry w1)) (r_now (w_retry w1))); TMove (PHand (Z.max now (r_now (w_retry w1))))]
        = Some ((w', Z.max now (r_now (w_retry w1))), tr') /\ In (VHand a) tr' /\ w_pc w' = (match rest with [] => WIdle | _ => WSend rest end)).
  { intros w1 b P1 C1 Ph. destruct (wstep_in c Hs w1 (r_now (w_retry w1)) (r_now (w_retry w1)) b Hr Ph C1 ltac:(lia) ltac:(lia)) as (w2 & o & E & _ & C2 & P2 & _).
    destruct (Last w2 (Z.max now (r_now (w_retry w1))) ltac:(congruence) C2 ltac:(lia)) as (w' & R' & Q).
    exists w', (o ++ [VHand a]). split; [|split; [apply in_or_app; right; left; reflexivity|exact Q]].
    rewrite trun_cons. cbn [tstep result span]. rewrite E, R'. reflexivity. }
  destruct (w_chan w) as [b|] eqn:Hch.
  - destruct (r_ph (w_retry w)) as [|x|] eqn:Ph.
    + destruct (Mid w b P Hch Ph) as (w' & tr' & E & J & Q).
      eexists _, w', _, tr'. split; [|split; [|split; [exact E|split; [exact J|split; [exact Q|lia]]]]]; [cbn; lia|].
      intros l [<-|[<-|[]]]; right; eexists; reflexivity.
    + destruct (do_returns T ans HT) as (d & r & Ed & Ld & Ha).
      assert (D0 : 0 <= d).
      { destruct ans as [|d0 r0]; [lia|]. destruct (Z.le_gt_cases d0 T) as [A|A]; [destruct (proj1 Ha A); lia|destruct (proj2 Ha ltac:(lia)); lia]. }
      destruct (wstep_end c Hs w (r_now (w_retry w) + d) r x Hr Ph ltac:(lia)) as (w1 & E1 & Ph1 & C1 & P1 & _).
      assert (N1 : r_now (w_retry w1) = r_now (w_retry w) + d).
      { clear - E1 Hr Ph D0. unfold wstep in E1. rewrite Hr in E1. cbn [is_in is_stop negb orb andb] in E1. unfold retry_step, rstep in E1. rewrite Ph in E1.
        replace (r_now (w_retry w) <=? r_now (w_retry w) + d) with true in E1 by lia. destruct (w_pc w); inversion E1; reflexivity. }
      destruct (Mid w1 b ltac:(congruence) ltac:(congruence) Ph1) as (w' & tr' & E & J & Q).
      eexists (TRetry ans :: [TMove (PIn (r_now (w_retry w1)) (r_now (w_retry w1))); TMove (PHand (Z.max now (r_now (w_retry w1))))]), w', _, _. split; [|split; [|split; [|split; [|split; [exact Q|]]]]].
      * cbn; lia.
      * intros l [<-|[<-|[<-|[]]]]; [left; reflexivity| |]; right; eexists; reflexivity.
      * rewrite trun_cons. cbn [tstep]. rewrite Ed, E1, E. reflexivity.
      * apply in_or_app. right. exact J.
      * rewrite N1. lia.
    + destruct (Lv Ph) as [X|X]; rewrite P in X; discriminate X.
  - destruct (Last w now P Hch ltac:(lia)) as (w' & E & Q).
    eexists _, w', now, _. split; [|split; [|split; [exact E|split; [left; reflexivity|split; [exact Q|lia]]]]]; [cbn; lia|].
    intros l [<-|[]]; right; eexists; reflexivity.
Qed.

(** ** The retry goroutine's attempts *)
Section Attempts.
  Variables (c : wcfg) (T : Z).
  Hypothesis HT : 0 < T.

  (** Every attempt that has ended took at most the timeout; the running one started at the goroutine's last clock reading. *)
  Definition quick (l : list (robs chunk)) : Prop :=
    forall l1 te b o l2, l = l1 ++ OEnd te b o :: l2 -> exists l0 t, l1 = l0 ++ [OStart t b] /\ te <= t + T.
  Definition running (w : wst) (l : list (robs chunk)) : Prop :=
    forall a, r_ph (w_retry w) = RWriting a -> exists l0, l = l0 ++ [OStart (r_now (w_retry w)) a].

  Lemma quick_snoc l x : quick l -> (match x with OEnd _ _ _ => False | _ => True end) -> quick (l ++ [x]).
  Proof.
    intros Q Hx l1 te b o l2 E. destruct l2 as [|y l2] using rev_ind.
    - apply app_inj_tail in E. destruct E as [_ ->]. destruct Hx.
    - clear IHl2. rewrite app_comm_cons, app_assoc in E. apply app_inj_tail in E. destruct E as [E _]. eapply Q. exact E.
  Qed.
  Lemma quick_app l o : quick l -> Forall (fun x => match x with OEnd _ _ _ => False | _ => True end) o -> quick (l ++ o).
  Proof.
    intros Q F. revert l Q. induction F as [|x o Hx F IH]; intros l Q; [rewrite app_nil_r; exact Q|].
    replace (l ++ x :: o) with ((l ++ [x]) ++ o) by (rewrite <- app_assoc; reflexivity). apply IH. apply quick_snoc; assumption.
  Qed.
  Lemma quick_end l t a te o : quick (l ++ [OStart t a]) -> te <= t + T -> quick ((l ++ [OStart t a]) ++ [OEnd te a o]).
  Proof.
    intros Q L l1 te1 b1 o1 l2 E. destruct l2 as [|y l2] using rev_ind.
    - apply app_inj_tail in E. destruct E as [E1 E2]. inversion E2; subst. exists l, t. split; [reflexivity|exact L].
    - clear IHl2. rewrite app_comm_cons, (app_assoc l1) in E. apply app_inj_tail in E. destruct E as [E1 _]. eapply Q. exact E1.
  Qed.

  (** What a move other than the end of an attempt adds. *)
  Definition no_end (l : list (robs chunk)) : Prop := Forall (fun x => match x with OEnd _ _ _ => False | _ => True end) l.
  Lemma no_end_map (f : chunk -> robs chunk) l : (forall a, match f a with OEnd _ _ _ => False | _ => True end) -> no_end (map f l).
  Proof. intros H. induction l as [|a l IH]; constructor; [apply H|exact IH]. Qed.

  Lemma rstep_other m ttl i (r : rstate chunk) l r' o : (match l with LEnd _ _ => False | _ => True end) -> rstep m ttl i r l = Some (r', o) ->
    no_end o /\ forall a, r_ph r' = RWriting a -> exists o0, o = o0 ++ [OStart (r_now r') a].
  Proof.
    intros N H. destruct l as [t t' a|t t'|t' o'|]; [| |destruct N|]; unfold rstep in H; destruct (r_ph r) as [|x|] eqn:Ph; try discriminate H.
    - destruct (_ && _); [|discriminate]. destruct (qAdd _ _ _ _ _) as [q ev]. inversion H; subst. split; [|intros a0 X; discriminate X].
      apply Forall_app. split; [apply no_end_map; intros; exact Logic.I|]. repeat constructor.
    - destruct (r_next r) as [d|]; [|discriminate]. destruct (_ && _); [|discriminate]. destruct (qFront (r_q r) t) as [[q ex] f]. destruct f as [a|]; inversion H; subst.
      + split; [apply Forall_app; split; [apply no_end_map; intros; exact Logic.I|repeat constructor]|].
        cbn. intros a0 X. inversion X; subst. eexists. reflexivity.
      + split; [apply no_end_map; intros; exact Logic.I|]. intros a0 X. discriminate X.
    - inversion H; subst. split; [repeat constructor|]. intros a X. discriminate X.
  Qed.

  Lemma check_retry s t s' o : check c s t = (s', o) -> w_retry s' = w_retry s /\ retries o = [].
  Proof.
    unfold check. destruct (Writer.shouldSend _ _ _); intros H; inversion H; subst; [|split; reflexivity]. rewrite continue_retry. split; reflexivity.
  Qed.

  Lemma attempts_step s l s' o tr : sane l -> quick (retries tr) -> running (fst s) (retries tr) -> tstep c T s l = Some (s', o) ->
    quick (retries (tr ++ o)) /\ running (fst s') (retries (tr ++ o)).
  Proof.
    destruct s as [w now]. intros Sa Q R H.
    (* moves that leave the goroutine as it is *)
    assert (Same : forall w', w_retry w' = w_retry w -> retries o = [] -> quick (retries (tr ++ o)) /\ running w' (retries (tr ++ o))).
    { intros w' E1 E2. rewrite retries_app, E2, app_nil_r. split; [exact Q|]. unfold running. rewrite E1. exact R. }
    assert (Near : forall w', r_ph (w_retry w') = r_ph (w_retry w) -> r_now (w_retry w') = r_now (w_retry w) -> retries o = [] ->
      quick (retries (tr ++ o)) /\ running w' (retries (tr ++ o))).
    { intros w' E1 E1' E2. rewrite retries_app, E2, app_nil_r. split; [exact Q|]. unfold running. rewrite E1, E1'. exact R. }
    (* other moves of the goroutine *)
    assert (Move : forall w' r' l' o', w_retry w' = r' -> retries o = o' -> (match l' with LEnd _ _ => False | _ => True end) ->
      retry_step c (w_retry w) l' = Some (r', o') -> quick (retries (tr ++ o)) /\ running w' (retries (tr ++ o))).
    { intros w' r' l' o' E1 E2 N St. destruct (rstep_other _ _ _ _ _ _ _ N St) as [Ne Ru]. rewrite retries_app, E2. split; [apply quick_app; assumption|].
      intros a Pa. rewrite E1 in *. destruct (Ru a Pa) as (o0 & ->). exists (retries tr ++ o0). rewrite app_assoc. reflexivity. }
    destruct l as [ans|ans|m]; cbn [tstep] in H.
    - destruct (Do T ans) as [[d r]|] eqn:Ed; [|discriminate]. destruct (wstep c w (PPost r (now + d))) as [[w' o']|] eqn:E; [|discriminate].
      inversion H; subst. cbn [fst]. unfold wstep in E. destruct (w_pc w) as [|[|ch rest]|a rest| |] eqn:P; try discriminate E.
      destruct (_ || _) in E; inversion E; subst; (apply Same; [rewrite ?continue_retry; reflexivity|reflexivity]).
    - destruct (Do T ans) as [[d r]|] eqn:Ed; [|discriminate].
      destruct (wstep c w (PRetry (LEnd (r_now (w_retry w) + d) (Write r)))) as [[w' o']|] eqn:E; [|discriminate].
      inversion H; subst. cbn [fst]. unfold wstep in E.
      assert (E' : (if 0 <? wc_retry c then match retry_step c (w_retry w) (LEnd (r_now (w_retry w) + d) (Write r)) with
                      | None => None | Some (r, o) => Some (set_retry w (w_chan w) r, map VRetry o) end else None) = Some (w', o)).
      { destruct (0 <? wc_retry c); cbn [is_in is_stop negb orb andb] in E; destruct (w_pc w); exact E. }
      clear E. destruct (0 <? wc_retry c); [|discriminate]. unfold retry_step, rstep in E'. destruct (r_ph (w_retry w)) as [|a|] eqn:Ph; try discriminate E'.
      destruct (_ <=? _) in E'; [|discriminate]. inversion E'; subst. destruct (R a Ph) as (l0 & El). rewrite retries_app, El. split.
      + apply quick_end; [rewrite <- El; exact Q|]. pose proof (do_bounded T ans d r HT Ed). cbn [fst]. lia.
      + intros a0 X. discriminate X.
    - destruct (result m) eqn:Rm; [discriminate|].
      assert (E : wstep c w m = Some (fst s', o)).
      { destruct (span m) as [[t t']|]; [destruct (_ && _) in H; [|discriminate]|]; destruct (wstep c w m) as [[w' o']|]; try discriminate H; inversion H; subst; reflexivity. }
      clear H. unfold wstep in E.
      destruct m as [t t' data|t'|t'|t'|r t|t| | | |t t'|l']; try discriminate Rm.
      + destruct (w_pc w); try discriminate E. destruct (check c _ _) as [s1 o1] eqn:K in E. apply check_retry in K. destruct K as [K1 K2].
        inversion E; subst. apply Same; [exact K1|cbn; exact K2].
      + destruct (w_pc w); try discriminate E. destruct (_ <? _) in E; [|discriminate E]. destruct (check c _ _) as [s1 o1] eqn:K in E.
        apply check_retry in K. destruct K as [K1 K2]. inversion E; subst. apply Near; [rewrite K1; reflexivity|rewrite K1; reflexivity|cbn; exact K2].
      + destruct (w_pc w); try discriminate E. destruct (_ <? _) in E; [|discriminate E]. destruct (check c _ _) as [s1 o1] eqn:K in E.
        apply check_retry in K. destruct K as [K1 K2]. inversion E; subst. apply Near; [rewrite K1; reflexivity|rewrite K1; reflexivity|cbn; exact K2].
      + destruct (w_pc w); try discriminate E. destruct (check c _ _) as [s1 o1] eqn:K in E. apply check_retry in K. destruct K as [K1 K2].
        inversion E; subst. apply Same; [exact K1|exact K2].
      + destruct (w_pc w); try discriminate E. destruct (w_chan w); [discriminate E|]. inversion E; subst. apply Same; [rewrite continue_retry; reflexivity|reflexivity].
      + assert (E' : Some (mkW (w_batch w) (w_pc w) (w_chan w) (w_retry w) true (w_received w) (w_requests w) (w_failed w) (w_n w), []) = Some (fst s', o))
          by (destruct (w_pc w); exact E). inversion E'; subst. apply Same; reflexivity.
      + destruct (w_pc w); try discriminate E. destruct (w_closed w); [|discriminate E]. inversion E; subst. apply Same; reflexivity.
      + destruct (w_pc w); try discriminate E. destruct (r_ph (w_retry w)) eqn:Ph; try discriminate E. inversion E; subst. apply Same; reflexivity.
      + assert (E' : (if 0 <? wc_retry c then match w_chan w with None => None | Some a => match retry_step c (w_retry w) (LIn t t' a) with
                        | None => None | Some (r, o) => Some (set_retry w None r, map VRetry o) end end else None) = Some (fst s', o)).
        { destruct (w_pc w); exact E. }
        clear E. destruct (0 <? wc_retry c); [|discriminate]. destruct (w_chan w) as [a|]; [|discriminate].
        destruct (retry_step c (w_retry w) (LIn t t' a)) as [[r' o']|] eqn:St; [|discriminate]. inversion E'; subst.
        eapply Move; [| | |exact St]; [reflexivity|apply vretry_retries|exact Logic.I].
      + assert (E' : match retry_step c (w_retry w) l' with None => None | Some (r, o) => Some (set_retry w (w_chan w) r, map VRetry o) end = Some (fst s', o)).
        { destruct (w_pc w); destruct (_ && _) in E; try discriminate E; exact E. }
        clear E. destruct (retry_step c (w_retry w) l') as [[r' o']|] eqn:St; [|discriminate]. inversion E'; subst.
        eapply Move; [| | |exact St]; [reflexivity|apply vretry_retries|destruct l'; try exact Logic.I; discriminate Rm].
  Qed.

  Lemma attempts_run ls : forall s s' o tr, Forall sane ls -> quick (retries tr) -> running (fst s) (retries tr) -> trun c T s ls = Some (s', o) ->
    quick (retries (tr ++ o)).
  Proof.
    induction ls as [|l ls IH]; intros s s' o tr Sa Q R H.
    - inversion H; subst. rewrite app_nil_r. exact Q.
    - rewrite trun_cons in H. destruct (tstep c T s l) as [[s1 o1]|] eqn:E; [|discriminate]. destruct (trun c T s1 ls) as [[s2 o2]|] eqn:E2; [|discriminate].
      inversion H; subst. inversion Sa; subst. destruct (attempts_step _ _ _ _ _ H2 Q R E) as [Q1 R1]. rewrite app_assoc. exact (IH _ _ _ _ H3 Q1 R1 E2).
  Qed.
End Attempts.

(** Every attempt of the retry goroutine ends at most [T] after it began, and so at most [T] after the batch's time to live. *)
Lemma attempts_end c T cap start ls w now tr : (1 <= wc_size c)%nat -> 0 <= cap -> 0 < T -> Forall sane ls ->
  trun c T (newWorker cap start, start) ls = Some ((w, now), tr) ->
  forall l1 te a o l2, retries tr = l1 ++ OEnd te a o :: l2 ->
    exists l0 t t0, l1 = l0 ++ [OStart t a] /\ t <= te <= t + T /\ In (OAdd t0 a) l0 /\ t0 <= t /\ te <= t0 + wc_ttl c + T.
Proof.
  intros Hs Hc HT Sa R l1 te a o l2 E.
  assert (Q : quick T (retries ([] ++ tr))).
  { eapply attempts_run; [exact HT|exact Sa| | |exact R]; [intros k1 te0 b0 o0 k2 X; destruct k1; discriminate X|intros b X; discriminate X]. }
  destruct (run_untimed _ _ _ _ _ _ R) as [ms M]. cbn [fst] in M.
  destruct (pair_timed c Hs cap start ms w tr Hc M) as [W _].
  destruct (Q _ _ _ _ _ E) as (l0 & t & -> & Lq).
  rewrite <- app_assoc in E. cbn [app] in E. destruct (W l0 t a (OEnd te a o :: l2) E) as [(t0 & J & L) [X|(te' & o' & l3 & X & Lt & _)]]; [discriminate X|].
  inversion X; subst. exists l0, t, t0. split; [reflexivity|]. split; [lia|]. split; [exact J|]. split; lia.
Qed.

(** ** A write which timed out *)
Lemma not_again c T cap start ls w now tr : (1 <= wc_size c)%nat -> 0 <= cap -> wc_retry c <= 0 ->
  trun c T (newWorker cap start, start) ls = Some ((w, now), tr) ->
  forall l1 k b r l2, posts tr = l1 ++ ((k, b), r) :: l2 -> ~ In k (map (fun p => fst (fst p)) (l1 ++ l2)) /\ retries tr = [].
Proof.
  intros Hs Hc Hr R l1 k b r l2 E. destruct (run_untimed _ _ _ _ _ _ R) as [ms M]. cbn [fst] in M.
  split; [|exact (proj1 (pair_off c Hs cap start ms w tr Hc Hr M))].
  destruct (all_run c Hs cap start ms w tr Hc M) as (W & _ & _). pose proof (wi_n _ _ _ W) as N. pose proof (seq_NoDup (w_n w) 0) as D.
  rewrite <- N, E, map_app in D. cbn [map fst] in D. rewrite map_app. apply NoDup_remove_2 in D. exact D.
Qed.

Lemma kept_on c T cap start ls w now tr : (1 <= wc_size c)%nat -> 0 <= cap -> 1 <= wc_retry c ->
  trun c T (newWorker cap start, start) ls = Some ((w, now), tr) ->
  forall a, In (a, NoResponse) (posts tr) ->
    In a (passing w ++ map rb_buf (r_q (w_retry w)) ++ delivered (retries tr) ++ rejected (retries tr) ++ expired (retries tr) ++ evicted (retries tr)).
Proof.
  intros Hs Hc Hr R a J. destruct (run_untimed _ _ _ _ _ _ R) as [ms M]. cbn [fst] in M.
  destruct (pair_account c Hs cap start ms w tr a NoResponse Hc Hr M J) as [(code & X & _)|[X|X]]; [discriminate X| |].
  - rewrite !in_app_iff. tauto.
  - rewrite !in_app_iff in *. tauto.
Qed.

(** ** No timeout *)
Definition silent (l : tlabel) : Prop := match l with TPost a | TRetry a => a = Silent | TMove _ => True end.

Lemma stuck_step c T s l s' o rest : T <= 0 -> silent l -> w_pc (fst s) = WSend rest -> tstep c T s l = Some (s', o) ->
  w_pc (fst s') = WSend rest /\ w_received (fst s') = w_received (fst s) /\ messages o = [] /\ posts o = [].
Proof.
  destruct s as [w now]. cbn [fst]. intros HT Si P H. destruct l as [a|a|m]; cbn [tstep] in H.
  - cbn in Si. subst a. rewrite (do_forever T HT) in H. discriminate H.
  - cbn in Si. subst a. rewrite (do_forever T HT) in H. discriminate H.
  - destruct (result m) eqn:Rm; [discriminate|].
    assert (E : wstep c w m = Some (fst s', o)).
    { destruct (span m) as [[t t']|]; [destruct (_ && _) in H; [|discriminate]|]; destruct (wstep c w m) as [[w' o']|]; try discriminate H; inversion H; subst; reflexivity. }
    clear H. unfold wstep in E. rewrite P in E.
    destruct m as [t t' data|t'|t'|t'|r t|t| | | |t t'|l']; try discriminate Rm; try discriminate E.
    + inversion E; subst. cbn. auto.
    + destruct (0 <? wc_retry c); [|discriminate]. destruct (w_chan w) as [a|]; [|discriminate].
      destruct (retry_step c (w_retry w) (LIn t t' a)) as [[r' o']|]; [|discriminate]. inversion E; subst. rewrite vretry_msgs, vretry_posts. auto.
    + destruct (_ && _) in E; [|discriminate]. destruct (retry_step c (w_retry w) l') as [[r' o']|]; [|discriminate].
      inversion E; subst. rewrite vretry_msgs, vretry_posts. auto.
Qed.
Lemma stuck c T rest : T <= 0 -> forall ls s s' o, Forall silent ls -> w_pc (fst s) = WSend rest -> trun c T s ls = Some (s', o) ->
  w_pc (fst s') = WSend rest /\ w_received (fst s') = w_received (fst s) /\ messages o = [] /\ posts o = [].
Proof.
  intros HT. induction ls as [|l ls IH]; intros s s' o Si P H.
  - inversion H; subst. auto.
  - rewrite trun_cons in H. destruct (tstep c T s l) as [[s1 o1]|] eqn:E; [|discriminate]. destruct (trun c T s1 ls) as [[s2 o2]|] eqn:E2; [|discriminate].
    inversion H; subst. inversion Si; subst. destruct (stuck_step _ _ _ _ _ _ _ HT H2 P E) as (P1 & R1 & M1 & Q1).
    destruct (IH _ _ _ H3 P1 E2) as (P2 & R2 & M2 & Q2). split; [exact P2|]. split; [congruence|]. rewrite messages_app, posts_app, M1, M2, Q1, Q2. auto.
Qed.

(** ** Configuration *)
(** The same configuration (config/config.go:36-71) with another write_timeout. *)
Definition set_timeout (v : Z) (c : cfg) : cfg :=
  {| c_name := c_name c; c_mode := c_mode c; c_nats_address := c_nats_address c; c_subjects := c_subjects c; c_subject_monitor := c_subject_monitor c; c_subject_junk := c_subject_junk c; c_db_address := c_db_address c; c_db_protocol := c_db_protocol c; c_db_port := c_db_port c; c_db_user := c_db_user c; c_db_pass := c_db_pass c; c_db_name := c_db_name c; c_batch_count := c_batch_count c; c_batch_size := c_batch_size c; c_batch_age := c_batch_age c; c_port := c_port c; c_workers := c_workers c; c_write_timeout := v; c_retry_batches := c_retry_batches c; c_retry_interval := c_retry_interval c; c_retry_timeout := c_retry_timeout c; c_read_buffer := c_read_buffer c; c_max_pending := c_max_pending c; c_rules := c_rules c; c_max_time_delta := c_max_time_delta c; c_stats_interval := c_stats_interval c; c_probe_port := c_probe_port c; c_pprof_port := c_pprof_port c; c_debug := c_debug c; c_period := c_period c; c_suffix := c_suffix c; c_queue_group := c_queue_group c |}.
(** config/validation.go does not look at it. *)
Lemma timeout_unchecked v c : Validate (set_timeout v c) = Validate c.
Proof. reflexivity. Qed.
