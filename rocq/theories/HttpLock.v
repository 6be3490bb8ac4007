(** The HTTP listener with its mutex: the body of a request with nanosecond timestamps is read from the network while the
    mutex is held. *)
From Verif Require Import Base Timestamps NumProofs Splitter SplitterProofs Batch BatchSpec BatchProofs LinesSpec Listener ListenerSpec ListenerProofs HttpProofs.
Local Open Scope Z_scope.

(** A request inside readHTTPBodyNanos (listener/listener.go:282-286): its number, the batch as it is in memory, what its
    client has still to send, how the network will deliver that, and what was read so far. *)
Record held := Held { k_req : nat; k_batch : batch; k_body : bytes; k_sched : list (nat * rerr); k_total : bytes }.

(** Where the age checking goroutine is (listener/listener.go:229-247): about to take the mutex to compute its waiting
    time (since when), or in its select, or past it, about to take the mutex to send (the timer's time). *)
Inductive sender := SCompute (since : Z) | SWait (wake : Z).

(** The state of Listener.v (its h_wake is not used) with mutex and age checking goroutine.  While the mutex is held by
    readHTTPBodyNanos the batch is the one in [k_batch]. *)
Record lkstate := mkK { lk_h : hstate; lk_lock : option held; lk_sender : sender }.

(** Steps, each with its time: request [i] takes the mutex in readHTTPBodyNanos; one call of Read made while holding it; another
    section of request [i]; the two sections of the age checking goroutine.  A step of which [lk_step] makes None is not
    possible (blocked). *)
Inductive lklabel := KAcquire (i : nat) | KRead (i : nat) | KReq (i : nat) | KWake | KCompute.

Section Lock.
  Variable pubfail : nat -> bool.
  Variable c : lconf.

  (** listener/listener.go:251-263: what follows readHTTPBodyNanos. *)
  Definition nanos_done (h : hstate) (i : nat) (b : batch) (tot : bytes) (e : bool) : hstate :=
    match tot with
    | [] => mkH (inc_read_errors (set_batch (h_l h) b) e) (set_nth i (RDone false) (h_reqs h)) (h_log h) (h_wake h)
    | _ => mkH (inc_received (set_batch (h_l h) b)) (set_nth i (RMaybe e) (h_reqs h)) (h_log h ++ [(i, tot)]) (h_wake h)
    end.

  (** batch/batch.go:109-126: one turn of the loop in ReadFrom. *)
  Definition read_step (f : lkstate) (k : held) (t : Z) : option lkstate :=
    match k_sched k with
    | [] => None
    | (m, err) :: sched =>
        let b := growIfLow (k_batch k) in
        let n := Nat.min m (Z.to_nat (Remaining b)) in
        let got := firstn n (k_body k) in
        let b := extend b got in
        let body := skipn n (k_body k) in
        let tot := k_total k ++ got in
        match (match err, body with EEOF, _ :: _ => ENone | _, _ => err end) with
        | ENone => Some (mkK (lk_h f) (Some (Held (k_req k) b body sched tot)) (lk_sender f))
        | _ =>
            let b := match tot with [] => b | _ => countWrite b t end in
            Some (mkK (nanos_done (lk_h f) (k_req k) b tot (match err with EEOF | ENone => false | _ => true end)) None (lk_sender f))
        end
    end.

  Definition lk_step (f : lkstate) (lab : lklabel * Z) : option lkstate :=
    let t := snd lab in
    let h := lk_h f in
    match fst lab with
    | KAcquire i =>
        match lk_lock f, nth_error (h_reqs h) i with
        | None, Some (RNanos body sched) => Some (mkK h (Some (Held i (ls_batch (h_l h)) body sched [])) (lk_sender f))
        | _, _ => None
        end
    | KRead i =>
        match lk_lock f with
        | Some k => if Nat.eqb (k_req k) i then read_step f k t else None
        | None => None
        end
    | KReq i =>
        match nth_error (h_reqs h) i, lk_lock f with
        | Some (RLines [] _ _), _ => Some (mkK (req_step pubfail c h i t) (lk_lock f) (lk_sender f))
        | Some (RLines (_ :: _) _ _), None | Some (RMaybe _), None => Some (mkK (req_step pubfail c h i t) None (lk_sender f))
        | _, _ => None
        end
    | KWake =>
        match lk_lock f, lk_sender f with
        | None, SWait w =>
            if w <=? t then
              let l := if lc_max_age c <=? Age (ls_batch (h_l h)) t then sendBatch pubfail (h_l h) t else h_l h in
              Some (mkK (mkH l (h_reqs h) (h_log h) (h_wake h)) None (SCompute t))
            else None
        | _, _ => None
        end
    | KCompute =>
        match lk_lock f, lk_sender f with
        | None, SCompute _ => Some (mkK h None (SWait (t + (lc_max_age c - Age (ls_batch (h_l h)) t))))
        | _, _ => None
        end
    end.

  Fixpoint lk_run (f : lkstate) (labs : list (lklabel * Z)) : option lkstate :=
    match labs with
    | [] => Some f
    | lab :: labs' => match lk_step f lab with Some f' => lk_run f' labs' | None => None end
    end.

  (** listener/listener.go:213-224. *)
  Definition lk_init (t0 : Z) (qs : list hreq) : lkstate := mkK (hinit c t0 qs) None (SCompute t0).
End Lock.

(** Times that do not go backwards. *)
Fixpoint in_order {A} (t : Z) (labs : list (A * Z)) : Prop :=
  match labs with [] => True | (_, t') :: labs' => t <= t' /\ in_order t' labs' end.

(** The age checking goroutine never waits more than [slack] for the processor and the mutex: after its timer (or after its
    sending) the next section has been run within that time, as far as the history goes. *)
Definition overdue (s : sender) (t : Z) : Z := match s with SCompute since => t - since | SWait w => t - w end.
Fixpoint prompt (pf : nat -> bool) (c : lconf) (slack : Z) (f : lkstate) (labs : list (lklabel * Z)) : Prop :=
  match labs with
  | [] => True
  | lab :: labs' => overdue (lk_sender f) (snd lab) <= slack /\
      match lk_step pf c f lab with Some f' => prompt pf c slack f' labs' | None => True end
  end.

(* ------------------------------------------------------------------ *)

Definition same_but_wake (a b : hstate) : Prop := h_l a = h_l b /\ h_reqs a = h_reqs b /\ h_log a = h_log b.

Lemma req_step_same pf c a b i t : same_but_wake a b -> same_but_wake (req_step pf c a i t) (req_step pf c b i t).
Proof.
  destruct a as [l r g w], b as [l' r' g' w']. intros (E1 & E2 & E3). cbn in *. subst. unfold req_step, same_but_wake. cbn [h_l h_reqs h_log h_wake].
  destruct (nth_error r' i) as [[body sched|[|x segs] some e|e|got]|]; cbn; auto.
  - destruct (ReadFrom _ _ _ _) as [[[[b tot] rest] e]|]; cbn; auto. destruct tot; cbn; auto.
  - destruct some; cbn; auto.
Qed.

(** What the holder has done so far is the beginning of its ReadFrom. *)
Definition lock_ok (f : lkstate) : Prop :=
  match lk_lock f with
  | None => True
  | Some k => exists body sched, nth_error (h_reqs (lk_h f)) (k_req k) = Some (RNanos body sched) /\
      forall t, ReadFrom (ls_batch (h_l (lk_h f))) body sched t = ReadFrom_loop (k_batch k) (k_body k) (k_sched k) (k_total k) t
  end.

Lemma lk_step_coarse pf c f lab f' : lk_step pf c f lab = Some f' -> lock_ok f ->
  lock_ok f' /\ (same_but_wake (lk_h f') (lk_h f) \/
    exists l, same_but_wake (lk_h f') (hstep pf c (lk_h f) (l, snd lab)) /\ (l = LAge -> fst lab = KWake)) /\
  (fst lab <> KWake -> fst lab <> KCompute -> lk_sender f' = lk_sender f).
Proof.
  destruct f as [h lk sn]. destruct lab as [lab t]. unfold lk_step, lock_ok. cbn [fst snd lk_h lk_lock lk_sender]. intros H Ok. destruct lab as [i|i|i| |].
  - destruct lk; [discriminate|]. destruct (nth_error (h_reqs h) i) as [[body sched|? ? ?|?|?]|] eqn:E; try discriminate. inversion H; subst. cbn [lk_lock lk_h].
    split; [|split; [left; repeat split|reflexivity]]. exists body, sched. split; auto.
  - destruct lk as [k|]; [|discriminate]. destruct (Nat.eqb_spec (k_req k) i) as [Ei|]; [|discriminate]. destruct Ok as (body & sched & Hn & Hr).
    unfold read_step in H. cbn [lk_h lk_sender] in H. destruct (k_sched k) as [|[m err] sched'] eqn:Es; [discriminate|].
    set (b := growIfLow (k_batch k)) in *. set (n := Nat.min m (Z.to_nat (Remaining b))) in *.
    assert (Step : forall t0, ReadFrom_loop (k_batch k) (k_body k) ((m, err) :: sched') (k_total k) t0 =
      match (match err, skipn n (k_body k) with EEOF, _ :: _ => ENone | _, _ => err end) with
      | ENone => ReadFrom_loop (extend b (firstn n (k_body k))) (skipn n (k_body k)) sched' (k_total k ++ firstn n (k_body k)) t0
      | _ => Some (match k_total k ++ firstn n (k_body k) with [] => extend b (firstn n (k_body k)) | _ => countWrite (extend b (firstn n (k_body k))) t0 end,
              k_total k ++ firstn n (k_body k), skipn n (k_body k), match err with EEOF => ENone | e => e end)
      end) by (intros t0; reflexivity).
    destruct (match err, skipn n (k_body k) with EEOF, _ :: _ => ENone | _, _ => err end) eqn:Ee.
    1: { inversion H; subst f'. cbn [lk_lock lk_h]. split; [|split; [left; repeat split|reflexivity]]. exists body, sched. cbn [k_req k_batch k_body k_sched k_total].
         split; auto. intros t0. rewrite Hr, Step. reflexivity. }
    all: inversion H; subst f'; clear H; cbn [lk_lock lk_h]; (split; [exact Logic.I|]); (split; [|reflexivity]); right; exists (LReq i); (split; [|discriminate]); unfold hstep; cbn [fst snd];
      unfold req_step; subst i; rewrite Hn, Hr, Step; unfold nanos_done;
      (assert (Eb : (match err with EEOF | ENone => false | _ => true end) = match (match err with EEOF => ENone | e => e end) with ENone => false | _ => true end) by (destruct err; reflexivity));
      rewrite <- Eb; destruct (k_total k ++ firstn n (k_body k)); repeat split; reflexivity.
  - assert (Other : forall h', same_but_wake h' (req_step pf c h i t) -> exists l, same_but_wake h' (hstep pf c h (l, t)) /\ (l = LAge -> KReq i = KWake)) by (intros h' S0; exists (LReq i); split; [exact S0|discriminate]).
    destruct (nth_error (h_reqs h) i) as [[body sched|[|x segs] some e|e|got]|] eqn:E; try discriminate.
    + inversion H; subst f'. cbn [lk_lock lk_h]. split; [|split; [right; apply Other; repeat split|reflexivity]].
      destruct lk as [k|]; auto. destruct Ok as (body & sched & Hn & Hr). exists body, sched.
      assert (Ni : i <> k_req k) by (intros ->; congruence). unfold req_step. rewrite E.
      split; [|destruct some; cbn; exact Hr].
      destruct some; cbn [h_reqs]; rewrite nth_set_nth; destruct (Nat.eqb_spec i (k_req k)); congruence.
    + destruct lk; [discriminate|]. inversion H; subst f'. split; [exact Logic.I|split; [right; apply Other; repeat split|reflexivity]].
    + destruct lk; [discriminate|]. inversion H; subst f'. split; [exact Logic.I|split; [right; apply Other; repeat split|reflexivity]].
  - destruct lk; [discriminate|]. destruct sn as [s0|w]; [discriminate|]. destruct (w <=? t); [|discriminate]. inversion H; subst f'. cbn [lk_lock lk_h].
    split; [exact Logic.I|]. split; [|congruence]. right. exists LAge. split; [|auto]. unfold hstep, age_step, same_but_wake. cbn. auto.
  - destruct lk; [discriminate|]. destruct sn as [s0|w]; [|discriminate]. inversion H; subst f'. split; [exact Logic.I|split; [left; repeat split|congruence]].
Qed.

Lemma hstep_same pf c a b lab : same_but_wake a b -> same_but_wake (hstep pf c a lab) (hstep pf c b lab).
Proof.
  intros S0. unfold hstep. destruct (fst lab); [apply req_step_same; auto|]. destruct a as [l r g w], b as [l' r' g' w']. destruct S0 as (E1 & E2 & E3). cbn in *. subst.
  unfold age_step, same_but_wake. cbn. auto.
Qed.

Lemma same_trans a b d : same_but_wake a b -> same_but_wake b d -> same_but_wake a d.
Proof. unfold same_but_wake. intuition congruence. Qed.

(** Every execution with the mutex is one of Listener.v, where a body is read in one step. *)
Theorem lock_refines pf c t0 qs labs f : lk_run pf c (lk_init c t0 qs) labs = Some f -> in_order t0 labs ->
  exists clabs, same_but_wake (lk_h f) (hrun pf c (hinit c t0 qs) clabs) /\ monotone t0 clabs.
Proof.
  assert (G : forall labs f0 h0 t, lk_run pf c f0 labs = Some f -> lock_ok f0 -> same_but_wake (lk_h f0) h0 -> in_order t labs ->
    exists clabs, same_but_wake (lk_h f) (hrun pf c h0 clabs) /\ monotone t clabs).
  { induction labs0 as [|[lab t'] labs0 IH]; intros f0 h0 t R Ok Sm Or; cbn [lk_run] in R.
    - inversion R; subst. exists []. split; [exact Sm|exact Logic.I].
    - destruct (lk_step pf c f0 (lab, t')) as [f1|] eqn:E; [|discriminate]. destruct Or as [O1 O2].
      destruct (lk_step_coarse pf c f0 _ f1 E Ok) as [Ok1 [[S1|(l & S1 & _)] _]].
      + destruct (IH f1 h0 t' R Ok1 (same_trans _ _ _ S1 Sm) O2) as (clabs & A & B). exists clabs. split; auto.
        destruct clabs as [|[l0 t1] cl]; auto. destruct B as [B1 B2]. split; [lia|auto].
      + cbn [snd] in S1. destruct (IH f1 (hstep pf c h0 (l, t')) t' R Ok1) as (clabs & A & B); auto.
        { eapply same_trans; [exact S1|]. apply hstep_same. exact Sm. }
        exists ((l, t') :: clabs). split; auto. split; auto. }
  intros R Or. apply (G labs (lk_init c t0 qs) (hinit c t0 qs) t0); auto; repeat split.
Qed.

(** While a client's body is being read, nothing is published, no other request gets data into the batch or is answered
    with data, and the age checking goroutine does nothing. *)
Theorem stalled pf c f labs f' k : lk_run pf c f labs = Some f' -> lk_lock f = Some k -> (forall t, ~ In (KRead (k_req k), t) labs) ->
  ls_pub (h_l (lk_h f')) = ls_pub (h_l (lk_h f)) /\ h_log (lk_h f') = h_log (lk_h f) /\ lk_lock f' = Some k /\ lk_sender f' = lk_sender f /\
  ls_batch (h_l (lk_h f')) = ls_batch (h_l (lk_h f)) /\
  forall i, nth_error (h_reqs (lk_h f')) i = Some (RDone true) -> nth_error (h_reqs (lk_h f)) i = Some (RDone true).
Proof.
  revert f. induction labs as [|[lab t] labs IH]; intros f R L N; cbn [lk_run] in R; [inversion R; subst; auto 10|].
  destruct (lk_step pf c f (lab, t)) as [f1|] eqn:E; [|discriminate].
  assert (Key : ls_pub (h_l (lk_h f1)) = ls_pub (h_l (lk_h f)) /\ h_log (lk_h f1) = h_log (lk_h f) /\ lk_lock f1 = Some k /\ lk_sender f1 = lk_sender f /\
    ls_batch (h_l (lk_h f1)) = ls_batch (h_l (lk_h f)) /\
    forall i, nth_error (h_reqs (lk_h f1)) i = Some (RDone true) -> nth_error (h_reqs (lk_h f)) i = Some (RDone true)).
  { unfold lk_step in E. cbn [fst snd] in E. rewrite L in E. destruct lab as [i|i|i| |]; try discriminate.
    - destruct (Nat.eqb_spec (k_req k) i) as [<-|]; [|discriminate]. exfalso. apply (N t). left. reflexivity.
    - destruct (nth_error (h_reqs (lk_h f)) i) as [[body sched|[|x segs] some e|e|got]|] eqn:En; try discriminate. inversion E; subst f1. cbn [lk_h lk_lock lk_sender].
      unfold req_step. rewrite En. destruct some; cbn; repeat split; auto; intros j; rewrite nth_set_nth; destruct (Nat.eqb_spec i j) as [<-|]; auto; rewrite En; intros X; inversion X. }
  destruct Key as (A & B & C & D & G & H). destruct (IH f1 R C) as (A' & B' & C' & D' & G' & H'). { intros t1 I. apply (N t1). right. exact I. }
  rewrite A', B', D', G'. rewrite A, B, D, G. repeat split; auto.
Qed.

(** With bodies in other precisions only, the mutex is free between the steps. *)
Definition converted (q : hreq) : Prop := q_precision q <> [] /\ q_precision q <> lit "ns".

Definition no_nanos (f : lkstate) : Prop := lk_lock f = None /\ forall r, In r (h_reqs (lk_h f)) -> match r with RNanos _ _ => False | _ => True end.

Lemma in_set_nth {A} (l : list A) i x y : In y (set_nth i x l) -> y = x \/ In y l.
Proof. revert i. induction l as [|z l IH]; intros [|i] H; cbn in *; auto; destruct H as [H|H]; auto. destruct (IH i H); auto. Qed.

Lemma no_nanos_step pf c f lab f' : lk_step pf c f lab = Some f' -> no_nanos f -> no_nanos f'.
Proof.
  destruct f as [h lk sn]. destruct lab as [lab t]. unfold lk_step, no_nanos. cbn [fst snd lk_h lk_lock lk_sender]. intros H [-> N]. destruct lab as [i|i|i| |]; try discriminate.
  - destruct (nth_error (h_reqs h) i) as [[body sched|? ? ?|?|?]|] eqn:E; try discriminate. destruct (N _ (nth_error_In _ _ E)).
  - destruct (nth_error (h_reqs h) i) as [[body sched|[|x segs] some e|e|got]|] eqn:E; try discriminate; inversion H; subst f'; (split; [reflexivity|]); cbn [lk_h];
      unfold req_step; rewrite E; [destruct some| |]; cbn [h_reqs]; intros r I; apply in_set_nth in I; (destruct I as [->|I]; [exact Logic.I|exact (N r I)]).
  - destruct sn as [s0|w]; [discriminate|]. destruct (w <=? t); [|discriminate]. inversion H; subst f'. split; [reflexivity|exact N].
  - destruct sn as [s0|w]; [|discriminate]. inversion H; subst f'. split; [reflexivity|exact N].
Qed.

Theorem never_held pf c t0 qs labs f : Forall converted qs -> lk_run pf c (lk_init c t0 qs) labs = Some f -> lk_lock f = None.
Proof.
  intros F. assert (N0 : no_nanos (lk_init c t0 qs)).
  { split; [reflexivity|]. cbn. intros r I. apply in_map_iff in I. destruct I as (q & <- & I). rewrite Forall_forall in F. destruct (F q I) as [A B].
    unfold start_req. rewrite (proj2 (beqs_neq _ _) A), (proj2 (beqs_neq _ _) B). cbn [orb]. destruct (scan_tokens _ _). exact Logic.I. }
  revert N0. generalize (lk_init c t0 qs). induction labs as [|lab labs IH]; intros f0 N0 R; cbn [lk_run] in R; [inversion R; subst; exact (proj1 N0)|].
  destruct (lk_step pf c f0 lab) as [f1|] eqn:E; [|discriminate]. apply (IH f1); auto. eapply no_nanos_step; eauto.
Qed.

(** When the mutex is free the age checking goroutine can take its next step. *)
Theorem sender_ready pf c f t : lk_lock f = None -> 0 <= overdue (lk_sender f) t ->
  exists f', lk_step pf c f (match lk_sender f with SCompute _ => KCompute | SWait _ => KWake end, t) = Some f'.
Proof.
  intros L O. unfold lk_step. cbn [fst snd]. rewrite L. destruct (lk_sender f) as [s0|w]; cbn in O; [eauto|]. destruct (Z.leb_spec w t); [eauto|lia].
Qed.

Lemma same_sym a b : same_but_wake a b -> same_but_wake b a.
Proof. unfold same_but_wake. intuition congruence. Qed.

(** The age bound, with the delays of the age checking goroutine. *)
Definition shown_wake (s : sender) : Z := match s with SCompute since => since | SWait w => w end.
Definition pseudo (f : lkstate) : hstate := mkH (h_l (lk_h f)) (h_reqs (lk_h f)) (h_log (lk_h f)) (shown_wake (lk_sender f)).

Lemma req_step_wake pf c h i t : h_wake (req_step pf c h i t) = h_wake h.
Proof.
  unfold req_step. destruct (nth_error (h_reqs h) i) as [[body sched|[|x segs] some e|e|got]|]; auto.
  - destruct (ReadFrom _ _ _ _) as [[[[b tot] rest] e]|]; auto. destruct tot; auto.
  - destruct some; auto.
Qed.

Lemma same_eq a b : same_but_wake a b -> h_wake a = h_wake b -> a = b.
Proof. destruct a, b. intros (A & B & D) E. cbn in *. congruence. Qed.

Theorem lock_age pf c slack t0 qs : 0 <= lc_max_size c -> 0 <= lc_max_age c -> 0 <= slack -> forall labs now f,
  lk_run pf c (lk_init c t0 qs) labs = Some f -> in_order t0 (labs ++ [(KWake, now)]) ->
  prompt pf c slack (lk_init c t0 qs) (labs ++ [(KWake, now)]) ->
  Age (ls_batch (h_l (lk_h f))) now <= lc_max_age c + slack.
Proof.
  intros Hc Ha Hs labs now f.
  assert (G : forall labs f0 t, lk_run pf c f0 labs = Some f -> lock_ok f0 -> (exists cl, same_but_wake (lk_h f0) (hrun pf c (hinit c t0 qs) cl)) ->
    tinv c (pseudo f0) t -> in_order t (labs ++ [(KWake, now)]) -> prompt pf c slack f0 (labs ++ [(KWake, now)]) ->
    Age (ls_batch (h_l (lk_h f))) now <= lc_max_age c + slack).
  { induction labs0 as [|[lab t'] labs0 IH]; intros f0 t R Ok Rc T Or Pr; cbn [lk_run app] in *.
    - inversion R; subst f0. destruct Or as [O1 _]. destruct Pr as [P1 _]. cbn [snd] in P1. destruct T as [T1 T2 T3 T4]. cbn [pseudo h_l h_wake] in *.
      assert (Ov : now - shown_wake (lk_sender f) <= slack) by (destruct (lk_sender f); exact P1).
      unfold Age. destruct (Z.leb_spec (b_writes (ls_batch (h_l (lk_h f)))) 0); [lia|]. specialize (T3 ltac:(lia)). lia.
    - destruct Or as [O1 O2]. destruct Pr as [P1 P2]. destruct (lk_step pf c f0 (lab, t')) as [f1|] eqn:E; [|discriminate].
      destruct (lk_step_coarse pf c f0 _ f1 E Ok) as (Ok1 & S1 & Sd). cbn [fst snd] in S1, Sd.
      assert (Rc1 : exists cl, same_but_wake (lk_h f1) (hrun pf c (hinit c t0 qs) cl)).
      { destruct Rc as (cl & Rc). destruct S1 as [S1|(l & S1 & _)]; [exists cl; eapply same_trans; eauto|].
        exists (cl ++ [(l, t')]). unfold hrun. rewrite fold_left_app. cbn [fold_left]. eapply same_trans; [exact S1|]. apply hstep_same. exact Rc. }
      apply (IH f1 t'); auto. clear IH P2 O2 R labs0 P1. assert (T' : tinv c (pseudo f0) t') by (eapply tinv_mono; eauto). clear T.
      destruct (match lab with KWake => true | KCompute => true | _ => false end) eqn:El.
      + destruct lab; try discriminate; unfold lk_step in E; cbn [fst snd] in E; destruct (lk_lock f0); try discriminate; destruct (lk_sender f0) as [s0|w] eqn:Es0; try discriminate.
        * destruct (Z.leb_spec w t') as [Lw|]; [|discriminate]. inversion E; subst f1. clear E. unfold pseudo in *. cbn [lk_h lk_sender h_l h_reqs h_log shown_wake] in *.
          destruct Rc as (cl & Rc). destruct (hrun_rel pf c t0 qs cl Hc) as [(g & p & A) _ _ _ _ _]. destruct Rc as (Rl & _ & _). rewrite <- Rl in A.
          destruct A as (A1 & A2 & A3 & A4 & _). 
          rewrite Es0 in T'. cbn [shown_wake] in T'. pose proof T' as [T1 T2 T3 T4]. cbn [h_l h_wake] in T1, T2, T3, T4. set (l := h_l (lk_h f0)) in *.
          destruct (Z.leb_spec (lc_max_age c) (Age (ls_batch l) t')) as [Old|Young].
          -- destruct (Z.ltb_spec 0 (b_writes (ls_batch l))) as [W|W].
             ++ assert (Ne : b_buf (ls_batch l) <> []). { rewrite A2. destruct p as [|x p]; [cbn in A3; lia|]. inversion A4 as [|? ? X]; subst. destruct x; [congruence|discriminate]. }
                assert (Eb : ls_batch (sendBatch pf l t') = Reset (ls_batch l) t').
                { unfold sendBatch, Size. destruct (b_buf (ls_batch l)) as [|y ys] eqn:Eb; [congruence|]. cbn [length]. destruct (Z.ltb_spec (Z.of_nat (S (length ys))) 1); [lia|].
                  unfold set_batch; cbn [ls_batch]. rewrite publish_fold_batch. reflexivity. }
                constructor; cbn [h_l h_wake]; rewrite ?Eb.
                ** destruct T1 as (?&?&?). unfold Reset, Inv, Size; simpl. lia.
                ** unfold Reset; simpl; lia.
                ** unfold Reset; simpl; lia.
                ** lia.
             ++ destruct (sendBatch_cases pf l t') as [Eb|Eb]; constructor; cbn [h_l h_wake]; rewrite ?Eb; auto; try (unfold Reset; simpl; lia); try lia.
                destruct T1 as (?&?&?). unfold Reset, Inv, Size; simpl. lia.
          -- constructor; cbn [h_l h_wake]; auto; [|lia]. intros W. unfold Age in Young. destruct (Z.leb_spec (b_writes (ls_batch l)) 0); lia.
        * inversion E; subst f1. clear E. unfold pseudo in *. cbn [lk_h lk_sender h_l h_reqs h_log shown_wake] in *. rewrite Es0 in T'.
          destruct T' as [T1 T2 T3 T4]. cbn [h_l h_wake shown_wake] in *. set (l := h_l (lk_h f0)) in *.
          constructor; cbn [h_l h_wake]; auto; unfold Age.
          -- intros W. destruct (Z.leb_spec (b_writes (ls_batch l)) 0); lia.
          -- destruct (Z.leb_spec (b_writes (ls_batch l)) 0); [lia|]. specialize (T2 ltac:(lia)). lia.
      + assert (Se : lk_sender f1 = lk_sender f0) by (apply Sd; intros ->; discriminate).
        destruct S1 as [S1|(l & S1 & Ag)].
        * replace (pseudo f1) with (pseudo f0); auto. apply same_eq; [|cbn; rewrite Se; reflexivity]. destruct S1 as (A & B & D). repeat split; cbn; congruence.
        * destruct l as [i|]; [|rewrite (Ag eq_refl) in El; discriminate].
          replace (pseudo f1) with (hstep pf c (pseudo f0) (LReq i, t')); [apply (hstep_tinv pf c (pseudo f0) (LReq i, t') t'); [exact T'|cbn; lia]|].
          apply same_eq.
          -- apply (same_trans _ (hstep pf c (lk_h f0) (LReq i, t'))); [apply hstep_same; repeat split|].
             apply same_sym. destruct S1 as (A & B & D). repeat split; auto.
          -- unfold hstep. cbn [fst snd]. rewrite req_step_wake. cbn. rewrite Se. reflexivity. }
  intros R Or Pr. apply (G labs (lk_init c t0 qs) t0); auto.
  - exact Logic.I.
  - exists []. repeat split.
  - constructor; unfold pseudo, lk_init, hinit, newListener, New, Inv, Size; simpl; lia.
Qed.
