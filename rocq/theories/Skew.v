(** How the downsampler's acceptance window follows the clock: which lines are refused because of
    their timestamp when the worker keeps up with the clock, after a stall, and after the clock was
    set back (downsampler/assigner.go:41-173, downsampler/downsampler.go:139-180). *)
From Verif Require Import Base LinesSpec NumSpec Assigner AssignerSpec AssignerProofs Splitter DsProofs.
Local Open Scope Z_scope.

(** ** Specification, in terms of clock readings only *)

Section Skew.
  Variables (B E : Type).
  Variable newBucket : Z -> B.
  Variable addLine : B -> bytes -> B * list E.

  (** The clock readings of one turn of the worker loop, oldest first: one for each non-empty line of
      the message (assigner.go:101-104), then the one of Bytes (assigner.go:122). *)
  Definition readings (t : turn B) : list Z :=
    match t_in B t with None => [] | Some (data, clk) => map clk (seq 0 (length (full_lines data))) end ++ [t_now B t].

  (** The worker keeps up with the clock with a delay of at most [delta]: no reading of a turn lies
      before the end of the previous turn ([last]), and none lies more than [delta] after the end of
      the period which contains [last]. *)
  Inductive punctual (p delta : Z) : Z -> list (turn B) -> Prop :=
  | pu_nil last : punctual p delta last []
  | pu_cons last e t rest : period_end p last e ->
      Forall (fun r => last <= r <= e + delta) (readings t) ->
      punctual p delta (t_now B t) rest -> punctual p delta last (t :: rest).

  (** The last reading of a sequence of turns. *)
  Definition last_reading (now0 : Z) (turns : list (turn B)) : Z := fold_left (fun _ t => t_now B t) turns now0.

  (** The lines of a turn's message, each with its clock reading. *)
  Definition lines_read (t : turn B) : list (bytes * Z) :=
    match t_in B t with
    | None => []
    | Some (data, clk) => combine (full_lines data) (map clk (seq 0 (length (full_lines data))))
    end.

  (** The errors of a turn which starts in state [d]. *)
  Definition turn_errors (d : dstate B) (t : turn B) : list (uerr E) :=
    match t_in B t with None => [] | Some (data, clk) => snd (Update B E addLine (d_asg B d) data clk) end.

  Notation run := (worker_run B E newBucket addLine).
  Notation step := (worker_turn B E newBucket addLine).
  Notation start := (newWorker B newBucket).
  Notation Inv := (Inv B E newBucket addLine).

  (* ---------------------------------------------------------------- *)
  (** ** Proofs *)

  (** The end of a turn: the message of the emitted bucket, split and published. *)
  Lemma step_eq fail d t : exists chunks : option bytes -> list bytes, step fail d t =
    (let (a1, st1) :=
      match t_in B t with
      | None => (d_asg B d, d_st B d)
      | Some (data, clk) =>
          let s := d_st B d in
          let s := mkDS (d_received s + 1) (d_sent s) (d_invalid_lines s) (d_invalid_ts s) (d_failed s) (d_pub s) in
          let (a1, errs) := Update B E addLine (d_asg B d) data clk in
          (a1, fold_left (count_error E) errs s)
      end in
    let (a2, out) := emit B newBucket a1 (t_now B t) in
    let buf := match out with None => [] | Some eb => t_render B t eb end in
    match buf with
    | [] => mkD B a2 st1
    | _ =>
        let s := fold_left (dpublish fail) (chunks (Some buf)) st1 in
        mkD B a2 (mkDS (d_received s) (d_sent s + 1) (d_invalid_lines s) (d_invalid_ts s) (d_failed s) (d_pub s))
    end).
  Proof. exists (fun o => match o with None => [] | Some b => split_all dsMax b end). unfold worker_turn. reflexivity. Qed.

  Lemma step_asg fail d t : d_asg B (step fail d t) =
    fst (emit B newBucket (match t_in B t with None => d_asg B d | Some (data, clk) => fst (Update B E addLine (d_asg B d) data clk) end) (t_now B t)).
  Proof.
    destruct (step_eq fail d t) as (chunks & ->). destruct (t_in B t) as [[data clk]|].
    - destruct (Update B E addLine (d_asg B d) data clk) as [a1 errs]. cbn [fst].
      destruct (emit B newBucket a1 (t_now B t)) as [a2 [eb|]]; cbn [fst]; [destruct (t_render B t eb)|]; reflexivity.
    - destruct (emit B newBucket (d_asg B d) (t_now B t)) as [a2 [eb|]]; cbn [fst]; [destruct (t_render B t eb)|]; reflexivity.
  Qed.

  Lemma count_errors errs : forall s, d_invalid_ts (fold_left (count_error E) errs s) =
    d_invalid_ts s + Z.of_nat (length (filter (is_ts_error E) errs)).
  Proof.
    induction errs as [|e errs IH]; intros s; cbn [fold_left filter length]; [lia|].
    rewrite IH. destruct e; cbn [count_error is_ts_error d_invalid_ts length]; lia.
  Qed.

  Lemma publish_ts fail chunks : forall s, d_invalid_ts (fold_left (dpublish fail) chunks s) = d_invalid_ts s.
  Proof. induction chunks as [|c cs IH]; intros s; cbn [fold_left]; auto. rewrite IH. reflexivity. Qed.

  Lemma step_ts fail d t : d_invalid_ts (d_st B (step fail d t)) =
    d_invalid_ts (d_st B d) + Z.of_nat (length (filter (is_ts_error E) (turn_errors d t))).
  Proof.
    destruct (step_eq fail d t) as (chunks & ->). unfold turn_errors. destruct (t_in B t) as [[data clk]|].
    - destruct (Update B E addLine (d_asg B d) data clk) as [a1 errs]. cbn [snd].
      destruct (emit B newBucket a1 (t_now B t)) as [a2 o].
      destruct (match o with None => [] | Some eb => t_render B t eb end); cbn [d_st].
      + rewrite count_errors. reflexivity.
      + cbn [d_invalid_ts]. rewrite publish_ts, count_errors. reflexivity.
    - destruct (emit B newBucket (d_asg B d) (t_now B t)) as [a2 o].
      destruct (match o with None => [] | Some eb => t_render B t eb end); cbn [d_st filter length].
      + lia.
      + cbn [d_invalid_ts]. rewrite publish_ts. lia.
  Qed.

  Section Fix.
    Variables (p e0 : Z).
    Hypothesis Hp : 0 < p.
    Hypothesis Ha : (e0 + goEpoch) mod p = 0.
    Notation Invp := (Inv p e0).

    (** One turn: the errors of its message, and the state after it. *)
    Lemma turn_step fail d t k l : 0 <= k -> Invp (d_asg B d) k l ->
      exists l', takes B E newBucket addLine p e0 k l (lines_read t) (turn_errors d t) l' /\
        Invp (d_asg B (step fail d t)) (if t_now B t <? e0 + k * p then k else k + 1) l'.
    Proof.
      intros Hk I0. rewrite step_asg. unfold turn_errors, lines_read.
      assert (M : forall a l', Invp a k l' -> Invp (fst (emit B newBucket a (t_now B t))) (if t_now B t <? e0 + k * p then k else k + 1) l').
      { intros a l' [-> F]. unfold emit. cbn [a_curr a_next a_prev a_period slot fst].
        destruct (Z.ltb_spec (t_now B t) (e0 + k * p)) as [L|L]; cbn [fst]; [split; auto|]. split.
        - rewrite next_aligned by (auto; apply aligned_shift; auto).
          replace (k + 1 - 1) with k by lia. replace (k + 1 - 2) with (k - 1) by lia. f_equal; [| lia].
          unfold slot. replace (e0 + (k + 1 + 1) * p) with (e0 + (k + 1) * p + p) by lia. f_equal.
          unfold AssignerSpec.contents. replace (filter _ l') with (@nil (Z * bytes)); auto.
          symmetry. clear -F. induction F as [|x l Hx F IH]; auto. cbn [filter].
          replace ((e0 + (k + 1) * p + p - p <=? fst x) && (fst x <? e0 + (k + 1) * p + p)) with false by lia. auto.
        - eapply Forall_impl; [|exact F]. cbn beta. intros x Hx. nia. }
      destruct (t_in B t) as [[data clk]|].
      - unfold Update. destruct (update_lines_step B E newBucket addLine p e0 Hp Ha k Hk (Split data) (d_asg B d) l clk I0) as (l' & T & I').
        rewrite Split_lines in T. exists l'. split; [exact T|]. apply M. exact I'.
      - exists l. split; [constructor|]. apply M. exact I0.
    Qed.

    Lemma takes_old_in k l ps errs l' : takes B E newBucket addLine p e0 k l ps errs l' ->
      (forall line, In (UTooOld line) errs -> exists now ts body, In (line, now) ps /\ stamped line now ts body /\ ts < e0 + (k - 2) * p) /\
      (forall line, In (UTooNew line) errs -> exists now ts body, In (line, now) ps /\ stamped line now ts body /\ e0 + (k + 1) * p <= ts) /\
      (forall line now ts body, In (line, now) ps -> stamped line now ts body -> ts < e0 + (k - 2) * p -> In (UTooOld line) errs) /\
      (forall line now ts body, In (line, now) ps -> stamped line now ts body -> e0 + (k + 1) * p <= ts -> In (UTooNew line) errs).
    Proof.
      induction 1 as [l | l line now ts body rest errs l' St H0 H1 IH | l line now ts body rest errs l' St H0 H1 IH
                      | l line now ts body i rest errs l' St Hi H0 H1 IH].
      - split; [|split; [|split]]; cbn [In]; intros; contradiction.
      - destruct IH as (A1 & A2 & A3 & A4). split; [|split; [|split]].
        + intros x [X|X]; [injection X as <-; exists now, ts, body; cbn [In]; auto|].
          destruct (A1 x X) as (n & s & b & Y & Z & W). exists n, s, b. cbn [In]. auto.
        + intros x [X|X]; [discriminate|].
          destruct (A2 x X) as (n & s & b & Y & Z & W). exists n, s, b. cbn [In]. auto.
        + intros x n s b [X|X] Z W; [injection X as <- <-; left; reflexivity|right; eauto].
        + intros x n s b [X|X] Z W; [injection X as <- <-|right; eauto].
          destruct (stamped_fun B E newBucket addLine p e0 Hp line now ts body s b St Z) as [-> _]. nia.
      - destruct IH as (A1 & A2 & A3 & A4). split; [|split; [|split]].
        + intros x [X|X]; [discriminate|].
          destruct (A1 x X) as (n & s & b & Y & Z & W). exists n, s, b. cbn [In]. auto.
        + intros x [X|X]; [injection X as <-; exists now, ts, body; cbn [In]; auto|].
          destruct (A2 x X) as (n & s & b & Y & Z & W). exists n, s, b. cbn [In]. auto.
        + intros x n s b [X|X] Z W; [injection X as <- <-|right; eauto].
          destruct (stamped_fun B E newBucket addLine p e0 Hp line now ts body s b St Z) as [-> _]. nia.
        + intros x n s b [X|X] Z W; [injection X as <- <-; left; reflexivity|right; eauto].
      - destruct IH as (A1 & A2 & A3 & A4). split; [|split; [|split]].
        + intros x X. apply in_app_or in X. destruct X as [X|X].
          { apply in_map_iff in X. destruct X as (y & Y & _). discriminate. }
          destruct (A1 x X) as (n & s & b & Y & Z & W). exists n, s, b. cbn [In]. auto.
        + intros x X. apply in_app_or in X. destruct X as [X|X].
          { apply in_map_iff in X. destruct X as (y & Y & _). discriminate. }
          destruct (A2 x X) as (n & s & b & Y & Z & W). exists n, s, b. cbn [In]. auto.
        + intros x n s b [X|X] Z W; apply in_or_app; [injection X as <- <-|right; eauto].
          destruct (stamped_fun B E newBucket addLine p e0 Hp line now ts body s b St Z) as [-> _]. nia.
        + intros x n s b [X|X] Z W; apply in_or_app; [injection X as <- <-|right; eauto].
          destruct (stamped_fun B E newBucket addLine p e0 Hp line now ts body s b St Z) as [-> _]. nia.
    Qed.

    (** Every line of a message outside the window: all are refused, nothing is accepted. *)
    Lemma takes_all_new k l ps errs l' : takes B E newBucket addLine p e0 k l ps errs l' ->
      Forall (fun x => forall ts body, stamped (fst x) (snd x) ts body -> e0 + (k + 1) * p <= ts) ps ->
      errs = map (fun x => UTooNew (fst x)) ps /\ l' = l.
    Proof.
      induction 1 as [l | l line now ts body rest errs l' St H0 H1 IH | l line now ts body rest errs l' St H0 H1 IH
                      | l line now ts body i rest errs l' St Hi H0 H1 IH]; intros F.
      - auto.
      - pose proof (Forall_inv F ts body St) as X. cbn [fst snd] in X. nia.
      - destruct (IH (Forall_inv_tail F)) as [-> ->]. auto.
      - pose proof (Forall_inv F ts body St) as X. cbn [fst snd] in X. nia.
    Qed.
    Lemma takes_all_old k l ps errs l' : takes B E newBucket addLine p e0 k l ps errs l' ->
      Forall (fun x => forall ts body, stamped (fst x) (snd x) ts body -> ts < e0 + (k - 2) * p) ps ->
      errs = map (fun x => UTooOld (fst x)) ps /\ l' = l.
    Proof.
      induction 1 as [l | l line now ts body rest errs l' St H0 H1 IH | l line now ts body rest errs l' St H0 H1 IH
                      | l line now ts body i rest errs l' St Hi H0 H1 IH]; intros F.
      - auto.
      - destruct (IH (Forall_inv_tail F)) as [-> ->]. auto.
      - pose proof (Forall_inv F ts body St) as X. cbn [fst snd] in X. nia.
      - pose proof (Forall_inv F ts body St) as X. cbn [fst snd] in X. nia.
    Qed.

    Lemma start_inv now0 : period_end p now0 e0 -> Invp (d_asg B (start p now0)) 0 [].
    Proof.
      intros P. cbn [newWorker d_asg]. split; [|constructor]. unfold newAssigner. rewrite (nextT_end p now0 e0) by auto.
      rewrite prev_aligned, next_aligned by auto. unfold slot, AssignerSpec.contents. cbn [filter fold_left].
      replace (e0 + (0 - 1) * p) with (e0 - p) by lia. replace (e0 + 0 * p) with e0 by lia.
      replace (e0 + (0 + 1) * p) with (e0 + p) by lia. replace (e0 + (0 - 2) * p) with (e0 - p - p) by lia. auto.
    Qed.

    Lemma period_end_shift k now : e0 + (k - 1) * p <= now < e0 + k * p -> period_end p now (e0 + k * p).
    Proof. intros H. split; [lia|]. apply aligned_shift; auto. Qed.
    Lemma period_end_unique now e e' : period_end p now e -> period_end p now e' -> e = e'.
    Proof. intros [A1 A2] [B1 B2]. apply (aligned_unique p e e' now); auto. Qed.

    (** The state after turns which kept up with the clock: the current period contains the last reading. *)
    Lemma punctual_run fail delta : 0 <= delta < p -> forall turns d last k l, 0 <= k -> Invp (d_asg B d) k l ->
      period_end p last (e0 + k * p) -> punctual p delta last turns ->
      exists k' l', 0 <= k' /\ Invp (d_asg B (run fail d turns)) k' l' /\ period_end p (last_reading last turns) (e0 + k' * p).
    Proof.
      intros Hd. induction turns as [|t turns IH]; intros d last k l Hk I0 P Q.
      - exists k, l. cbn. auto.
      - inversion Q as [|? e ? ? Pe F Q']; subst. rewrite (period_end_unique _ _ _ Pe P) in *.
        destruct (turn_step fail d t k l Hk I0) as (l' & _ & I').
        assert (R : last <= t_now B t <= e0 + k * p + delta).
        { rewrite Forall_forall in F. apply F. unfold readings. apply in_or_app. right. left. reflexivity. }
        destruct P as [P1 P2].
        unfold worker_run, last_reading in *. cbn [fold_left].
        destruct (Z.ltb_spec (t_now B t) (e0 + k * p)) as [L|L].
        + apply (IH _ (t_now B t) k l'); auto. apply period_end_shift. lia.
        + apply (IH _ (t_now B t) (k + 1) l'); auto; [lia|]. apply period_end_shift. lia.
    Qed.

    (** A line's reading in a punctual turn. *)
    Lemma read_in (f : Z -> Prop) t line now : Forall f (readings t) -> In (line, now) (lines_read t) -> f now.
    Proof.
      unfold readings, lines_read. intros F J. apply Forall_app in F. destruct F as [F _].
      destruct (t_in B t) as [[data clk]|]; [|contradiction].
      rewrite Forall_forall in F. apply F. eapply in_combine_r. exact J.
    Qed.
  End Fix.

  Lemma punctual_app p delta : forall before last after, punctual p delta last (before ++ after) ->
    punctual p delta last before /\ punctual p delta (last_reading last before) after.
  Proof.
    induction before as [|t before IH]; intros last after Q; cbn [app] in *.
    - split; [constructor|exact Q].
    - inversion Q as [|? e ? ? Pe F Q']; subst. destruct (IH _ _ Q') as [Q1 Q2]. split; [econstructor; eauto|exact Q2].
  Qed.

  (** Which lines the turn [t] refuses, by the distance of their timestamp from the clock: at least those
      more than two periods (and the delay) off, at most those more than a period (minus the delay) off. *)
  Definition refuses_only_distant (p delta : Z) (t : turn B) (errs : list (uerr E)) : Prop :=
    (forall line, In (UTooOld line) errs -> exists now ts body, In (line, now) (lines_read t) /\ stamped line now ts body /\ ts < now - p) /\
    (forall line, In (UTooNew line) errs -> exists now ts body, In (line, now) (lines_read t) /\ stamped line now ts body /\ now + p - delta <= ts) /\
    (forall line now ts body, In (line, now) (lines_read t) -> stamped line now ts body -> ts < now - 2 * p - delta -> In (UTooOld line) errs) /\
    (forall line now ts body, In (line, now) (lines_read t) -> stamped line now ts body -> now + 2 * p <= ts -> In (UTooNew line) errs).

  Lemma window_at fail p delta e0 d last k l before t after : 0 < p -> 0 <= delta < p -> (e0 + goEpoch) mod p = 0 ->
    0 <= k -> Inv p e0 (d_asg B d) k l -> period_end p last (e0 + k * p) ->
    punctual p delta last (before ++ t :: after) ->
    refuses_only_distant p delta t (turn_errors (run fail d before) t).
  Proof.
    intros Hp Hd Ha Hk0 Id Pd Q. set (errs := turn_errors _ _).
    destruct (punctual_app _ _ _ _ _ Q) as [Q1 Q2].
    destruct (punctual_run p e0 Hp Ha fail delta Hd before d last k l Hk0 Id Pd Q1) as (k' & l' & Hk & I0 & P).
    clear k l Hk0 Id Pd. rename k' into k. rename l' into l.
    inversion Q2 as [|? e ? ? Pe F Q']; subst. rewrite (period_end_unique p Hp _ _ _ Pe P) in F.
    destruct (turn_step p e0 Hp Ha fail _ t k l Hk I0) as (l' & T & _).
    destruct (takes_old_in p e0 Hp k l _ _ l' T) as (A1 & A2 & A3 & A4).
    destruct P as [P1 P2].
    assert (R : forall line now, In (line, now) (lines_read t) -> e0 + (k - 1) * p <= now <= e0 + k * p + delta).
    { intros line now J. pose proof (read_in _ t line now F J) as X. cbn beta in X. lia. }
    split; [|split; [|split]].
    - intros line X. destruct (A1 line X) as (now & ts & body & J & St & L). exists now, ts, body. split; auto. split; auto.
      specialize (R _ _ J). lia.
    - intros line X. destruct (A2 line X) as (now & ts & body & J & St & L). exists now, ts, body. split; auto. split; auto.
      specialize (R _ _ J). lia.
    - intros line now ts body J St L. apply (A3 line now ts body J St). specialize (R _ _ J). lia.
    - intros line now ts body J St L. apply (A4 line now ts body J St). specialize (R _ _ J). lia.
  Qed.

  (** While the worker keeps up. *)
  Theorem punctual_window : forall fail p delta now0 before t after, 0 < p -> 0 <= delta < p ->
    punctual p delta now0 (before ++ t :: after) ->
    refuses_only_distant p delta t (turn_errors (run fail (start p now0) before) t).
  Proof.
    intros fail p delta now0 before t after Hp Hd Q.
    destruct (period_exists p now0 Hp) as (e0 & P0). pose proof P0 as [_ Ha].
    apply (window_at fail p delta e0 (start p now0) now0 0 [] before t after Hp Hd Ha); [lia|apply start_inv; auto| |exact Q].
    replace (e0 + 0 * p) with e0 by lia. exact P0.
  Qed.

  (** A line without a timestamp. *)
  Definition untimed (line : bytes) : Prop := (length line < 6)%nat \/ ~ exists pre txt ts, line_ts_split line pre txt ts.

  Lemma untimed_now line now ts body : untimed line -> stamped line now ts body -> ts = now.
  Proof. intros U [[L (txt & S0)]|(_ & -> & _)]; auto. destruct U as [U|U]; [lia|]. exfalso. apply U. eauto. Qed.

  Theorem punctual_untimed : forall fail p delta now0 before t after line, 0 < p -> 0 <= delta < p ->
    punctual p delta now0 (before ++ t :: after) -> untimed line ->
    let errs := turn_errors (run fail (start p now0) before) t in
    ~ In (UTooOld line) errs /\ ~ In (UTooNew line) errs.
  Proof.
    intros fail p delta now0 before t after line Hp Hd Q U errs.
    destruct (punctual_window fail p delta now0 before t after Hp Hd Q) as (A1 & A2 & _ & _). split; intros X.
    - destruct (A1 line X) as (now & ts & body & _ & St & L). apply untimed_now in St; auto. lia.
    - destruct (A2 line X) as (now & ts & body & _ & St & L). apply untimed_now in St; auto. lia.
  Qed.

  Lemma run_app fail d a b : run fail d (a ++ b) = run fail (run fail d a) b.
  Proof. apply fold_left_app. Qed.

  Lemma no_ts_errors errs : (forall line, ~ In (UTooOld line) errs) -> (forall line, ~ In (UTooNew line) errs) ->
    filter (is_ts_error E) errs = [].
  Proof.
    induction errs as [|e errs IH]; intros H1 H2; auto. cbn [filter]. destruct e as [x|x|e x]; cbn [is_ts_error].
    - exfalso. apply (H1 x). left. reflexivity.
    - exfalso. apply (H2 x). left. reflexivity.
    - apply IH; intros line X; [apply (H1 line)|apply (H2 line)]; right; exact X.
  Qed.

  (** If every line is at most a period old and not more than a period minus the delay ahead, none is
      refused: the counter of invalid timestamps stays 0. *)
  Theorem punctual_none : forall fail p delta now0 turns, 0 < p -> 0 <= delta < p ->
    punctual p delta now0 turns ->
    (forall t line now ts body, In t turns -> In (line, now) (lines_read t) -> stamped line now ts body -> now - p <= ts < now + p - delta) ->
    d_invalid_ts (d_st B (run fail (start p now0) turns)) = 0.
  Proof.
    intros fail p delta now0 turns Hp Hd Q C.
    assert (X : forall after before, turns = before ++ after -> d_invalid_ts (d_st B (run fail (start p now0) before)) = 0 ->
      d_invalid_ts (d_st B (run fail (start p now0) turns)) = 0).
    { induction after as [|t after IH]; intros before Et Z0.
      - rewrite app_nil_r in Et. subst. exact Z0.
      - apply (IH (before ++ [t])); [rewrite <- app_assoc; exact Et|].
        rewrite run_app. change (run fail (run fail (start p now0) before) [t]) with (step fail (run fail (start p now0) before) t).
        rewrite step_ts, Z0. subst turns.
        destruct (punctual_window fail p delta now0 before t after Hp Hd Q) as (A1 & A2 & _ & _).
        rewrite no_ts_errors; [reflexivity| |].
        + intros line X. destruct (A1 line X) as (now & ts & body & J & St & L).
          assert (In t (before ++ t :: after)) by (apply in_or_app; right; left; reflexivity). specialize (C t line now ts body H J St). lia.
        + intros line X. destruct (A2 line X) as (now & ts & body & J & St & L).
          assert (In t (before ++ t :: after)) by (apply in_or_app; right; left; reflexivity). specialize (C t line now ts body H J St). lia. }
    apply (X turns []); reflexivity.
  Qed.

  (** The worker's timer expires exactly at the end of the period which contains the last reading. *)
  Theorem punctual_timer : forall fail p delta now0 turns e, 0 < p -> 0 <= delta < p ->
    punctual p delta now0 turns -> period_end p (last_reading now0 turns) e ->
    last_reading now0 turns + UntilNext B (d_asg B (run fail (start p now0) turns)) (last_reading now0 turns) = e.
  Proof.
    intros fail p delta now0 turns e Hp Hd Q Pe.
    destruct (period_exists p now0 Hp) as (e0 & P0). pose proof P0 as [_ Ha].
    destruct (punctual_run p e0 Hp Ha fail delta Hd turns (start p now0) now0 0 []) as (k & l & Hk & I0 & P); [lia|apply start_inv; auto|replace (e0 + 0 * p) with e0 by lia; exact P0|assumption|].
    rewrite <- (period_end_unique p Hp _ _ _ P Pe). destruct I0 as [-> _]. unfold UntilNext. cbn [a_curr slot fst].
    destruct P as [P1 _]. lia.
  Qed.

  (** A stall: the turns [ts] all happen in the [length ts]-th period after the one of the last reading. *)
  Lemma stall_run fail p delta now0 before e late : 0 < p -> 0 <= delta < p ->
    punctual p delta now0 before -> period_end p (last_reading now0 before) e ->
    forall m, Forall (fun t => Forall (fun r => e + (m - 1) * p <= r) (readings t)) late -> Z.of_nat (length late) <= m ->
    exists k e0 l, 0 <= k /\ (e0 + goEpoch) mod p = 0 /\ Inv p e0 (d_asg B (run fail (start p now0) (before ++ late))) k l /\ e0 + k * p = e + Z.of_nat (length late) * p.
  Proof.
    intros Hp Hd Q Pe.
    destruct (period_exists p now0 Hp) as (e0 & P0). pose proof P0 as [_ Ha].
    destruct (punctual_run p e0 Hp Ha fail delta Hd before (start p now0) now0 0 []) as (k & l & Hk & I0 & P); [lia|apply start_inv; auto|replace (e0 + 0 * p) with e0 by lia; exact P0|assumption|].
    rewrite (period_end_unique p Hp _ _ _ Pe P). clear Pe.
    induction late as [|t late IH] using rev_ind; intros m F L.
    - exists k, e0, l. rewrite app_nil_r. cbn [length]. split; auto. split; auto. split; auto. lia.
    - apply Forall_app in F. destruct F as [F Ft]. rewrite app_length in *. cbn [length] in *.
      destruct (IH m F ltac:(lia)) as (k' & e0' & l' & Hk' & Ha' & I' & Ek).
      rewrite app_assoc, run_app. change (run fail (run fail (start p now0) (before ++ late)) [t]) with (step fail (run fail (start p now0) (before ++ late)) t).
      destruct (turn_step p e0' Hp Ha' fail _ t k' l' Hk' I') as (l'' & _ & I'').
      assert (R : e0 + k * p + (m - 1) * p <= t_now B t).
      { pose proof (Forall_inv Ft) as X. rewrite Forall_forall in X. apply X. unfold readings. apply in_or_app. right. left. reflexivity. }
      replace (t_now B t <? e0' + k' * p) with false in I'' by nia.
      exists (k' + 1), e0', l''. split; [lia|]. split; auto. split; auto. lia.
  Qed.

  (** After a stall of at least one whole period the next turns refuse every line without a timestamp as
      too new, one turn per period missed; every line they read with a timestamp of the present is refused too. *)
  Theorem stall_loses : forall fail p delta now0 before e m late t, 0 < p -> 0 <= delta < p ->
    punctual p delta now0 before -> period_end p (last_reading now0 before) e ->
    Forall (fun t => Forall (fun r => e + (m - 1) * p <= r < e + m * p) (readings t)) (late ++ [t]) ->
    Z.of_nat (length late) + 1 < m ->
    (forall line now ts body, In (line, now) (lines_read t) -> stamped line now ts body -> e + (m - 1) * p <= ts) ->
    let d := run fail (start p now0) (before ++ late) in
    turn_errors d t = map (fun x => UTooNew (fst x)) (lines_read t) /\
    UntilNext B (d_asg B d) (t_now B t) = 0.
  Proof.
    intros fail p delta now0 before e m late t Hp Hd Q Pe F L C d.
    apply Forall_app in F. destruct F as [F Ft].
    destruct (stall_run fail p delta now0 before e late Hp Hd Q Pe m) as (k & e0 & l & Hk & Ha & I0 & Ek); [|lia|].
    { eapply Forall_impl; [|exact F]. intros a Fa. eapply Forall_impl; [|exact Fa]. intros r Hr. cbn beta in Hr. lia. }
    fold d in I0. destruct (turn_step p e0 Hp Ha fail _ t k l Hk I0) as (l' & T & _).
    split.
    - destruct (takes_all_new p e0 Hp k l _ _ l' T) as [X _]; [|exact X].
      apply Forall_forall. intros [line now] J ts body St. cbn [fst snd] in St. specialize (C line now ts body J St). nia.
    - destruct I0 as [-> _]. unfold UntilNext. cbn [a_curr slot fst].
      pose proof (Forall_inv Ft) as X. rewrite Forall_forall in X.
      assert (R : e + (m - 1) * p <= t_now B t < e + m * p) by (apply X; unfold readings; apply in_or_app; right; left; reflexivity).
      nia.
  Qed.

  (** After as many turns as periods were missed the worker has caught up. *)
  Theorem stall_catches_up : forall fail p delta now0 before e m late more t after, 0 < p -> 0 <= delta < p ->
    punctual p delta now0 before -> period_end p (last_reading now0 before) e ->
    Forall (fun t => Forall (fun r => e + (m - 1) * p <= r < e + m * p) (readings t)) late ->
    Z.of_nat (length late) = m -> 0 < m ->
    punctual p delta (last_reading now0 (before ++ late)) (more ++ t :: after) ->
    refuses_only_distant p delta t (turn_errors (run fail (start p now0) (before ++ late ++ more)) t).
  Proof.
    intros fail p delta now0 before e m late more t after Hp Hd Q Pe F L Hm Q'.
    destruct (stall_run fail p delta now0 before e late Hp Hd Q Pe m) as (k & e0 & l & Hk & Ha & I0 & Ek); [|lia|].
    { eapply Forall_impl; [|exact F]. intros a Fa. eapply Forall_impl; [|exact Fa]. intros r Hr. cbn beta in Hr. lia. }
    rewrite app_assoc, run_app.
    apply (window_at fail p delta e0 _ (last_reading now0 (before ++ late)) k l more t after Hp Hd Ha Hk I0); [|exact Q'].
    destruct late as [|t0 late _] using rev_ind; [cbn in L; lia|].
    unfold last_reading. rewrite app_assoc, fold_left_app. cbn [fold_left].
    apply Forall_app in F. destruct F as [_ Ft]. pose proof (Forall_inv Ft) as X. rewrite Forall_forall in X.
    assert (R : e + (m - 1) * p <= t_now B t0 < e + m * p) by (apply X; unfold readings; apply in_or_app; right; left; reflexivity).
    apply period_end_shift; auto. nia.
  Qed.

  (** After the clock was set back by more than two periods: every line with a timestamp of that time, or
      without one, is refused as too old, and nothing is emitted, until the clock is back. *)
  Theorem set_back_loses : forall fail p delta now0 before e late, 0 < p -> 0 <= delta < p ->
    punctual p delta now0 before -> period_end p (last_reading now0 before) e ->
    Forall (fun t => Forall (fun r => r < e - 2 * p) (readings t) /\
                     forall line now ts body, In (line, now) (lines_read t) -> stamped line now ts body -> ts < e - 2 * p) late ->
    let d := run fail (start p now0) before in
    let d' := run fail d late in
    d_asg B d' = d_asg B d /\ d_pub (d_st B d') = d_pub (d_st B d) /\
    d_invalid_ts (d_st B d') = d_invalid_ts (d_st B d) + Z.of_nat (length (flat_map lines_read late)).
  Proof.
    intros fail p delta now0 before e late Hp Hd Q Pe F d d'.
    destruct (period_exists p now0 Hp) as (e0 & P0). pose proof P0 as [_ Ha].
    destruct (punctual_run p e0 Hp Ha fail delta Hd before (start p now0) now0 0 []) as (k & l & Hk & I0 & P); [lia|apply start_inv; auto|replace (e0 + 0 * p) with e0 by lia; exact P0|assumption|].
    rewrite (period_end_unique p Hp _ _ _ Pe P) in F. clear Pe. fold d in I0.
    subst d'. clear P Q. clearbody d. revert d I0. induction F as [|t late [Ft Fl] F IH]; intros d I0.
    - cbn. split; [auto|]. split; auto. lia.
    - change (run fail d (t :: late)) with (run fail (step fail d t) late).
      destruct (turn_step p e0 Hp Ha fail d t k l Hk I0) as (l' & T & I1).
      assert (R : t_now B t < e0 + k * p - 2 * p).
      { rewrite Forall_forall in Ft. apply Ft. unfold readings. apply in_or_app. right. left. reflexivity. }
      replace (t_now B t <? e0 + k * p) with true in I1 by nia.
      destruct (takes_all_old p e0 Hp k l _ _ l' T) as [X ->].
      { apply Forall_forall. intros [line now] J ts body St. cbn [fst snd] in St. specialize (Fl line now ts body J St). nia. }
      assert (Ea : d_asg B (step fail d t) = d_asg B d).
      { destruct I1 as [-> _], I0 as [-> _]. reflexivity. }
      assert (Ep : d_pub (d_st B (step fail d t)) = d_pub (d_st B d)).
      { assert (Em : forall a l, Inv p e0 a k l -> emit B newBucket a (t_now B t) = (a, None)).
        { intros a l1 [-> _]. unfold emit. cbn [a_curr slot fst]. replace (t_now B t <? e0 + k * p) with true by nia. reflexivity. }
        destruct (step_eq fail d t) as (chunks & ->). destruct (t_in B t) as [[data clk]|].
        - destruct (update_lines_step B E newBucket addLine p e0 Hp Ha k Hk (Split data) (d_asg B d) l clk I0) as (l1 & _ & I2).
          change (update_lines B E addLine (d_asg B d) (Split data) clk) with (Update B E addLine (d_asg B d) data clk) in I2.
          destruct (Update B E addLine (d_asg B d) data clk) as [a1 errs]. cbn [fst] in I2. cbv zeta beta iota. rewrite (Em a1 l1 I2). cbn [d_st].
          clear. set (s := mkDS _ _ _ _ _ _). assert (Es : d_pub s = d_pub (d_st B d)) by reflexivity. clearbody s. revert s Es.
          induction errs as [|x errs IH]; intros s Es; cbn [fold_left]; auto. apply IH. rewrite <- Es. destruct x; reflexivity.
        - rewrite (Em _ l I0). reflexivity. }
      destruct (IH _ I1) as (E1 & E2 & E3). rewrite E1, E2, E3. rewrite Ea, Ep. split; auto. split; auto.
      rewrite step_ts, X. cbn [flat_map]. rewrite app_length.
      replace (length (filter (is_ts_error E) (map (fun x => UTooOld (fst x)) (lines_read t)))) with (length (lines_read t)); [lia|].
      clear. induction (lines_read t) as [|x xs IH]; auto. cbn [map filter is_ts_error length]. rewrite <- IH. reflexivity.
  Qed.
End Skew.
