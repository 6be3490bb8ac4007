(** The downsampler's worker loop. *)
From Verif Require Import Base LinesSpec Assigner AssignerSpec AssignerProofs Splitter SplitterProofs.
Local Open Scope Z_scope.

Section Ds.
  Variables (B E : Type).
  Variable newBucket : Z -> B.
  Variable addLine : B -> bytes -> B * list E.

  (** The calls one turn makes to the assigner. *)
  Definition turn_calls (t : turn B) : list call :=
    match t_in B t with None => [] | Some (data, clk) => [CUpdate data clk] end ++ [CBytes (t_now B t)].

  Definition all_errors (ans : list (answer B E)) : list (uerr E) :=
    flat_map (fun a => match a with AErrors errs => errs | _ => [] end) ans.
  Definition is_ts_error (e : uerr E) : bool := match e with ULine _ _ => false | _ => true end.

  Notation do_calls := (do_calls B E newBucket addLine).
  Notation worker_run := (worker_run B E newBucket addLine).
  Notation worker_turn := (worker_turn B E newBucket addLine).

  Lemma do_calls_app cs1 : forall a cs2, do_calls a (cs1 ++ cs2) =
    let (a1, r1) := do_calls a cs1 in let (a2, r2) := do_calls a1 cs2 in (a2, r1 ++ r2).
  Proof.
    induction cs1 as [|c cs1 IH]; intros a cs2; cbn [app AssignerSpec.do_calls].
    - destruct (do_calls a cs2); auto.
    - destruct (do_call B E newBucket addLine a c) as [a1 r]. rewrite IH. destruct (do_calls a1 cs1) as [a2 r1].
      destruct (do_calls a2 cs2); auto.
  Qed.

  Lemma do_calls_len cs : forall a, length (snd (do_calls a cs)) = length cs.
  Proof.
    induction cs as [|c cs IH]; intros a; auto. cbn [AssignerSpec.do_calls].
    destruct (do_call B E newBucket addLine a c) as [a1 r]. specialize (IH a1). destruct (do_calls a1 cs). simpl in *. lia.
  Qed.

  Lemma count_errors errs : forall s, fold_left (count_error E) errs s =
    mkDS (d_received s) (d_sent s) (d_invalid_lines s + Z.of_nat (length (filter (fun e => negb (is_ts_error e)) errs)))
         (d_invalid_ts s + Z.of_nat (length (filter is_ts_error errs))) (d_failed s) (d_pub s).
  Proof.
    induction errs as [|e errs IH]; intros s.
    - cbn. destruct s; cbn. f_equal; lia.
    - cbn [fold_left]. rewrite IH. destruct e; cbn [count_error is_ts_error filter negb length d_received d_sent d_invalid_lines d_invalid_ts d_failed d_pub]; f_equal; lia.
  Qed.

  (** Failed publishes among the publishes number [from], [from]+1, ... *)
  Definition failures (fail : nat -> bool) (from n : nat) : Z := Z.of_nat (length (filter fail (seq from n))).

  Lemma publish_all fail chunks : forall s, fold_left (dpublish fail) chunks s =
    mkDS (d_received s) (d_sent s) (d_invalid_lines s) (d_invalid_ts s)
      (d_failed s + failures fail (length (d_pub s)) (length chunks)) (d_pub s ++ chunks).
  Proof.
    induction chunks as [|c chunks IH]; intros s.
    - cbn [fold_left length]. unfold failures. cbn [seq filter length]. rewrite app_nil_r. destruct s; cbn. f_equal; lia.
    - cbn [fold_left]. rewrite IH. unfold dpublish. cbn [d_received d_sent d_invalid_lines d_invalid_ts d_failed d_pub].
      rewrite <- app_assoc. cbn [app]. f_equal. unfold failures. cbn [length seq filter].
      rewrite app_length. cbn [length]. rewrite Nat.add_1_r. destruct (fail (length (d_pub s))); cbn [length]; lia.
  Qed.

  Lemma failures_app fail a n m : failures fail a (n + m) = failures fail a n + failures fail (a + n) m.
  Proof. unfold failures. rewrite seq_app, filter_app, app_length. lia. Qed.

  Definition nonempty_count (bufs : list bytes) : Z := Z.of_nat (length (filter nonempty bufs)).

  Definition pub_step (fail : nat -> bool) (s1 : dstats) (buf : bytes) : dstats :=
    match buf with
    | [] => s1
    | _ => let s := fold_left (dpublish fail) (split_all dsMax buf) s1 in
           mkDS (d_received s) (d_sent s + 1) (d_invalid_lines s) (d_invalid_ts s) (d_failed s) (d_pub s)
    end.

  Lemma split_empty : split_all dsMax [] = [].
  Proof. reflexivity. Qed.

  Lemma pub_step_spec fail s nb : (length nb <= 1)%nat -> pub_step fail s (concat nb) =
    mkDS (d_received s) (d_sent s + nonempty_count nb) (d_invalid_lines s) (d_invalid_ts s)
      (d_failed s + failures fail (length (d_pub s)) (length (flat_map (split_all dsMax) nb))) (d_pub s ++ flat_map (split_all dsMax) nb).
  Proof.
    intros L. unfold pub_step. cbn zeta. rewrite publish_all. cbn [d_received d_sent d_invalid_lines d_invalid_ts d_failed d_pub].
    destruct nb as [|b [|? ?]]; [| |simpl in L; lia].
    - cbn [concat flat_map length]. unfold nonempty_count, failures. cbn [seq filter length]. rewrite app_nil_r. destruct s; cbn. f_equal; lia.
    - cbn [concat flat_map]. rewrite !app_nil_r. unfold nonempty_count. cbn [filter]. destruct b as [|c b].
      + rewrite split_empty. cbn [nonempty length]. unfold failures. cbn [seq filter length]. rewrite app_nil_r. destruct s; cbn. f_equal; lia.
      + reflexivity.
  Qed.

  (** What the worker did, in terms of the assigner's answers and the buffers they printed. *)
  Definition accounts (fail : nat -> bool) (ts : list (turn B)) (ans : list (answer B E)) (bufs : list bytes) (st : dstats) : Prop :=
    Forall2 (fun (eb : Z * (Z * B)) buf => exists t, In t ts /\ buf = t_render B t (snd eb)) (emitted (flat_map turn_calls ts) ans) bufs /\
    d_received st = Z.of_nat (length (filter (fun t => match t_in B t with Some _ => true | None => false end) ts)) /\
    d_invalid_ts st = Z.of_nat (length (filter is_ts_error (all_errors ans))) /\
    d_invalid_lines st = Z.of_nat (length (filter (fun e => negb (is_ts_error e)) (all_errors ans))) /\
    d_sent st = nonempty_count bufs /\
    d_pub st = flat_map (split_all dsMax) bufs /\
    d_failed st = failures fail 0 (length (d_pub st)).

  Lemma all_errors_app a b : all_errors (a ++ b) = all_errors a ++ all_errors b.
  Proof. apply flat_map_app. Qed.

  Lemma turn_calls_run a t : exists a1 errs, 
    match t_in B t with None => a1 = a /\ errs = [] | Some (data, clk) => Update B E addLine a data clk = (a1, errs) end /\
    do_calls a (turn_calls t) =
      (fst (emit B newBucket a1 (t_now B t)),
       match t_in B t with None => [] | Some _ => [AErrors errs] end ++
       [match snd (emit B newBucket a1 (t_now B t)) with None => ANothing | Some eb => ABucket eb end]).
  Proof.
    unfold turn_calls. destruct (t_in B t) as [[data clk]|].
    - destruct (Update B E addLine a data clk) as [a1 errs] eqn:U. exists a1, errs. split; auto.
      cbn [app AssignerSpec.do_calls do_call]. rewrite U. destruct (emit B newBucket a1 (t_now B t)) as [a2 o]. auto.
    - exists a, []. split; auto. cbn [app AssignerSpec.do_calls do_call]. destruct (emit B newBucket a (t_now B t)) as [a2 o]. auto.
  Qed.

  Lemma run_accounts fail a0 ts : forall d,
    d = worker_run fail (mkD B a0 (mkDS 0 0 0 0 0 [])) ts ->
    d_asg B d = fst (do_calls a0 (flat_map turn_calls ts)) /\
    exists bufs, accounts fail ts (snd (do_calls a0 (flat_map turn_calls ts))) bufs (d_st B d).
  Proof.
    induction ts as [|t ts IH] using rev_ind; intros d ->.
    - split; auto. exists []. unfold accounts, failures, nonempty_count. cbn. repeat split; constructor.
    - unfold Assigner.worker_run. rewrite fold_left_app. cbn [fold_left].
      change (fold_left (worker_turn fail) ts (mkD B a0 (mkDS 0 0 0 0 0 []))) with (worker_run fail (mkD B a0 (mkDS 0 0 0 0 0 [])) ts).
      destruct (IH _ eq_refl) as (Ea & bufs & A1 & A2 & A3 & A4 & A5 & A6 & A7). clear IH.
      remember (worker_run fail (mkD B a0 (mkDS 0 0 0 0 0 [])) ts) as d eqn:Ed. clear Ed.
      rewrite flat_map_app. cbn [flat_map]. rewrite app_nil_r. rewrite do_calls_app.
      destruct (do_calls a0 (flat_map turn_calls ts)) as [a ans] eqn:Ec. cbn [fst snd] in *.
      assert (Lc : length (flat_map turn_calls ts) = length ans).
      { pose proof (do_calls_len (flat_map turn_calls ts) a0) as X. rewrite Ec in X. auto. }
      destruct (turn_calls_run a t) as (a1 & errs & U & R). rewrite R. cbn [fst snd].
      assert (W : worker_turn fail d t =
        let s := d_st B d in
        let s1 := match t_in B t with None => s | Some _ => fold_left (count_error E) errs (mkDS (d_received s + 1) (d_sent s) (d_invalid_lines s) (d_invalid_ts s) (d_failed s) (d_pub s)) end in
        let buf := match snd (emit B newBucket a1 (t_now B t)) with None => [] | Some eb => t_render B t eb end in
        mkD B (fst (emit B newBucket a1 (t_now B t)))
          (pub_step fail s1 buf)).
      { unfold Assigner.worker_turn, pub_step. rewrite Ea. destruct (t_in B t) as [[data clk]|].
        - rewrite U. destruct (emit B newBucket a1 (t_now B t)) as [a2 o]. cbn [fst snd].
          destruct (match o with None => [] | Some eb => t_render B t eb end); auto.
        - destruct U as [-> ->]. destruct (emit B newBucket a (t_now B t)) as [a2 o]. cbn [fst snd].
          destruct (match o with None => [] | Some eb => t_render B t eb end); auto. }
      rewrite W. clear W. cbn zeta. cbn [d_asg d_st]. split; auto.
      set (o := snd (emit B newBucket a1 (t_now B t))) in *. clearbody o.
      set (nb := match o with None => [] | Some eb => [t_render B t eb] end).
      exists (bufs ++ nb).
      set (s := d_st B d) in *. clearbody s.
      assert (Bf : match o with None => [] | Some eb => t_render B t eb end = concat nb) by (destruct o; cbn; rewrite ?app_nil_r; auto).
      rewrite Bf.
      (* the state after counting errors *)
      set (s1 := match t_in B t with None => s | Some _ => _ end).
      assert (S1 : s1 = mkDS (d_received s + (match t_in B t with Some _ => 1 | None => 0 end)) (d_sent s)
          (d_invalid_lines s + Z.of_nat (length (filter (fun e => negb (is_ts_error e)) errs)))
          (d_invalid_ts s + Z.of_nat (length (filter is_ts_error errs))) (d_failed s) (d_pub s)).
      { unfold s1. destruct (t_in B t) as [[data clk]|].
        - rewrite count_errors. cbn [d_received d_sent d_invalid_lines d_invalid_ts d_failed d_pub]. auto.
        - destruct U as [_ ->]. destruct s; cbn. f_equal; lia. }
      rewrite S1. clear s1 S1.
      rewrite pub_step_spec by (subst nb; destruct o; simpl; lia). unfold accounts.
      cbn [d_received d_sent d_invalid_lines d_invalid_ts d_failed d_pub].
      rewrite all_errors_app, !filter_app, !app_length, !flat_map_app, A6.
      assert (Er : all_errors (match t_in B t with None => [] | Some _ => [AErrors errs] end ++ [match o with None => ANothing | Some eb => ABucket eb end]) = errs).
      { rewrite all_errors_app. destruct (t_in B t) as [[data clk]|]; [|destruct U as [_ ->]]; destruct o; cbn; rewrite ?app_nil_r; auto. }
      rewrite Er. split; [|split; [|split; [|split; [|split; [|split]]]]].
      + cbn [flat_map]. rewrite app_nil_r. rewrite emitted_app by auto. apply Forall2_app.
        * clear -A1. induction A1 as [|x y l l' (t' & I & Ey) F IH]; constructor; auto. exists t'. split; auto. apply in_or_app; auto.
        * assert (Em : emitted (turn_calls t) (match t_in B t with None => [] | Some _ => [AErrors errs] end ++ [match o with None => ANothing | Some eb => ABucket eb end])
             = match o with None => [] | Some eb => [(t_now B t, eb)] end).
          { unfold turn_calls. destruct (t_in B t) as [[data clk]|]; destruct o; reflexivity. }
          rewrite Em. subst nb. destruct o; constructor; [|constructor]. exists t. split; auto. apply in_or_app. simpl; auto.
      + cbn [filter]. destruct (t_in B t) as [[data clk]|]; cbn [length]; lia.
      + lia.
      + lia.
      + unfold nonempty_count in *. rewrite filter_app, app_length. lia.
      + reflexivity.
      + rewrite A7, A6. rewrite failures_app. rewrite Nat.add_0_l. reflexivity.
  Qed.
End Ds.
