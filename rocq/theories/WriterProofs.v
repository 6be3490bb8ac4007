From Verif Require Import Base LinesSpec Batch BatchProofs Splitter SplitterProofs Rules Retry RetrySpec RetryProofs RetryMain Writer WriterSpec.
Local Open Scope Z_scope.

(* ---------------------------------------------------------------- *)
(** * The batch as a list of writes *)

Definition brep (b : batch) (pw : list (Z * bytes)) : Prop :=
  Inv b /\ b_buf b = concat (map snd pw) /\ b_writes b = Z.of_nat (length pw) /\
  match pw with [] => True | (t, _) :: _ => b_created b = t end.

Lemma brep_append b pw d t : brep b pw -> brep (Append b d t) (pw ++ [(t, d)]).
Proof.
  intros (I & B & W & C). assert (Ic : Inv (countWrite b t)) by (destruct I as (? & ? & ?); unfold Inv, countWrite, Size in *; simpl; lia).
  destruct (appendImpl_spec (countWrite b t) d Ic) as (A1 & Bf & Wr & Cr & _). unfold Append, brep. rewrite Bf, Wr, Cr.
  split; auto. cbn [countWrite b_buf b_writes b_created]. rewrite map_app, concat_app, app_length. cbn [map concat length snd]. rewrite app_nil_r.
  split; [congruence|]. split; [lia|]. destruct pw as [|[t0 d0] pw]; cbn [app length] in *.
  - rewrite W. reflexivity.
  - destruct (b_writes b =? 0) eqn:E; [lia|auto].
Qed.

Lemma SplitAfter_lines b : filter (fun l => match l with [] => false | _ => true end) (SplitAfter b) = lines_of b.
Proof.
  induction b as [|c r IH]; auto. cbn [SplitAfter lines_of]. destruct (Ascii.eqb_spec c nl) as [->|N].
  - cbn [filter]. rewrite IH. auto.
  - destruct (SplitAfter r) as [|l ls] eqn:E.
    + exfalso. destruct r; cbn [SplitAfter] in E; [discriminate|]. destruct (Ascii.eqb _ _); [discriminate|]. destruct (SplitAfter r); discriminate.
    + cbn [filter] in *. rewrite <- IH. destruct l as [|x l]; auto.
      (* an empty first piece means the text is empty *)
      assert (r = []) by (destruct r as [|y r]; auto; cbn [SplitAfter] in E; destruct (Ascii.eqb _ _); [discriminate|]; destruct (SplitAfter r); discriminate).
      subst r. cbn in E. inversion E; subst. reflexivity.
Qed.

Lemma brep_batchAppend rs b pw d t : brep b pw -> brep (batchAppend rs b d t) (pw ++ map (fun x => (t, x)) (writes_of rs d)).
Proof.
  intros R. unfold batchAppend, writes_of. destruct rs as [|r rs]; [apply brep_append; auto|]. set (rr := r :: rs) in *.
  rewrite <- (SplitAfter_lines d). revert b pw R. induction (SplitAfter d) as [|l ls IH]; intros b pw R; cbn [fold_left filter map].
  - rewrite app_nil_r. auto.
  - destruct l as [|x l]; [apply IH; auto|]. cbn [filterLine]. cbn [filter]. unfold kept at 1. destruct (Lookup rr (x :: l)).
    + cbn [map]. change ((t, x :: l) :: ?z) with ([(t, x :: l)] ++ z). rewrite app_assoc. apply IH. apply brep_append. auto.
    + apply IH; auto.
Qed.

(* ---------------------------------------------------------------- *)
(** * Small lemmas about traces *)
Lemma messages_app a b : messages (a ++ b) = messages a ++ messages b. Proof. apply flat_map_app. Qed.
Lemma posts_app a b : posts (a ++ b) = posts a ++ posts b. Proof. apply flat_map_app. Qed.
Lemma retries_app a b : retries (a ++ b) = retries a ++ retries b. Proof. apply flat_map_app. Qed.
Lemma bodies_app a b : bodies (a ++ b) = bodies a ++ bodies b. Proof. unfold bodies. rewrite posts_app. apply map_app. Qed.
Lemma input_app rs a b : input rs (a ++ b) = input rs a ++ input rs b.
Proof. unfold input. rewrite messages_app, map_app. apply concat_app. Qed.
Lemma timed_app rs a b : timed_writes rs (a ++ b) = timed_writes rs a ++ timed_writes rs b.
Proof. unfold timed_writes. rewrite messages_app. apply flat_map_app. Qed.
Lemma failures_app a b : failures (a ++ b) = failures a ++ failures b.
Proof. unfold failures. rewrite posts_app, filter_app. apply map_app. Qed.
Lemma count_app p a b : count p (a ++ b) = count p a + count p b.
Proof. unfold count. rewrite filter_app, app_length. lia. Qed.
Lemma count_nonneg p a : 0 <= count p a. Proof. unfold count. lia. Qed.

Lemma timed_input rs tr : concat (map snd (timed_writes rs tr)) = input rs tr.
Proof.
  unfold timed_writes, input, accepted. induction (messages tr) as [|[t d] l IH]; auto. cbn [flat_map map concat fst snd].
  rewrite map_app, concat_app, IH. f_equal. rewrite map_map. cbn [snd]. rewrite map_id. auto.
Qed.

Lemma vretry_msgs os : messages (map VRetry os) = []. Proof. induction os; auto. Qed.
Lemma vretry_posts os : posts (map VRetry os) = []. Proof. induction os; auto. Qed.
Lemma vretry_retries os : retries (map VRetry os) = os. Proof. induction os; cbn; auto. f_equal; auto. Qed.

Lemma ok_Write r : ok r = match Write r with WOk => true | _ => false end.
Proof.
  unfold ok, Write, isHTTPPOSTSuccess, isHTTPClientError. destruct r; auto.
  destruct (200 <=? code) eqn:E1, (code <=? 299) eqn:E2, (code <? 300) eqn:E3; cbn; try lia; auto; destruct ((400 <=? code) && (code <? 500)); auto.
Qed.

(* ---------------------------------------------------------------- *)
(** * Single effects *)
Section Micro.
  Variable c : wcfg.
  Hypothesis Hsize : (1 <= wc_size c)%nat.
  Notation rs := (wc_rules c).
  Notation retrying := (0 <? wc_retry c).

  Definition upd_b s b pc := mkW b pc (w_chan s) (w_retry s) (w_closed s) (w_received s) (w_requests s) (w_failed s) (w_n s).

  Inductive micro : wst -> list wobs -> wst -> Prop :=
  | m_msg s t d : w_pc s = WIdle ->
      micro s [VMsg t d] (mkW (batchAppend rs (w_batch s) d t) WIdle (w_chan s) (w_retry s) (w_closed s) (w_received s + 1) (w_requests s) (w_failed s) (w_n s))
  | m_took_write s r : w_pc s = WIdle -> r = w_retry s -> 0 < r_writes r ->
      micro s [VTookWrite] (mkW (w_batch s) WIdle (w_chan s) (mkR (r_q r) (r_next r) (r_ph r) (r_writes r - 1) (r_errs r) (r_now r))
                                (w_closed s) (w_received s) (w_requests s + 1) (w_failed s) (w_n s))
  | m_took_err s r : w_pc s = WIdle -> r = w_retry s -> 0 < r_errs r ->
      micro s [VTookErr] (mkW (w_batch s) WIdle (w_chan s) (mkR (r_q r) (r_next r) (r_ph r) (r_writes r) (r_errs r - 1) (r_now r))
                              (w_closed s) (w_received s) (w_requests s) (w_failed s + 1) (w_n s))
  | m_wake s t : w_pc s = WIdle -> shouldSend c (w_batch s) t = false -> micro s [VWake t] s
  | m_send s t : w_pc s = WIdle -> shouldSend c (w_batch s) t = true ->
      micro s [VWake t; VSend] (continue (mkW (w_batch s) (w_pc s) (w_chan s) (w_retry s) (w_closed s) (w_received s) (w_requests s + 1) (w_failed s) (w_n s))
              (split_all (wc_size c) (b_buf (w_batch s))) t)
  | m_post s ch rest r t : w_pc s = WSend (ch :: rest) -> ok r || negb retrying = true ->
      micro s [VPost (w_n s) ch r] (continue (mkW (w_batch s) (w_pc s) (w_chan s) (w_retry s) (w_closed s) (w_received s) (w_requests s)
                    (if ok r then w_failed s else w_failed s + 1) (S (w_n s))) rest t)
  | m_post_hand s ch rest r : w_pc s = WSend (ch :: rest) -> ok r = false -> retrying = true ->
      micro s [VPost (w_n s) ch r] (mkW (w_batch s) (WHand (w_n s, ch) rest) (w_chan s) (w_retry s) (w_closed s) (w_received s)
                     (w_requests s) (w_failed s + 1) (S (w_n s)))
  | m_hand s a rest t : w_pc s = WHand a rest -> w_chan s = None ->
      micro s [VHand a] (continue (set_retry s (Some a) (w_retry s)) rest t)
  | m_close s : micro s [] (mkW (w_batch s) (w_pc s) (w_chan s) (w_retry s) true (w_received s) (w_requests s) (w_failed s) (w_n s))
  | m_stop s : w_pc s = WIdle -> w_closed s = true ->
      micro s [] (mkW (w_batch s) (if retrying then WStopping else WStopped) (w_chan s) (w_retry s) true (w_received s) (w_requests s) (w_failed s) (w_n s))
  | m_done s : w_pc s = WStopping -> r_ph (w_retry s) = RStopped ->
      micro s [] (mkW (w_batch s) WStopped (w_chan s) (w_retry s) true (w_received s) (w_requests s) (w_failed s) (w_n s))
  | m_in s t t' a r o : retrying = true -> w_chan s = Some a -> retry_step c (w_retry s) (LIn t t' a) = Some (r, o) ->
      micro s (map VRetry o) (set_retry s None r)
  | m_retry s l r o : retrying = true -> is_in l = false -> (is_stop l = true -> w_pc s = WStopping) -> retry_step c (w_retry s) l = Some (r, o) ->
      micro s (map VRetry o) (set_retry s (w_chan s) r).

  Inductive micros : wst -> list wobs -> wst -> Prop :=
  | ms_nil s : micros s [] s
  | ms_step s tr s1 o s2 : micros s tr s1 -> micro s1 o s2 -> micros s (tr ++ o) s2.

  Lemma micros_app s tr s1 tr' s2 : micros s tr s1 -> micros s1 tr' s2 -> micros s (tr ++ tr') s2.
  Proof.
    intros H H'. induction H'; [rewrite app_nil_r; auto|]. rewrite app_assoc. econstructor; eauto.
  Qed.
  Lemma micros_one s o s' : micro s o s' -> micros s o s'.
  Proof. intros H. change o with ([] ++ o). econstructor; [constructor|auto]. Qed.

  Lemma check_micro s t s' o : w_pc s = WIdle -> check c s t = (s', o) -> micros s o s'.
  Proof.
    intros P H. unfold check in H. destruct (shouldSend c (w_batch s) t) eqn:E; inversion H; subst; apply micros_one.
    - apply m_send; auto.
    - apply m_wake; auto.
  Qed.

  Lemma step_micros s l s' o : wstep c s l = Some (s', o) -> micros s o s'.
  Proof.
    intros H. destruct l; unfold wstep in H; destruct (w_pc s) eqn:P; try discriminate;
    try (inversion H; subst; apply micros_one; rewrite <- P; apply m_close).
    - destruct (check c _ t') as [s1 o1] eqn:E. inversion H; subst. change (VMsg t data :: o1) with ([VMsg t data] ++ o1).
      eapply micros_app; [apply micros_one; apply m_msg; auto|]. eapply check_micro; eauto.
    - destruct (0 <? r_writes (w_retry s)) eqn:L; [|discriminate]. destruct (check c _ t') as [s1 o1] eqn:E. inversion H; subst.
      change (VTookWrite :: o1) with ([VTookWrite] ++ o1). eapply micros_app; [apply micros_one; eapply m_took_write; [auto|reflexivity|lia]|]. eapply check_micro; eauto.
    - destruct (0 <? r_errs (w_retry s)) eqn:L; [|discriminate]. destruct (check c _ t') as [s1 o1] eqn:E. inversion H; subst.
      change (VTookErr :: o1) with ([VTookErr] ++ o1). eapply micros_app; [apply micros_one; eapply m_took_err; [auto|reflexivity|lia]|]. eapply check_micro; eauto.
    - inversion H. eapply check_micro; eauto.
    - destruct rest as [|ch rest]; [discriminate|]. rewrite <- ok_Write in H. destruct (ok r || negb retrying) eqn:E.
      + inversion H; subst. apply micros_one. rewrite <- P. apply m_post; auto.
      + apply orb_false_elim in E. destruct E as [E1 E2]. apply negb_false_iff in E2. rewrite E1 in H. cbn in H. inversion H; subst.
        apply micros_one. apply m_post_hand; auto.
    - destruct (w_chan s) eqn:E; [discriminate|]. inversion H; subst. apply micros_one. apply m_hand; auto.
    - destruct (w_closed s) eqn:E; [|discriminate]. inversion H; subst. apply micros_one. apply m_stop; auto.
    - destruct (r_ph (w_retry s)) eqn:E; try discriminate. inversion H; subst. apply micros_one. apply m_done; auto.
    - destruct retrying eqn:E; [|discriminate]. destruct (w_chan s) eqn:E1; [|discriminate]. destruct (retry_step c _ _) as [[r o1]|] eqn:E2; [|discriminate].
      inversion H; subst. apply micros_one. eapply m_in; eauto.
    - destruct retrying eqn:E; [|discriminate]. destruct (w_chan s) eqn:E1; [|discriminate]. destruct (retry_step c _ _) as [[r o1]|] eqn:E2; [|discriminate].
      inversion H; subst. apply micros_one. eapply m_in; eauto.
    - destruct retrying eqn:E; [|discriminate]. destruct (w_chan s) eqn:E1; [|discriminate]. destruct (retry_step c _ _) as [[r o1]|] eqn:E2; [|discriminate].
      inversion H; subst. apply micros_one. eapply m_in; eauto.
    - destruct retrying eqn:E; [|discriminate]. destruct (w_chan s) eqn:E1; [|discriminate]. destruct (retry_step c _ _) as [[r o1]|] eqn:E2; [|discriminate].
      inversion H; subst. apply micros_one. eapply m_in; eauto.
    - destruct retrying eqn:E; [|discriminate]. destruct (w_chan s) eqn:E1; [|discriminate]. destruct (retry_step c _ _) as [[r o1]|] eqn:E2; [|discriminate].
      inversion H; subst. apply micros_one. eapply m_in; eauto.
    - destruct (retrying && negb (is_in l) && (negb (is_stop l) || false)) eqn:E; [|discriminate]. destruct (retry_step c _ _) as [[r o1]|] eqn:E2; [|discriminate].
      inversion H; subst. apply andb_prop in E. destruct E as [E E3]. apply andb_prop in E. destruct E as [E E4]. apply negb_true_iff in E4.
      apply micros_one. eapply m_retry; eauto. intros X. rewrite X in E3. discriminate.
    - destruct (retrying && negb (is_in l) && (negb (is_stop l) || false)) eqn:E; [|discriminate]. destruct (retry_step c _ _) as [[r o1]|] eqn:E2; [|discriminate].
      inversion H; subst. apply andb_prop in E. destruct E as [E E3]. apply andb_prop in E. destruct E as [E E4]. apply negb_true_iff in E4.
      apply micros_one. eapply m_retry; eauto. intros X. rewrite X in E3. discriminate.
    - destruct (retrying && negb (is_in l) && (negb (is_stop l) || false)) eqn:E; [|discriminate]. destruct (retry_step c _ _) as [[r o1]|] eqn:E2; [|discriminate].
      inversion H; subst. apply andb_prop in E. destruct E as [E E3]. apply andb_prop in E. destruct E as [E E4]. apply negb_true_iff in E4.
      apply micros_one. eapply m_retry; eauto. intros X. rewrite X in E3. discriminate.
    - destruct (retrying && negb (is_in l) && (negb (is_stop l) || true)) eqn:E; [|discriminate]. destruct (retry_step c _ _) as [[r o1]|] eqn:E2; [|discriminate].
      inversion H; subst. apply andb_prop in E. destruct E as [E E3]. apply andb_prop in E. destruct E as [E E4]. apply negb_true_iff in E4.
      apply micros_one. eapply m_retry; eauto.
    - destruct (retrying && negb (is_in l) && (negb (is_stop l) || false)) eqn:E; [|discriminate]. destruct (retry_step c _ _) as [[r o1]|] eqn:E2; [|discriminate].
      inversion H; subst. apply andb_prop in E. destruct E as [E E3]. apply andb_prop in E. destruct E as [E E4]. apply negb_true_iff in E4.
      apply micros_one. eapply m_retry; eauto. intros X. rewrite X in E3. discriminate.
  Qed.

  Lemma wrun_app s ls1 ls2 : wrun c s (ls1 ++ ls2) =
    match wrun c s ls1 with None => None | Some (s1, o1) =>
      match wrun c s1 ls2 with None => None | Some (s2, o2) => Some (s2, o1 ++ o2) end end.
  Proof.
    revert s. induction ls1 as [|l ls1 IH]; intros s; cbn [app wrun].
    - destruct (wrun c s ls2) as [[? ?]|]; auto.
    - destruct (wstep c s l) as [[s1 o1]|]; auto. rewrite IH. destruct (wrun c s1 ls1) as [[s2 o2]|]; auto.
      destruct (wrun c s2 ls2) as [[s3 o3]|]; auto. rewrite app_assoc. auto.
  Qed.

  Lemma run_micros ls : forall s s' tr, wrun c s ls = Some (s', tr) -> micros s tr s'.
  Proof.
    induction ls as [|l ls IH]; intros s s' tr H; cbn [wrun] in H.
    - inversion H; subst. constructor.
    - destruct (wstep c s l) as [[s1 o1]|] eqn:E; [|discriminate]. destruct (wrun c s1 ls) as [[s2 o2]|] eqn:E2; [|discriminate].
      inversion H; subst. eapply micros_app; [eapply step_micros; eauto|eauto].
  Qed.

  (* -------------------------------------------------------------- *)
  (** * Data *)
  Definition remaining s := match w_pc s with WSend rest | WHand _ rest => rest | _ => [] end.
  Definition idle s := match w_pc s with WSend _ | WHand _ _ => false | _ => true end.
  Definition fits (b : bytes) : Prop := b <> [] /\ (length b <= wc_size c \/ (length b = wc_size c + 1 /\ exists p, b = p ++ [nl]))%nat.
  Definition tame (tr : list wobs) : Prop :=
    Forall (fun m => nl_ended (accepted rs (snd m)) /\ Forall (fun l => (length l <= wc_size c)%nat) (lines_of (accepted rs (snd m)))) (messages tr).

  Record winv (s : wst) (tr : list wobs) : Prop := mkWI {
    wi_split : exists l1 l2, tr = l1 ++ l2 /\ concat (bodies l1) = input rs l1 /\ brep (w_batch s) (timed_writes rs l2) /\
                 concat (bodies l2) ++ held s = input rs l2 /\ (idle s = true -> posts l2 = []);
    wi_n : map (fun p => fst (fst p)) (posts tr) = seq 0 (w_n s);
    wi_fits : Forall fits (bodies tr ++ remaining s);
    wi_ended : tame tr -> Forall nl_ended (bodies tr ++ remaining s);
    wi_rest : match w_pc s with WSend [] => False | _ => True end }.

  Lemma tame_app a b : tame (a ++ b) <-> tame a /\ tame b.
  Proof. unfold tame. rewrite messages_app. apply Forall_app. Qed.

  Lemma tame_input tr : tame tr -> nl_ended (input rs tr) /\ Forall (fun l => (length l <= wc_size c)%nat) (lines_of (input rs tr)).
  Proof.
    unfold tame, input. induction (messages tr) as [|m l IH]; intros T; cbn [map concat].
    - split; [left; auto|constructor].
    - inversion T as [|? ? [T1 T2] T3]; subst. destruct (IH T3) as [I1 I2]. split; [apply nl_ended_app; auto|]. rewrite lines_of_app by auto. apply Forall_app. auto.
  Qed.

  Lemma split_ended buf : nl_ended buf -> Forall (fun l => (length l <= wc_size c)%nat) (lines_of buf) -> Forall nl_ended (split_all (wc_size c) buf).
  Proof.
    intros E F. destruct (split_all_lines (wc_size c) buf Hsize F) as [_ S]. pose proof (split_all_concat (wc_size c) buf Hsize) as Cc.
    apply Forall_forall. intros x I. apply in_split in I. destruct I as (l1 & l2 & El).
    destruct l2 as [|y l2]; [|destruct (S _ _ _ El) as [p ->]; [discriminate|right; eauto]].
    rewrite El in Cc. rewrite concat_app in Cc. cbn [concat] in Cc. rewrite app_nil_r in Cc.
    destruct x as [|z x] using rev_ind; [left; auto|]. clear IHx. right. exists x. destruct E as [->|[p ->]].
    - apply app_eq_nil in Cc. destruct Cc as [_ Cc]. apply app_eq_nil in Cc. destruct Cc; discriminate.
    - rewrite app_assoc in Cc. apply app_inj_tail in Cc. destruct Cc as [_ ->]. auto.
  Qed.

  Lemma continue_pc s rest t : w_pc (continue s rest t) = match rest with [] => WIdle | _ => WSend rest end.
  Proof. destruct rest; auto. Qed.
  Lemma continue_rem s rest t : remaining (continue s rest t) = rest.
  Proof. unfold remaining. rewrite continue_pc. destruct rest; auto. Qed.
  Lemma continue_held s rest t : held (continue s rest t) = concat rest.
  Proof. destruct rest; auto. Qed.
  Lemma continue_n s rest t : w_n (continue s rest t) = w_n s.
  Proof. destruct rest; auto. Qed.
  Lemma continue_chan s rest t : w_chan (continue s rest t) = w_chan s.
  Proof. destruct rest; auto. Qed.
  Lemma continue_retry s rest t : w_retry (continue s rest t) = w_retry s.
  Proof. destruct rest; auto. Qed.
  Lemma continue_received s rest t : w_received (continue s rest t) = w_received s. Proof. destruct rest; auto. Qed.
  Lemma continue_requests s rest t : w_requests (continue s rest t) = w_requests s. Proof. destruct rest; auto. Qed.
  Lemma continue_failed s rest t : w_failed (continue s rest t) = w_failed s. Proof. destruct rest; auto. Qed.

  Lemma brep_reset b pw t : brep b pw -> brep (Reset b t) [].
  Proof. intros ((I1 & I2 & I3) & _). unfold brep, Reset, Inv, Size; cbn. repeat split; auto; lia. Qed.

  (** After the last chunk the batch is empty and everything before is posted. *)
  Lemma continue_split s rest t l1 l2 : concat (bodies l1) = input rs l1 -> brep (w_batch s) (timed_writes rs l2) ->
    concat (bodies l2) ++ concat rest = input rs l2 ->
    exists k1 k2, l1 ++ l2 = k1 ++ k2 /\ concat (bodies k1) = input rs k1 /\ brep (w_batch (continue s rest t)) (timed_writes rs k2) /\
      concat (bodies k2) ++ held (continue s rest t) = input rs k2 /\ (idle (continue s rest t) = true -> posts k2 = []).
  Proof.
    intros B1 R E. rewrite continue_held. destruct rest as [|x rest].
    - exists (l1 ++ l2), []. rewrite app_nil_r. split; auto. split.
      + rewrite bodies_app, concat_app, input_app. cbn [concat] in E. rewrite app_nil_r in E. congruence.
      + split; [cbn [continue w_batch]; eapply brep_reset; eauto|]. auto.
    - exists l1, l2. split; auto. split; auto. split; auto. split; auto. discriminate.
  Qed.

  (** A silent step: nothing received or posted, batch and position as far as data are concerned unchanged. *)
  Lemma winv_silent s tr s' o : winv s tr -> messages o = [] -> posts o = [] -> w_batch s' = w_batch s ->
    held s' = held s -> remaining s' = remaining s -> idle s' = idle s -> w_n s' = w_n s -> (match w_pc s' with WSend [] => False | _ => True end) -> winv s' (tr ++ o).
  Proof.
    intros [(l1 & l2 & -> & B1 & R & E & Id) N F En Re] Mo Po Eb Eh Er Ei Enn Wr.
    assert (Bo : bodies o = []) by (unfold bodies; rewrite Po; auto).
    assert (Io : input rs o = []) by (unfold input; rewrite Mo; auto).
    assert (To : timed_writes rs o = []) by (unfold timed_writes; rewrite Mo; auto).
    constructor.
    - exists l1, (l2 ++ o). rewrite app_assoc. split; auto. split; auto. rewrite Eb, Eh, Ei, timed_app, To, app_nil_r, bodies_app, Bo, app_nil_r, input_app, Io, app_nil_r, posts_app, Po, app_nil_r. auto.
    - rewrite posts_app, Po, app_nil_r, Enn. auto.
    - rewrite bodies_app, Bo, app_nil_r, Er. auto.
    - rewrite bodies_app, Bo, app_nil_r, Er. intros T. apply En. apply tame_app in T. tauto.
    - auto.
  Qed.

  Lemma winv_micro s tr o s' : winv s tr -> micro s o s' -> winv s' (tr ++ o).
  Proof.
    intros I M. destruct M as [s t d P|s r P -> L|s r P -> L|s t P Hs|s t P Hs|s ch rest r t P Ho|s ch rest r P Ho Hr|s a rest t P Hc|s|s P Hc|s P Hc|s t t' a r o Hr Hc E|s l r o Hr Hi Hst E].
    - (* message *)
      destruct I as [(l1 & l2 & -> & B1 & R & E & Id) N F En Re].
      assert (Hh : held s = b_buf (w_batch s)) by (unfold held; rewrite P; auto).
      assert (Hi : idle s = true) by (unfold idle; rewrite P; auto).
      assert (Hp : posts l2 = []) by auto. assert (Hb : bodies l2 = []) by (unfold bodies; rewrite Hp; auto).
      assert (Hrm : remaining s = []) by (unfold remaining; rewrite P; auto).
      assert (Hpm : posts [VMsg t d] = []) by auto. assert (Hbm : bodies [VMsg t d] = []) by auto.
      assert (R' := brep_batchAppend rs _ _ d t R).
      assert (Tw : timed_writes rs (l2 ++ [VMsg t d]) = timed_writes rs l2 ++ map (fun x => (t, x)) (writes_of rs d)).
      { rewrite timed_app. f_equal. unfold timed_writes. cbn [messages flat_map app fst snd]. rewrite app_nil_r. auto. }
      constructor.
      + exists l1, (l2 ++ [VMsg t d]). rewrite app_assoc. split; auto. split; auto. cbn [w_batch]. rewrite Tw. split; auto. split.
        * rewrite bodies_app, Hb, Hbm. cbn [app concat]. unfold held. cbn [w_pc w_batch]. rewrite <- timed_input, Tw. apply R'.
        * intros _. rewrite posts_app, Hp, Hpm. auto.
      + rewrite posts_app, Hpm, app_nil_r. auto.
      + rewrite bodies_app, Hbm, app_nil_r. rewrite Hrm in F. exact F.
      + rewrite bodies_app, Hbm, app_nil_r. rewrite Hrm in En. intros T. apply En. apply tame_app in T. tauto.
      + cbn. auto.
    - eapply winv_silent; eauto; unfold held, remaining, idle; cbn [w_pc w_batch]; rewrite ?P; auto.
    - eapply winv_silent; eauto; unfold held, remaining, idle; cbn [w_pc w_batch]; rewrite ?P; auto.
    - eapply winv_silent; eauto; rewrite ?P; auto.
    - (* send *)
      destruct I as [(l1 & l2 & -> & B1 & R & E & Id) N F En Re].
      assert (Hh : held s = b_buf (w_batch s)) by (unfold held; rewrite P; auto).
      assert (Hi : idle s = true) by (unfold idle; rewrite P; auto).
      assert (Hp : posts l2 = []) by auto. assert (Hb : bodies l2 = []) by (unfold bodies; rewrite Hp; auto).
      assert (Hrm : remaining s = []) by (unfold remaining; rewrite P; auto).
      set (s1 := mkW (w_batch s) _ _ _ _ _ _ _ _). set (cs := split_all _ _).
      assert (Ec : concat cs = b_buf (w_batch s)) by (apply split_all_concat; auto).
      assert (Eb : b_buf (w_batch s) = input rs l2) by (rewrite <- timed_input; apply R).
      constructor.
      + rewrite <- app_assoc. apply continue_split; auto.
        * rewrite timed_app. change (timed_writes rs [VWake t; VSend]) with (@nil (Z * bytes)). rewrite app_nil_r. auto.
        * rewrite bodies_app, Hb, input_app. change (input rs [VWake t; VSend]) with (@nil ascii). rewrite app_nil_r. cbn [app concat]. change (bodies [VWake t; VSend]) with (@nil bytes). cbn [concat app]. rewrite ?app_nil_r. etransitivity; [exact Ec|exact Eb].
      + rewrite posts_app, continue_n. change (posts [VWake t; VSend]) with (@nil (chunk * response)). rewrite app_nil_r. auto.
      + rewrite bodies_app, continue_rem. change (bodies [VWake t; VSend]) with (@nil bytes). rewrite app_nil_r. apply Forall_app. rewrite Hrm, app_nil_r in F. split; auto.
        apply Forall_forall. intros x Ix. split.
        * apply (proj1 (Forall_forall _ _) (split_all_nonempty (wc_size c) (b_buf (w_batch s)) Hsize) x Ix).
        * apply (proj1 (Forall_forall _ _) (split_all_size (wc_size c) (b_buf (w_batch s)) Hsize) x Ix).
      + rewrite bodies_app, continue_rem. change (bodies [VWake t; VSend]) with (@nil bytes). rewrite app_nil_r. rewrite Hrm, app_nil_r in En. intros T. apply Forall_app.
        apply tame_app in T. destruct T as [T _]. split; auto. apply tame_app in T. destruct T as [_ T]. apply tame_input in T.
        apply split_ended; rewrite Eb; tauto.
      + rewrite continue_pc. destruct cs; auto.
    - (* post *)
      destruct I as [(l1 & l2 & -> & B1 & R & E & Id) N F En Re].
      assert (Hh : held s = ch ++ concat rest) by (unfold held; rewrite P; auto).
      assert (Hrm : remaining s = ch :: rest) by (unfold remaining; rewrite P; auto).
      set (o := [VPost (w_n s) ch r]). assert (Hbo : bodies o = [ch]) by auto. assert (Hio : input rs o = []) by auto.
      constructor.
      + rewrite <- app_assoc. apply continue_split; auto.
        * rewrite timed_app. change (timed_writes rs o) with (@nil (Z * bytes)). rewrite app_nil_r. auto.
        * rewrite bodies_app, Hbo, input_app, Hio, app_nil_r, concat_app. cbn [concat]. rewrite app_nil_r, <- app_assoc. congruence.
      + rewrite posts_app, continue_n, map_app. cbn [w_n]. rewrite seq_S. f_equal. exact N.
      + rewrite bodies_app, continue_rem, Hbo, <- app_assoc. rewrite Hrm in F. auto.
      + intros T. rewrite bodies_app, continue_rem, Hbo, <- (app_assoc (bodies _)). rewrite Hrm in En. apply En. apply tame_app in T. tauto.
      + rewrite continue_pc. destruct rest; auto.
    - destruct I as [(l1 & l2 & -> & B1 & R & E & Id) N F En Re].
      assert (Hh : held s = ch ++ concat rest) by (unfold held; rewrite P; auto).
      assert (Hrm : remaining s = ch :: rest) by (unfold remaining; rewrite P; auto).
      set (o := [VPost (w_n s) ch r]). assert (Hbo : bodies o = [ch]) by auto. assert (Hio : input rs o = []) by auto.
      constructor.
      + exists l1, (l2 ++ o). rewrite app_assoc. split; auto. split; auto. rewrite timed_app. change (timed_writes rs o) with (@nil (Z * bytes)). rewrite app_nil_r.
        split; auto. split; [|discriminate]. unfold held. cbn [w_pc]. rewrite bodies_app, Hbo, input_app, Hio, app_nil_r, concat_app. cbn [concat]. rewrite app_nil_r, <- app_assoc. congruence.
      + rewrite posts_app, map_app. cbn [w_n]. rewrite seq_S. f_equal. exact N.
      + rewrite bodies_app, Hbo, <- app_assoc. rewrite Hrm in F. auto.
      + intros T. rewrite bodies_app, Hbo, <- (app_assoc (bodies _)). rewrite Hrm in En. apply En. apply tame_app in T. tauto.
      + cbn. auto.
    - destruct I as [(l1 & l2 & -> & B1 & R & E & Id) N F En Re].
      assert (Hh : held s = concat rest) by (unfold held; rewrite P; auto).
      assert (Hrm : remaining s = rest) by (unfold remaining; rewrite P; auto).
      set (o := [VHand a]). assert (Hbo : bodies o = []) by auto. assert (Hio : input rs o = []) by auto.
      constructor.
      + rewrite <- app_assoc. apply continue_split; auto.
        * rewrite timed_app. change (timed_writes rs o) with (@nil (Z * bytes)). rewrite app_nil_r. auto.
        * rewrite bodies_app, Hbo, input_app, Hio, !app_nil_r. congruence.
      + rewrite posts_app, continue_n. change (posts o) with (@nil (chunk * response)). rewrite app_nil_r. exact N.
      + rewrite bodies_app, continue_rem, Hbo, app_nil_r. rewrite Hrm in F. auto.
      + rewrite bodies_app, continue_rem, Hbo, app_nil_r. rewrite Hrm in En. intros T. apply En. apply tame_app in T. tauto.
      + rewrite continue_pc. destruct rest; auto.
    - eapply winv_silent; eauto. destruct I. auto.
    - eapply winv_silent; eauto; unfold held, remaining, idle; cbn [w_pc w_batch]; rewrite ?P; destruct retrying; auto.
    - eapply winv_silent; eauto; unfold held, remaining, idle; cbn [w_pc w_batch]; rewrite ?P; auto.
    - eapply winv_silent; eauto; try apply vretry_msgs; try apply vretry_posts. destruct I. auto.
    - eapply winv_silent; eauto; try apply vretry_msgs; try apply vretry_posts. destruct I. auto.
  Qed.

  Lemma winv_new cap now : 0 <= cap -> winv (newWorker cap now) [].
  Proof.
    intros H. constructor; cbn [newWorker w_batch w_pc]; auto; try apply Forall_nil; try (intros; apply Forall_nil).
    exists [], []. split; auto. split; auto. split; [|split; auto]. split; [apply Inv_New; auto|]. cbn. auto.
  Qed.

  Lemma winv_run cap now ls s tr : 0 <= cap -> wrun c (newWorker cap now) ls = Some (s, tr) -> winv s tr.
  Proof.
    intros Hc H. apply run_micros in H. remember (newWorker cap now) as s0. induction H; subst; [apply winv_new; auto|]. eapply winv_micro; eauto.
  Qed.
End Micro.
