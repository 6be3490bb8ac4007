(** When a batch is forwarded, and what batch_max_count counts: writer/writer.go:167-212 and 214-243,
    listener/listener.go:229-311 and 365-388.  No new model: the models are Writer.v and Listener.v. *)
From Verif Require Import Base LinesSpec Batch BatchProofs Splitter SplitterProofs Rules Retry RetrySpec Writer WriterSpec WriterProofs WriterTop
  Listener ListenerSpec ListenerProofs HttpProofs.
Local Open Scope Z_scope.

(* ------------------------------------------------------------------ *)
(** * Specification *)

(** How long ago the first of some writes was made; nothing has age 0. *)
Definition oldest {A} (pw : list (Z * A)) (t : Z) : Z := match pw with [] => 0 | (t0, _) :: _ => t - t0 end.
Definition volume (ds : list bytes) : Z := Z.of_nat (length (concat ds)).

(** A limit of the writer is reached by the writes [pw]; the n-th write counts one, whatever it is. *)
Definition writer_limit (c : wcfg) (pw : list (Z * bytes)) (t : Z) : Prop :=
  wc_count c <= Z.of_nat (length pw) \/ Z.of_nat (wc_size c) <= volume (map snd pw) \/ wc_age c <= oldest pw t.

(** What an HTTP listener holds: the appended pieces (time, request, data) since the "sent" counter last went up. *)
Fixpoint http_held (pf : nat -> bool) (c : lconf) (h : hstate) (pend : list (Z * (nat * bytes))) (labs : list (hlabel * Z)) : list (Z * (nat * bytes)) :=
  match labs with
  | [] => pend
  | lab :: labs' =>
      let h' := hstep pf c h lab in
      http_held pf c h' (if ls_sent (h_l h) <? ls_sent (h_l h') then []
                         else pend ++ map (fun e => (snd lab, e)) (skipn (length (h_log h)) (h_log h'))) labs'
  end.
Definition http_limit (c : lconf) (pend : list (Z * (nat * bytes))) (t : Z) : Prop :=
  lc_max_count c <= Z.of_nat (length pend) \/ lc_max_age c <= oldest pend t \/
  lc_max_size c - volume (map (fun e => snd (snd e)) pend) <= 65536.

(* ------------------------------------------------------------------ *)
(** * The writer *)

Section W.
  Variable c : wcfg.
  Hypothesis Hs : (1 <= wc_size c)%nat.

  Lemma shouldSend_limit b pw t : brep b pw -> (Writer.shouldSend c b t = true <-> writer_limit c pw t).
  Proof.
    intros (I & B & W & C). unfold Writer.shouldSend, writer_limit, Writes, Size, Age, volume. rewrite B, W.
    assert (A : (if Z.of_nat (length pw) <=? 0 then 0 else t - b_created b) = oldest pw t).
    { destruct pw as [|[t0 d] pw]; [reflexivity|]. cbn [length oldest]. destruct (Z.leb_spec (Z.of_nat (S (length pw))) 0); [lia|]. rewrite C. reflexivity. }
    rewrite A, !orb_true_iff, !Z.leb_le. tauto.
  Qed.

  Lemma check_flush s t s' o pw : check c s t = (s', o) -> brep (w_batch s) pw ->
    (forall t', In (VWake t') o <-> t' = t) /\ (In VSend o <-> writer_limit c pw t).
  Proof.
    intros E B. unfold check in E. pose proof (shouldSend_limit _ _ t B) as L.
    destruct (Writer.shouldSend c (w_batch s) t) eqn:Es; injection E as _ E; subst o; cbn [In]; (split; [intros t'|]).
    - split; [intros [X|[X|[]]]; congruence|intros ->; auto].
    - split; [intros _; apply L; reflexivity|auto].
    - split; [intros [X|[]]; congruence|intros ->; auto].
    - split; [intros [X|[]]; discriminate|intros X; apply L in X; discriminate].
  Qed.

  (** A flush happens at a wake-up only, and there exactly when the writes since the last flush, with those of the message
      just received, reach a limit. *)
  Lemma writer_flush cap now ls s tr l s' o : 0 <= cap -> wrun c (newWorker cap now) ls = Some (s, tr) -> wstep c s l = Some (s', o) ->
    (In VSend o -> exists t, In (VWake t) o) /\
    forall t, In (VWake t) o -> (In VSend o <-> writer_limit c (timed_writes (wc_rules c) (after_send tr ++ filter is_msg o)) t).
  Proof.
    intros Hc H St. destruct (pinv_run c Hs _ _ _ _ _ Hc H) as [[P1 P2 P3] _].
    assert (Q : forall o1, o = map VRetry o1 -> (In VSend o -> exists t, In (VWake t) o) /\
        forall t, In (VWake t) o -> (In VSend o <-> writer_limit c (timed_writes (wc_rules c) (after_send tr ++ filter is_msg o)) t)).
    { intros o1 ->. split; [|intros t]; intros X; apply in_map_iff in X as (x & X & _); discriminate. }
    assert (N : o = [] \/ (exists k b r, o = [VPost k b r]) \/ (exists a, o = [VHand a]) -> (In VSend o -> exists t, In (VWake t) o) /\
        forall t, In (VWake t) o -> (In VSend o <-> writer_limit c (timed_writes (wc_rules c) (after_send tr ++ filter is_msg o)) t)).
    { intros X. split; [|intros t]; intros Y; exfalso; destruct X as [->|[(k & b & r & ->)|(a & ->)]]; cbn in Y; intuition discriminate. }
    assert (K : forall s0 t' pre o1 pw, o = pre ++ o1 -> check c s0 t' = (s', o1) -> brep (w_batch s0) pw ->
        ~ In VSend pre -> (forall t, ~ In (VWake t) pre) -> filter is_msg o1 = [] ->
        pw = timed_writes (wc_rules c) (after_send tr ++ filter is_msg o) -> (In VSend o -> exists t, In (VWake t) o) /\
        forall t, In (VWake t) o -> (In VSend o <-> writer_limit c (timed_writes (wc_rules c) (after_send tr ++ filter is_msg o)) t)).
    { intros s0 t' pre o1 pw Eo Ec B N1 N2 _ Ep. destruct (check_flush _ _ _ _ _ Ec B) as [F1 F2]. rewrite <- Ep. subst o. split.
      - intros _. exists t'. apply in_or_app. right. apply F1. reflexivity.
      - intros t X. apply in_app_or in X as [X|X]; [destruct (N2 _ X)|]. apply F1 in X. subst t. rewrite <- F2. split.
        + intros Y. apply in_app_or in Y as [Y|Y]; [destruct (N1 Y)|exact Y].
        + intros Y. apply in_or_app. right. exact Y. }
    assert (Ck : forall s0 t' s1 o1, check c s0 t' = (s1, o1) -> filter is_msg o1 = []).
    { intros s0 t' s1 o1 E. unfold check in E. destruct (Writer.shouldSend _ _ _); injection E as _ E; subst o1; reflexivity. }
    destruct l as [t t' data|t'|t'|t'|r t|t| | | |t t'|l'].
    1-6,8,9: unfold wstep in St; destruct (w_pc s) eqn:P; try discriminate.
    - destruct (check c _ t') as [s1 o1] eqn:E. inversion St; subst. clear St.
      assert (Hi : idle s = true) by (unfold idle; rewrite P; auto).
      eapply (K _ t' [VMsg t data] o1); [reflexivity|exact E|cbn [w_batch]; apply brep_batchAppend; exact (P1 Hi)| | |exact (Ck _ _ _ _ E)|].
      + intros [X|[]]; discriminate.
      + intros t1 [X|[]]; discriminate.
      + cbn [filter is_msg]. rewrite (Ck _ _ _ _ E). rewrite timed_app. f_equal. unfold timed_writes. cbn [messages flat_map app fst snd]. rewrite app_nil_r. reflexivity.
    - destruct (0 <? r_writes (w_retry s)) eqn:L; [|discriminate]. destruct (check c _ t') as [s1 o1] eqn:E. inversion St; subst. clear St.
      eapply (K _ t' [VTookWrite] o1); [reflexivity|exact E|cbn [w_batch]; apply P1; unfold idle; rewrite P; auto| | |exact (Ck _ _ _ _ E)|].
      + intros [X|[]]; discriminate.
      + intros t1 [X|[]]; discriminate.
      + cbn [filter is_msg]. rewrite (Ck _ _ _ _ E), app_nil_r. reflexivity.
    - destruct (0 <? r_errs (w_retry s)) eqn:L; [|discriminate]. destruct (check c _ t') as [s1 o1] eqn:E. inversion St; subst. clear St.
      eapply (K _ t' [VTookErr] o1); [reflexivity|exact E|cbn [w_batch]; apply P1; unfold idle; rewrite P; auto| | |exact (Ck _ _ _ _ E)|].
      + intros [X|[]]; discriminate.
      + intros t1 [X|[]]; discriminate.
      + cbn [filter is_msg]. rewrite (Ck _ _ _ _ E), app_nil_r. reflexivity.
    - inversion St as [E]. eapply (K _ t' [] o); [reflexivity|exact E|apply P1; unfold idle; rewrite P; auto|intros []|intros t1 []|exact (Ck _ _ _ _ E)|].
      rewrite (Ck _ _ _ _ E), app_nil_r. reflexivity.
    - destruct rest as [|ch rest]; [discriminate|]. apply N. right. left. destruct (_ || _); inversion St; subst; eauto.
    - destruct (w_chan s) eqn:E; [discriminate|]. apply N. right. right. inversion St; subst; eauto.
    - destruct (w_closed s) eqn:E; [|discriminate]. apply N. left. inversion St; subst; auto.
    - destruct (r_ph (w_retry s)) eqn:E; try discriminate. apply N. left. inversion St; subst; auto.
    - cbn in St. apply N. left. inversion St; subst; auto.
    - unfold wstep in St. destruct (0 <? wc_retry c); destruct (w_pc s); try discriminate; destruct (w_chan s); try discriminate;
        destruct (retry_step c _ _) as [[r o1]|]; try discriminate; inversion St; subst; eapply Q; reflexivity.
    - cbn in St. destruct (_ && _); try discriminate; destruct (retry_step c _ _) as [[r o1]|]; try discriminate; inversion St; subst; eapply Q; reflexivity.
  Qed.
End W.

(** Without rules every message is one write; with rules every line kept is one. *)
Lemma count_no_rules tr : length (timed_writes [] tr) = length (messages tr).
Proof. unfold timed_writes. induction (messages tr) as [|m l IH]; [reflexivity|]. cbn [flat_map]. rewrite app_length, IH. reflexivity. Qed.

(* ------------------------------------------------------------------ *)
(** * The HTTP listener *)

Lemma publish_fold_sent pf : forall cs s, ls_sent (fold_left (publish pf) cs s) = ls_sent s.
Proof. induction cs as [|x cs IH]; intros s; cbn [fold_left]; auto. rewrite IH. auto. Qed.

Definition tdata (e : Z * (nat * bytes)) : Z * bytes := (fst e, snd (snd e)).
Definition hheld (h : hstate) (pend : list (Z * (nat * bytes))) : Prop :=
  brep (ls_batch (h_l h)) (map tdata pend) /\ Forall (fun e => snd (snd e) <> []) pend.

Lemma sendBatch_sent pf l t : ls_sent (sendBatch pf l t) = ls_sent l + (if Size (ls_batch l) <? 1 then 0 else 1).
Proof.
  unfold sendBatch. destruct (Size (ls_batch l) <? 1); [lia|]. unfold set_batch. cbn [ls_sent]. rewrite publish_fold_sent. reflexivity.
Qed.
Lemma sendBatch_batch pf l t : ls_batch (sendBatch pf l t) = if Size (ls_batch l) <? 1 then ls_batch l else Reset (ls_batch l) t.
Proof. unfold sendBatch. destruct (Size (ls_batch l) <? 1); [reflexivity|]. unfold set_batch. cbn [ls_batch]. rewrite publish_fold_batch. reflexivity. Qed.

Lemma reset_none b t : Inv b -> brep (Reset b t) [].
Proof. intros (I1 & I2 & I3). unfold brep, Reset, Inv, Size; cbn. repeat split; auto; lia. Qed.

Lemma held_size h pend : hheld h pend -> (Size (ls_batch (h_l h)) <? 1) = match pend with [] => true | _ => false end.
Proof.
  intros [(I & B & W & C) F]. unfold Size. rewrite B. destruct pend as [|[t [i d]] pend]; [reflexivity|]. cbn [map tdata fst snd concat].
  inversion F as [|x l F1 F2]. subst. cbn [snd] in F1. rewrite app_length. destruct d; [congruence|]. cbn [length]. apply Z.ltb_ge. lia.
Qed.

Lemma oldest_tdata pend t : oldest (map tdata pend) t = oldest pend t.
Proof. destruct pend as [|[t0 [i d]] pend]; reflexivity. Qed.

Lemma lshould_limit c h pend t : hheld h pend -> (Listener.shouldSend c (ls_batch (h_l h)) t = true <-> http_limit c pend t).
Proof.
  intros [(I & B & W & C) F]. unfold Listener.shouldSend, http_limit, Writes, Size, Age, volume, maxUDPDatagramSize. rewrite B, W.
  assert (A : (if Z.of_nat (length (map tdata pend)) <=? 0 then 0 else t - b_created (ls_batch (h_l h))) = oldest pend t).
  { rewrite <- oldest_tdata. destruct (map tdata pend) as [|[t0 d] pw]; [reflexivity|]. cbn [length oldest]. destruct (Z.leb_spec (Z.of_nat (S (length pw))) 0); [lia|]. rewrite C. reflexivity. }
  rewrite A, map_length, map_map. cbn [tdata snd].
  destruct (Z.leb_spec (lc_max_count c) (Z.of_nat (length pend))); [tauto|].
  destruct (Z.leb_spec (lc_max_age c) (oldest pend t)); [tauto|].
  destruct (Z.leb_spec (lc_max_size c - Z.of_nat (length (concat (map (fun x => snd (snd x)) pend)))) 65536); [tauto|].
  split; [discriminate|]. intros [X|[X|X]]; lia.
Qed.

Lemma age_oldest h pend t : hheld h pend -> Age (ls_batch (h_l h)) t = oldest pend t.
Proof.
  intros [(I & B & W & C) F]. unfold Age. rewrite W, <- oldest_tdata.
  destruct (map tdata pend) as [|[t0 d] pw]; [reflexivity|]. cbn [length oldest]. destruct (Z.leb_spec (Z.of_nat (S (length pw))) 0); [lia|]. rewrite C. reflexivity.
Qed.

Lemma held_entry h pend b i d t : hheld h pend -> d <> [] -> brep b (map tdata pend ++ [(t, d)]) ->
  forall l rs log wk, ls_batch l = b -> hheld (mkH l rs log wk) (pend ++ [(t, (i, d))]).
Proof.
  intros [_ F] D B l rs log wk E. split; cbn [h_l].
  - rewrite E, map_app. exact B.
  - apply Forall_app. split; [exact F|constructor; [exact D|constructor]].
Qed.

(** One step: what is held afterwards, and whether a batch was sent. *)
Lemma hstep_held pf c h lab pend : hheld h pend ->
  (forall segs some e i, nth_error (h_reqs h) i = Some (RLines segs some e) -> Forall (fun d => d <> []) segs) ->
  let h' := hstep pf c h lab in
  hheld h' (if ls_sent (h_l h) <? ls_sent (h_l h') then [] else pend ++ map (fun e => (snd lab, e)) (skipn (length (h_log h)) (h_log h'))) /\
  (ls_sent (h_l h') = ls_sent (h_l h) \/ ls_sent (h_l h') = ls_sent (h_l h) + 1) /\
  (ls_sent (h_l h') = ls_sent (h_l h) + 1 <->
     pend <> [] /\ match fst lab with
                   | LReq i => (exists e, nth_error (h_reqs h) i = Some (RMaybe e)) /\ http_limit c pend (snd lab)
                   | LAge => lc_max_age c <= oldest pend (snd lab)
                   end).
Proof.
  intros H G h'.
  assert (Sk : forall (l : list (nat * bytes)) x, skipn (length l) (l ++ [x]) = [x]).
  { intros l x. induction l; [reflexivity|exact IHl]. }
  assert (Sn : forall l : list (nat * bytes), skipn (length l) l = []) by (intros l; apply skipn_all).
  assert (Same : forall rs wk l, ls_batch l = ls_batch (h_l h) -> ls_sent l = ls_sent (h_l h) -> h' = mkH l rs (h_log h) wk ->
     ~ (pend <> [] /\ match fst lab with
                   | LReq i => (exists e, nth_error (h_reqs h) i = Some (RMaybe e)) /\ http_limit c pend (snd lab)
                   | LAge => lc_max_age c <= oldest pend (snd lab)
                   end) ->
     hheld h' (if ls_sent (h_l h) <? ls_sent (h_l h') then [] else pend ++ map (fun e => (snd lab, e)) (skipn (length (h_log h)) (h_log h'))) /\
     (ls_sent (h_l h') = ls_sent (h_l h) \/ ls_sent (h_l h') = ls_sent (h_l h) + 1) /\
     (ls_sent (h_l h') = ls_sent (h_l h) + 1 <-> pend <> [] /\ match fst lab with
                   | LReq i => (exists e, nth_error (h_reqs h) i = Some (RMaybe e)) /\ http_limit c pend (snd lab)
                   | LAge => lc_max_age c <= oldest pend (snd lab)
                   end)).
  { intros rs wk l Eb Es -> Nn. cbn [h_l h_log]. rewrite Es, Z.ltb_irrefl, Sn. cbn [map]. rewrite app_nil_r. split; [|split; [left; reflexivity|]].
    - destruct H as [H1 H2]. split; [cbn [h_l]; rewrite Eb; exact H1|exact H2].
    - split; [lia|tauto]. }
  assert (Send : forall rs wk l, l = sendBatch pf (h_l h) (snd lab) \/ (exists e, l = inc_read_errors (sendBatch pf (h_l h) (snd lab)) e) ->
     h' = mkH l rs (h_log h) wk ->
     match fst lab with
                   | LReq i => (exists e, nth_error (h_reqs h) i = Some (RMaybe e)) /\ http_limit c pend (snd lab)
                   | LAge => lc_max_age c <= oldest pend (snd lab)
                   end ->
     hheld h' (if ls_sent (h_l h) <? ls_sent (h_l h') then [] else pend ++ map (fun e => (snd lab, e)) (skipn (length (h_log h)) (h_log h'))) /\
     (ls_sent (h_l h') = ls_sent (h_l h) \/ ls_sent (h_l h') = ls_sent (h_l h) + 1) /\
     (ls_sent (h_l h') = ls_sent (h_l h) + 1 <-> pend <> [] /\ match fst lab with
                   | LReq i => (exists e, nth_error (h_reqs h) i = Some (RMaybe e)) /\ http_limit c pend (snd lab)
                   | LAge => lc_max_age c <= oldest pend (snd lab)
                   end)).
  { intros rs wk l El -> Y. cbn [h_l h_log].
    assert (E1 : ls_sent l = ls_sent (h_l h) + (match pend with [] => 0 | _ => 1 end)).
    { destruct El as [->|[e ->]]; cbn [inc_read_errors ls_sent]; rewrite sendBatch_sent, (held_size _ _ H); destruct pend; reflexivity. }
    assert (E2 : ls_batch l = match pend with [] => ls_batch (h_l h) | _ => Reset (ls_batch (h_l h)) (snd lab) end).
    { destruct El as [->|[e ->]]; cbn [inc_read_errors ls_batch]; rewrite sendBatch_batch, (held_size _ _ H); destruct pend; reflexivity. }
    rewrite E1, Sn. cbn [map]. rewrite app_nil_r. destruct pend as [|p pend].
    - rewrite Z.add_0_r, Z.ltb_irrefl. split; [split; [cbn [h_l]; rewrite E2; apply H|constructor]|]. split; [left; reflexivity|]. split; [lia|tauto].
    - replace (ls_sent (h_l h) <? ls_sent (h_l h) + 1) with true by (symmetry; apply Z.ltb_lt; lia).
      split; [split; [cbn [h_l map]; rewrite E2; apply reset_none; apply H|constructor]|]. split; [right; reflexivity|]. split; [intros _; split; [discriminate|exact Y]|reflexivity]. }
  assert (Eh : h' = hstep pf c h lab) by reflexivity. clearbody h'. destruct lab as [[i|] t]; cbn [fst snd] in *.
  - destruct (nth_error (h_reqs h) i) as [r|] eqn:Ei; unfold hstep, req_step in Eh; cbn [fst snd] in Eh; rewrite Ei in Eh;
      [|apply (Same (h_reqs h) (h_wake h) (h_l h)); [reflexivity|reflexivity|rewrite Eh; destruct h; reflexivity|intros (_ & [e X] & _); discriminate]].
    destruct r as [body sched|segs some e|e|g].
    + destruct (ReadFrom (ls_batch (h_l h)) body sched t) as [[[[b tot] rest] e]|] eqn:E;
        [|apply (Same (h_reqs h) (h_wake h) (h_l h)); [reflexivity|reflexivity|rewrite Eh; destruct h; reflexivity|intros (_ & [e X] & _); discriminate]].
      destruct H as [Hb Hf]. destruct (ReadFrom_buf _ _ _ _ _ _ _ _ (proj1 Hb) E) as (B1 & B2 & B3 & B4 & B5 & _).
      destruct Hb as (I & B & W & C).
      destruct tot as [|x tot].
      * cbn [nonnil] in B3. rewrite app_nil_r in B2. subst h'. cbn [h_l h_log inc_read_errors set_batch ls_sent ls_batch].
        rewrite Z.ltb_irrefl, Sn. cbn [map]. rewrite app_nil_r. split; [|split; [left; reflexivity|split; [lia|intros (_ & [e' X] & _); discriminate]]].
        split; [|exact Hf]. split; [exact B1|]. cbn [h_l inc_read_errors set_batch ls_batch]. rewrite B2, B3, W. split; [exact B|]. split; [lia|].
        destruct (map tdata pend) as [|[t0 d0] pw] eqn:Ep; [exact Logic.I|]. rewrite B5; [exact C|right; reflexivity|rewrite W; cbn [length]; lia].
      * subst h'. cbn [h_l h_log inc_received set_batch ls_sent ls_batch]. rewrite Z.ltb_irrefl, Sk. cbn [map].
        split; [|split; [left; reflexivity|split; [lia|intros (_ & [e' X] & _); discriminate]]].
        apply (held_entry h pend b); [split; [repeat split; auto; apply I|exact Hf]|discriminate| |reflexivity].
        cbn [nonnil] in B3, B4. split; [exact B1|]. rewrite B2, B3, W, B, map_app, concat_app, app_length. cbn [map snd concat length].
        rewrite app_nil_r. split; [reflexivity|]. split; [lia|].
        destruct (map tdata pend) as [|[t0 d0] pw] eqn:Ep; cbn [app]; [apply B4; [reflexivity|rewrite W; reflexivity]|].
        rewrite B5; [exact C|left|]; rewrite W; cbn [length]; lia.
    + destruct segs as [|l segs].
      * destruct some; (eapply Same; [| |exact Eh|]; [reflexivity|reflexivity|intros (_ & [e' X] & _); discriminate]).
      * pose proof (G _ _ _ _ Ei) as F. inversion F as [|x0 l0 F1 F2]. subst. cbn [h_l h_log set_batch ls_sent].
        rewrite Z.ltb_irrefl, Sk. cbn [map]. split; [|split; [left; reflexivity|split; [lia|intros (_ & [e' X] & _); discriminate]]].
        eapply held_entry; [exact H|exact F1|apply brep_append; apply H|reflexivity].
    + unfold maybeSendBatch in Eh. pose proof (lshould_limit c h pend t H) as L. destruct (Listener.shouldSend c (ls_batch (h_l h)) t) eqn:Es.
      * eapply Send; [right; exists e; reflexivity|exact Eh|]. split; [exists e; reflexivity|]. apply L. reflexivity.
      * eapply Same; [| |exact Eh|]; [reflexivity|reflexivity|]. intros (_ & _ & X). apply L in X. discriminate.
    + apply (Same (h_reqs h) (h_wake h) (h_l h)); [reflexivity|reflexivity|rewrite Eh; destruct h; reflexivity|intros (_ & [e X] & _); discriminate].
  - unfold hstep, age_step in Eh. cbn [fst snd] in Eh. pose proof (age_oldest h pend t H) as A.
    destruct (Z.leb_spec (lc_max_age c) (Age (ls_batch (h_l h)) t)) as [L|L].
    + eapply Send; [left; reflexivity|exact Eh|]. rewrite <- A. exact L.
    + eapply Same; [| |exact Eh|]; [reflexivity|reflexivity|]. rewrite <- A. intros (_ & X). lia.
Qed.

(** Pieces still to be appended are never empty. *)
Definition segs_ok (h : hstate) : Prop :=
  forall segs some e i, nth_error (h_reqs h) i = Some (RLines segs some e) -> Forall (fun d => d <> []) segs.
Lemma start_segs q segs some e : start_req q = RLines segs some e -> Forall (fun d => d <> []) segs.
Proof.
  unfold start_req. destruct (_ || _); [discriminate|]. destruct (scan_tokens _ _) as [toks e0]. intros E. injection E as E _ _. subst segs.
  unfold precision_segments. apply Forall_forall. intros d D. apply in_map_iff in D as (l & <- & D). apply filter_In in D as [_ D].
  apply apply_nonempty. intros ->. discriminate D.
Qed.
Lemma segs_init c t0 qs : segs_ok (hinit c t0 qs).
Proof.
  intros segs some e i E. cbn [hinit h_reqs] in E. rewrite nth_error_map in E. destruct (nth_error qs i) as [q|]; [|discriminate]. cbn in E. injection E as E. exact (start_segs _ _ _ _ E).
Qed.
Lemma segs_step pf c h lab : segs_ok h -> segs_ok (hstep pf c h lab).
Proof.
  intros G. destruct lab as [[i|] t]; unfold hstep; cbn [fst snd]; [|exact G]. unfold req_step.
  destruct (nth_error (h_reqs h) i) as [r|] eqn:Ei; [|exact G].
  assert (U : forall r', (forall segs some e, r' = RLines segs some e -> Forall (fun d => d <> []) segs) -> forall l log wk, segs_ok (mkH l (set_nth i r' (h_reqs h)) log wk)).
  { intros r' F l log wk segs some e j E. cbn [h_reqs] in E. rewrite nth_set_nth in E. destruct (Nat.eqb_spec i j) as [->|Nj].
    - rewrite Ei in E. injection E as E. exact (F _ _ _ E).
    - exact (G _ _ _ _ E). }
  destruct r as [body sched|segs some e|e|g]; [| | |exact G].
  - destruct (ReadFrom _ _ _ _) as [[[[b tot] rest] e]|]; [|exact G]. destruct tot; apply U; intros; discriminate.
  - destruct segs as [|l segs]; [destruct some; apply U; intros; discriminate|]. apply U. intros s1 s2 s3 E. injection E as <- _ _.
    pose proof (G _ _ _ _ Ei) as F. inversion F. assumption.
  - apply U. intros; discriminate.
Qed.

Lemma held_run pf c : forall labs h pend, hheld h pend -> segs_ok h -> hheld (hrun pf c h labs) (http_held pf c h pend labs) /\ segs_ok (hrun pf c h labs).
Proof.
  induction labs as [|lab labs IH]; intros h pend H G; [split; assumption|]. cbn [http_held]. unfold hrun. cbn [fold_left]. apply IH.
  - exact (proj1 (hstep_held pf c h lab pend H G)).
  - apply segs_step. exact G.
Qed.

Theorem http_flush : forall pf c t0 qs labs lab, 0 <= lc_max_size c ->
  let h := hrun pf c (hinit c t0 qs) labs in
  let h' := hstep pf c h lab in
  let pend := http_held pf c (hinit c t0 qs) [] labs in
  (ls_sent (h_l h') = ls_sent (h_l h) \/ ls_sent (h_l h') = ls_sent (h_l h) + 1) /\
  (ls_sent (h_l h') = ls_sent (h_l h) + 1 <->
     pend <> [] /\ match fst lab with
                   | LReq i => (exists e, nth_error (h_reqs h) i = Some (RMaybe e)) /\ http_limit c pend (snd lab)
                   | LAge => lc_max_age c <= oldest pend (snd lab)
                   end).
Proof.
  intros pf c t0 qs labs lab Hc h h' pend.
  assert (H0 : hheld (hinit c t0 qs) []).
  { split; [|constructor]. split; [|repeat split]. unfold hinit, newListener, New, Inv, Size. cbn. lia. }
  destruct (held_run pf c labs _ _ H0 (segs_init c t0 qs)) as [H G].
  destruct (hstep_held pf c h lab pend H G) as (_ & A & B). split; assumption.
Qed.

(** What is held is a part of the history. *)
Lemma held_log pf c : forall labs h pend pre, h_log h = pre ++ map snd pend ->
  exists pre', h_log (hrun pf c h labs) = pre' ++ map snd (http_held pf c h pend labs).
Proof.
  induction labs as [|lab labs IH]; intros h pend pre E; [exists pre; exact E|]. cbn [http_held]. unfold hrun. cbn [fold_left].
  assert (L : exists new, h_log (hstep pf c h lab) = h_log h ++ new).
  { assert (N : exists new, h_log h = h_log h ++ new) by (exists []; symmetry; apply app_nil_r).
    destruct lab as [[i|] t]; unfold hstep; cbn [fst snd]; [|exact N]. unfold req_step.
    destruct (nth_error (h_reqs h) i) as [[body sched|[|l segs] some e|e|g]|]; try exact N.
    - destruct (ReadFrom _ _ _ _) as [[[[b [|x tot]] rest] e]|]; try exact N. eexists. reflexivity.
    - destruct some; exact N.
    - eexists. reflexivity. }
  destruct L as [new L]. rewrite L, skipn_app, skipn_all, Nat.sub_diag. cbn [app skipn].
  destruct (ls_sent (h_l h) <? ls_sent (h_l (hstep pf c h lab))).
  - eapply IH. cbn [map]. rewrite app_nil_r. reflexivity.
  - eapply IH. rewrite L, E, map_app, map_map, <- app_assoc. cbn [snd]. rewrite map_id. reflexivity.
Qed.

(** A nanosecond request is one write at most. *)
Theorem nanos_one : forall pf c t0 qs labs i q, 0 <= lc_max_size c -> nth_error qs i = Some q ->
  q_precision q = [] \/ q_precision q = lit "ns" ->
  (length (filter (fun e => Nat.eqb (fst (snd e)) i) (http_held pf c (hinit c t0 qs) [] labs)) <= 1)%nat.
Proof.
  intros pf c t0 qs labs i q Hc Hq Hp.
  destruct (held_log pf c labs (hinit c t0 qs) [] [] eq_refl) as [pre E].
  destruct (hrun_rel pf c t0 qs labs Hc) as [_ _ Rq _ _ _]. destruct (Rq _ _ Hq) as (r & _ & R).
  assert (O : (length (entries i (h_log (hrun pf c (hinit c t0 qs) labs))) <= 1)%nat).
  { assert (Es : start_req q = RNanos (q_body q) (q_sched q)) by (unfold start_req; destruct Hp as [-> | ->]; reflexivity).
    rewrite Es in R. cbn [rrel] in R. destruct R as [[_ ->]|(rs & Q1 & Q2 & _)]; [cbn; lia|]. destruct Q2 as [->|(d & -> & _)]; cbn; lia. }
  rewrite E, entries_app, app_length in O. unfold entries at 2 in O. rewrite map_length in O.
  set (pend := http_held pf c (hinit c t0 qs) [] labs) in *.
  assert (X : length (filter (fun e : nat * bytes => Nat.eqb (fst e) i) (map snd pend)) = length (filter (fun e => Nat.eqb (fst (snd e)) i) pend)).
  { clear. induction pend as [|[t [j d]] l IH]; [reflexivity|]. cbn [map filter snd fst]. destruct (Nat.eqb j i); cbn [length]; rewrite IH; reflexivity. }
  lia.
Qed.
