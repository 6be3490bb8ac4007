From Verif Require Import Base Stats StatsSpec.
Local Open Scope Z_scope.

Lemma index_from_range names : forall i n j, index_from i names n = Some j ->
  (i <= j < i + length names)%nat /\ nth_error names (j - i) = Some n.
Proof.
  induction names as [|x r IH]; simpl; intros i n j H; try congruence.
  destruct (index_from (S i) r n) as [k|] eqn:E.
  - inversion H; subst k. apply IH in E. destruct E as [E1 E2]. split; [lia|].
    replace (j - i)%nat with (S (j - S i)) by lia. exact E2.
  - destruct (beqs x n) eqn:B; inversion H; subst. apply beqs_eq in B; subst.
    split; [lia|]. replace (j - j)%nat with O by lia. reflexivity.
Qed.

Lemma index_from_In names : forall i n, In n names <-> index_from i names n <> None.
Proof.
  induction names as [|x r IH]; simpl; intros i n; [tauto|].
  specialize (IH (S i) n). destruct (index_from (S i) r n) as [k|].
  - split; [congruence|]. intros _. right. apply IH. congruence.
  - destruct (beqs x n) eqn:B.
    + apply beqs_eq in B. subst. split; [congruence|auto].
    + apply beqs_neq in B. split; [|congruence]. intros [->|H]; [congruence|]. apply IH in H. congruence.
Qed.

Lemma lookup_inj names n m i : lookup names n = Some i -> lookup names m = Some i -> n = m.
Proof.
  unfold lookup. intros H1 H2. apply index_from_range in H1. apply index_from_range in H2.
  destruct H1 as [_ H1], H2 as [_ H2]. congruence.
Qed.

Lemma lookup_lt names n i : lookup names n = Some i -> (i < length names)%nat.
Proof. unfold lookup. intros H. apply index_from_range in H. lia. Qed.

Lemma set_nth_length {A} (l : list A) i x : length (set_nth l i x) = length l.
Proof. revert i; induction l; destruct i; simpl; auto. Qed.

Lemma nth_set_same (l : list Z) i x d : (i < length l)%nat -> nth i (set_nth l i x) d = x.
Proof. revert i; induction l; destruct i; simpl; intros; auto; try lia. apply IHl. lia. Qed.

Lemma nth_set_other (l : list Z) i j x d : i <> j -> nth j (set_nth l i x) d = nth j l d.
Proof. revert i j; induction l; destruct i, j; simpl; intros; auto; try lia. Qed.

Lemma nth_error_set_same {A} (l : list A) i x : (i < length l)%nat -> nth_error (set_nth l i x) i = Some x.
Proof. revert i; induction l; destruct i; simpl; intros; auto; try lia. apply IHl. lia. Qed.

Lemma nth_error_set_other {A} (l : list A) i j (x : A) : i <> j -> nth_error (set_nth l i x) j = nth_error l j.
Proof. revert i j; induction l; destruct i, j; simpl; intros; auto; try lia. Qed.

Lemma sequential_snoc st log st' t o r st'' : sequential st log st' ->
  r = call_result o (st' (sop_name o)) ->
  (forall n, st'' n = if beqs n (sop_name o) then r else st' n) ->
  sequential st (log ++ [(t, o, r)]) st''.
Proof.
  induction 1; intros Hr Hs; simpl.
  - eapply seq_cons; eauto. constructor.
  - eapply seq_cons; eauto.
Qed.

(** The invariant: the completed calls, made one after the other, explain everything. *)
Record Inv (names : list bytes) (progs : list (list sop)) (s : sys) (log : slog) : Prop := {
  inv_len : length (s_counts s) = length names;
  inv_glen : length (s_gors s) = length progs;
  inv_range : uint64_args progs -> Forall (fun v => 0 <= v < 2 ^ 64) (s_counts s);
  inv_seq : uint64_args progs -> exists st, sequential (fun _ => 0) log st /\ forall n, st n = count names s n;
  inv_prog : forall t g, nth_error (s_gors s) t = Some g -> nth_error progs t = Some (calls_of t log ++ g_todo g);
  inv_loaded : forall t g c, nth_error (s_gors s) t = Some g -> g_loaded g = Some c ->
    exists n v rest, g_todo g = SMax n v :: rest /\ c < v;
  inv_log : forall t o v, In (t, o, v) log -> exists p, nth_error progs t = Some p /\ In o p
}.

Lemma count_set names s n i v gs m : length (s_counts s) = length names -> lookup names n = Some i ->
  count names (Sys (set_nth (s_counts s) i v) gs) m = if beqs m n then v else count names s m.
Proof.
  intros L H. unfold count; simpl. destruct (beqs m n) eqn:B.
  - apply beqs_eq in B. subst. rewrite H. apply nth_set_same. rewrite L. eapply lookup_lt; eauto.
  - apply beqs_neq in B. destruct (lookup names m) as [j|] eqn:E; auto.
    apply nth_set_other. intros ->. apply B. eapply lookup_inj; eauto.
Qed.

Lemma Forall_set_nth {A} (P : A -> Prop) l i x : Forall P l -> P x -> Forall P (set_nth l i x).
Proof. intros H Hx. revert i. induction H; destruct i; simpl; auto. Qed.

Lemma calls_of_snoc_same t log o v : calls_of t (log ++ [(t, o, v)]) = calls_of t log ++ [o].
Proof. unfold calls_of. rewrite filter_app, map_app. simpl. rewrite Nat.eqb_refl. reflexivity. Qed.

Lemma calls_of_snoc_other t t' log o v : t <> t' -> calls_of t (log ++ [(t', o, v)]) = calls_of t log.
Proof.
  intros H. unfold calls_of. rewrite filter_app, map_app. simpl.
  destruct (Nat.eqb_spec t' t); [congruence|]. simpl. apply app_nil_r.
Qed.

Lemma inv_step names progs s log t g : Inv names progs s log ->
  nth_error (s_gors s) t = Some g ->
  match gor_step names (s_counts s) g with
  | SPanic => exists o p, nth_error progs t = Some p /\ In o p /\ ~ In (sop_name o) names
  | SStep counts g' ret =>
      Inv names progs (Sys counts (set_nth (s_gors s) t g'))
        (match ret with None => log | Some (o, v) => log ++ [(t, o, v)] end)
  end.
Proof.
  intros I0 Hg. pose proof I0 as [L GL R SQ PG LD LG].
  assert (Ht : (t < length (s_gors s))%nat) by (apply nth_error_Some; congruence).
  assert (Hpt := PG _ _ Hg).
  assert (Hkeep : forall g', g_todo g' = g_todo g ->
     (forall c, g_loaded g' = Some c -> exists n v rest, g_todo g' = SMax n v :: rest /\ c < v) ->
     Inv names progs (Sys (s_counts s) (set_nth (s_gors s) t g')) log).
  { intros g' E Hl. constructor; simpl; auto.
    - rewrite set_nth_length; auto.
    - intros t' g0 H. destruct (Nat.eq_dec t t') as [<-|N].
      + rewrite nth_error_set_same in H by auto. inversion H; subst g0. rewrite E. auto.
      + rewrite nth_error_set_other in H by auto. auto.
    - intros t' g0 c H Hc. destruct (Nat.eq_dec t t') as [<-|N].
      + rewrite nth_error_set_same in H by auto. inversion H; subst g0. auto.
      + rewrite nth_error_set_other in H by auto. eauto. }
  assert (Hret : forall o rest i v, g_todo g = o :: rest -> lookup names (sop_name o) = Some i ->
     (uint64_args progs -> v = call_result o (nth i (s_counts s) 0)) ->
     (uint64_args progs -> 0 <= v < 2 ^ 64) ->
     Inv names progs (Sys (set_nth (s_counts s) i v) (set_nth (s_gors s) t (Gor rest None))) (log ++ [(t, o, v)])).
  { intros o rest i v Et Hi Hv Hr. constructor; simpl.
    - rewrite set_nth_length; auto.
    - rewrite set_nth_length; auto.
    - intros U. apply Forall_set_nth; auto.
    - intros U. destruct (SQ U) as (st & Hst & Hn).
      exists (fun n => if beqs n (sop_name o) then v else st n). split.
      + eapply sequential_snoc; [exact Hst| |reflexivity].
        rewrite Hn. unfold count. rewrite Hi. auto.
      + intros n. rewrite Hn. symmetry. apply count_set; auto.
    - intros t' g0 H. destruct (Nat.eq_dec t t') as [<-|N].
      + rewrite nth_error_set_same in H by auto. inversion H; subst g0. simpl.
        rewrite calls_of_snoc_same, <- app_assoc. simpl. rewrite <- Et. auto.
      + rewrite nth_error_set_other in H by auto. rewrite calls_of_snoc_other by auto. auto.
    - intros t' g0 c H Hc. destruct (Nat.eq_dec t t') as [<-|N].
      + rewrite nth_error_set_same in H by auto. inversion H; subst g0. discriminate Hc.
      + rewrite nth_error_set_other in H by auto. eauto.
    - intros t' o' v' H. apply in_app_iff in H. destruct H as [H|[H|[]]]; [eauto|].
      inversion H; subst t' o' v'. exists (calls_of t log ++ g_todo g). split; auto.
      apply in_app_iff. right. rewrite Et. left; auto. }
  assert (Hread : forall o rest i, g_todo g = o :: rest -> lookup names (sop_name o) = Some i ->
     (uint64_args progs -> nth i (s_counts s) 0 = call_result o (nth i (s_counts s) 0)) ->
     Inv names progs (Sys (s_counts s) (set_nth (s_gors s) t (Gor rest None))) (log ++ [(t, o, nth i (s_counts s) 0)])).
  { intros o rest i Et Hi Hv.
    assert (Hset : s_counts s = set_nth (s_counts s) i (nth i (s_counts s) 0)).
    { clear. revert i. induction (s_counts s) as [|x l IH]; destruct i; simpl; auto. f_equal. auto. }
    rewrite Hset at 1. apply Hret; auto. intros U. rewrite Forall_forall in R.
    apply R; auto. apply nth_In. rewrite L. eapply lookup_lt; eauto. }
  assert (Harg : forall n v rest, g_todo g = SMax n v :: rest -> uint64_args progs -> 0 <= v < 2 ^ 64).
  { intros n v rest Et U. unfold uint64_args in U. rewrite Forall_forall in U.
    specialize (U _ (nth_error_In _ _ Hpt)). rewrite Forall_forall in U.
    apply (U (SMax n v)). apply in_app_iff. right. rewrite Et. left; auto. }
  unfold gor_step. destruct (g_todo g) as [|o rest] eqn:Et.
  { apply Hkeep; auto. intros c Hc. rewrite Et. destruct (LD _ _ _ Hg Hc) as (n & v & r & E & _). congruence. }
  destruct (lookup names (sop_name o)) as [i|] eqn:Hi.
  2:{ exists o, (calls_of t log ++ o :: rest). split; auto. split.
      - apply in_app_iff. right. left; auto.
      - intros H. apply (index_from_In names 0) in H. unfold lookup in Hi. congruence. }
  assert (Hi' : (i < length (s_counts s))%nat) by (rewrite L; eapply lookup_lt; eauto).
  destruct o as [n|n|n v].
  - apply Hread; auto.
  - apply Hret; auto. intros _; unfold wrapu64, two64. apply Z.mod_pos_bound. lia.
  - destruct (g_loaded g) as [c|] eqn:Hl.
    + destruct (LD _ _ _ Hg Hl) as (n' & v' & r' & E & Hlt). rewrite Et in E. inversion E; subst n' v' r'.
      destruct (nth i (s_counts s) 0 =? c) eqn:Eq.
      * apply Z.eqb_eq in Eq. apply Hret; auto.
        -- intros _. simpl. rewrite Eq. lia.
        -- eapply Harg; eauto.
      * apply Hkeep; simpl; auto; try (rewrite Et; auto). discriminate.
    + destruct (v <=? nth i (s_counts s) 0) eqn:Le.
      * apply Z.leb_le in Le. apply Hread; auto. simpl. intros _. lia.
      * apply Z.leb_gt in Le. apply Hkeep; simpl; auto. intros c Hc. inversion Hc; subst c.
        exists n, v, rest. split; auto.
Qed.

Lemma init_inv names progs : Inv names progs (Sys (map (fun _ => 0) names) (map (fun p => Gor p None) progs)) [].
Proof.
  assert (Hz : forall i, nth i (map (fun _ : bytes => 0) names) 0 = 0).
  { clear. induction names as [|x l IH]; destruct i; simpl; auto. }
  constructor; simpl; auto.
  - apply map_length.
  - apply map_length.
  - intros _. apply Forall_forall. intros x H. apply in_map_iff in H. destruct H as (y & <- & _). lia.
  - intros _. exists (fun _ => 0). split; [constructor|]. intros n. unfold count; simpl.
    destruct (lookup names n); auto.
  - intros t g H. rewrite nth_error_map in H. destruct (nth_error progs t); inversion H; subst. reflexivity.
  - intros t g c H Hc. rewrite nth_error_map in H. destruct (nth_error progs t); inversion H; subst. discriminate.
  - intros t o v [].
Qed.

Lemma run_from_inv names progs : forall sched s log, Inv names progs s log ->
  match run_from names s log sched with
  | Some (s', log') => Inv names progs s' log'
  | None => exists o p, In p progs /\ In o p /\ ~ In (sop_name o) names
  end.
Proof.
  induction sched as [|t rest IH]; simpl; intros s log H; auto.
  destruct (nth_error (s_gors s) t) as [g|] eqn:E; [|apply IH; auto].
  pose proof (inv_step _ _ _ _ _ _ H E) as X. destruct (gor_step names (s_counts s) g) as [|c g' ret].
  - destruct X as (o & p & X1 & X2 & X3). exists o, p. split; [exact (nth_error_In _ _ X1)|auto].
  - apply IH. destruct ret as [[o v]|]; exact X.
Qed.

Lemma run_inv names progs sched s log : run names progs sched = Some (s, log) -> Inv names progs s log.
Proof.
  intros H. pose proof (run_from_inv names progs sched _ _ (init_inv names progs)) as X.
  unfold run in H. rewrite H in X. exact X.
Qed.

Lemma run_linear names progs sched s log : uint64_args progs -> run names progs sched = Some (s, log) ->
  (exists st, sequential (fun _ => 0) log st /\ forall n, st n = count names s n) /\
  (forall t p, nth_error progs t = Some p ->
     exists g, nth_error (s_gors s) t = Some g /\ p = calls_of t log ++ g_todo g).
Proof.
  intros U H. apply run_inv in H. split; [apply H; auto|].
  intros t p Hp. destruct (nth_error (s_gors s) t) as [g|] eqn:E.
  - exists g. split; auto. pose proof (inv_prog _ _ _ _ H _ _ E). congruence.
  - apply nth_error_None in E. rewrite (inv_glen _ _ _ _ H) in E.
    assert (t < length progs)%nat by (apply nth_error_Some; congruence). lia.
Qed.

Lemma run_no_panic names progs sched :
  (forall p o, In p progs -> In o p -> In (sop_name o) names) -> run names progs sched <> None.
Proof.
  intros H E. pose proof (run_from_inv names progs sched _ _ (init_inv names progs)) as X.
  unfold run in E. rewrite E in X. destruct X as (o & p & Hp & Ho & N). apply N. eauto.
Qed.

Lemma unknown_panics names o rest progs sched : ~ In (sop_name o) names ->
  run names ((o :: rest) :: progs) (O :: sched) = None.
Proof.
  intros H. unfold run; simpl. unfold gor_step; simpl.
  destruct (lookup names (sop_name o)) eqn:E; auto.
  exfalso. apply H. apply (index_from_In names 0). unfold lookup in E. congruence.
Qed.

(** ** Reading off totals *)

Lemma sequential_inc n : forall log st st', sequential st log st' -> maxes n log = [] ->
  0 <= st n < 2 ^ 64 -> st' n = (st n + Z.of_nat (incs n log)) mod 2 ^ 64.
Proof.
  induction 1 as [st|st t o r log st' st'' Hr Hst Hs IH]; intros Hm Hb.
  - unfold incs; simpl. rewrite Z.add_0_r. symmetry. apply Z.mod_small. auto.
  - unfold maxes in Hm, IH. unfold incs in *. simpl in *.
    destruct o as [m|m|m v]; simpl in *.
    + assert (E : st' n = st n). { rewrite Hst. destruct (beqs n m) eqn:B; auto. apply beqs_eq in B. subst; auto. }
      rewrite <- E. apply IH; auto. rewrite E; auto.
    + destruct (beqs m n) eqn:B.
      * apply beqs_eq in B. subst m. rewrite IH; auto.
        -- rewrite Hst, beqs_refl. subst r. simpl length. rewrite Z.add_mod_idemp_l by lia. f_equal. lia.
        -- rewrite Hst, beqs_refl. subst r. apply Z.mod_pos_bound. lia.
      * assert (E : st' n = st n).
        { rewrite Hst. destruct (beqs n m) eqn:B'; auto. apply beqs_eq in B'. subst. rewrite beqs_refl in B. congruence. }
        rewrite <- E. apply IH; auto. rewrite E; auto.
    + destruct (beqs m n) eqn:B; [discriminate|].
      assert (E : st' n = st n).
      { rewrite Hst. destruct (beqs n m) eqn:B'; auto. apply beqs_eq in B'. subst. rewrite beqs_refl in B. congruence. }
      rewrite <- E. apply IH; auto. rewrite E; auto.
Qed.

Lemma sequential_max n : forall log st st', sequential st log st' -> incs n log = O ->
  0 <= st n -> st' n = Z.max (st n) (largest (maxes n log)).
Proof.
  induction 1 as [st|st t o r log st' st'' Hr Hst Hs IH]; intros Hm Hb.
  - simpl. lia.
  - unfold maxes. unfold incs in Hm, IH. simpl in *.
    destruct o as [m|m|m v]; simpl in *.
    + assert (E : st' n = st n). { rewrite Hst. destruct (beqs n m) eqn:B; auto. apply beqs_eq in B. subst; auto. }
      rewrite <- E. apply IH; auto. rewrite E; auto.
    + destruct (beqs m n) eqn:B; [discriminate|].
      assert (E : st' n = st n).
      { rewrite Hst. destruct (beqs n m) eqn:B'; auto. apply beqs_eq in B'. subst. rewrite beqs_refl in B. congruence. }
      rewrite <- E. apply IH; auto. rewrite E; auto.
    + fold (maxes n log). destruct (beqs m n) eqn:B.
      * apply beqs_eq in B. subst m. rewrite IH; auto; rewrite Hst, beqs_refl; subst r; simpl; lia.
      * assert (E : st' n = st n).
        { rewrite Hst. destruct (beqs n m) eqn:B'; auto. apply beqs_eq in B'. subst. rewrite beqs_refl in B. congruence. }
        simpl. rewrite <- E. apply IH; auto. rewrite E; auto.
Qed.

Lemma count_inc names progs sched s log n : uint64_args progs -> run names progs sched = Some (s, log) ->
  maxes n log = [] -> count names s n = Z.of_nat (incs n log) mod 2 ^ 64.
Proof.
  intros U H Hm. destruct (run_linear _ _ _ _ _ U H) as [(st & Hs & E) _]. rewrite <- E.
  rewrite (sequential_inc n _ _ _ Hs Hm); [reflexivity|lia].
Qed.

Lemma count_max names progs sched s log n : uint64_args progs -> run names progs sched = Some (s, log) ->
  incs n log = O -> count names s n = largest (maxes n log).
Proof.
  intros U H Hm. destruct (run_linear _ _ _ _ _ U H) as [(st & Hs & E) _]. rewrite <- E.
  rewrite (sequential_max n _ _ _ Hs Hm); [|lia].
  assert (0 <= largest (maxes n log)) by (induction (maxes n log); simpl; lia). lia.
Qed.

Lemma max_returns names progs sched s log t n v r : uint64_args progs -> run names progs sched = Some (s, log) ->
  In (t, SMax n v, r) log -> v <= r.
Proof.
  intros U H. destruct (run_linear _ _ _ _ _ U H) as [(st & Hs & _) _]. clear H U. revert st Hs.
  generalize (fun _ : bytes => 0). induction log as [|e log IH]; intros st0 st Hs [].
  - subst e. inversion Hs; subst. simpl. lia.
  - inversion Hs; subst. eapply IH; eauto.
Qed.

Lemma run_from_app names : forall a b s log,
  run_from names s log (a ++ b) = match run_from names s log a with Some (s', log') => run_from names s' log' b | None => None end.
Proof.
  induction a as [|t a IH]; simpl; intros b s log; auto.
  destruct (nth_error (s_gors s) t); auto. destruct (gor_step names (s_counts s) g); auto.
Qed.

Lemma run_from_log names : forall sched s log s' log', run_from names s log sched = Some (s', log') ->
  exists more, log' = log ++ more.
Proof.
  induction sched as [|t r IH]; simpl; intros s log s' log' H.
  - inversion H; subst. exists []. symmetry. apply app_nil_r.
  - destruct (nth_error (s_gors s) t); eauto. destruct (gor_step names (s_counts s) g) as [|c g' [[o v]|]]; try discriminate.
    + apply IH in H. destruct H as (m & ->). exists ((t, o, v) :: m). rewrite <- app_assoc. reflexivity.
    + eauto.
Qed.

Lemma sequential_app st log st' : sequential st log st' -> forall a b, log = a ++ b ->
  exists mid, sequential st a mid /\ sequential mid b st'.
Proof.
  induction 1 as [st|st t o r log st' st'' Hr Hst Hs IH]; intros a b E.
  - destruct a; [|discriminate]. destruct b; [|discriminate]. exists st. split; constructor.
  - destruct a as [|e a]; simpl in E.
    + subst b. exists st. split; [constructor|]. econstructor; eauto.
    + inversion E; subst. destruct (IH a b eq_refl) as (mid & H1 & H2). exists mid. split; auto. econstructor; eauto.
Qed.

Lemma sequential_fun st log st' : sequential st log st' -> forall st0 st0', (forall n, st n = st0 n) ->
  sequential st0 log st0' -> forall n, st' n = st0' n.
Proof.
  induction 1 as [st|st t o r log st' st'' Hr Hst Hs IH]; intros st0 st0' E H n.
  - inversion H; subst. auto.
  - inversion H as [|s1 t1 o1 r1 l1 s2 s3 Hr' Hst' Hs' E1 E2 E3]; subst s1 t1 o1 r1 l1 s3.
    apply (IH s2 st0'); auto. intros m. rewrite Hst, Hst', E. reflexivity.
Qed.


Lemma incs_cons n t o r log : incs n ((t, o, r) :: log) =
  ((match o with SInc m => if beqs m n then 1 else 0 | _ => 0 end) + incs n log)%nat.
Proof. unfold incs. simpl. destruct o; auto. destruct (beqs n0 n); auto. Qed.

Lemma maxes_cons n t o r log : maxes n ((t, o, r) :: log) =
  (match o with SMax m v => if beqs m n then [v] else [] | _ => [] end) ++ maxes n log.
Proof. reflexivity. Qed.

Lemma sequential_mono n : forall log st st', sequential st log st' ->
  0 <= st n -> st n + Z.of_nat (incs n log) < 2 ^ 64 -> largest (maxes n log) + Z.of_nat (incs n log) < 2 ^ 64 ->
  st n <= st' n.
Proof.
  induction 1 as [st|st t o r log st' st'' Hr Hst Hs IH]; intros H0 H1 H2; [lia|].
  assert (Hlg : 0 <= largest (maxes n log)) by (clear; induction (maxes n log); simpl; lia).
  rewrite incs_cons, maxes_cons in *.
  destruct o as [m|m|m v]; cbn [call_result sop_name app Nat.add] in *.
  - assert (E : st' n = st n). { rewrite Hst. destruct (beqs n m) eqn:B; auto. apply beqs_eq in B. subst; auto. }
    rewrite <- E. apply IH; lia.
  - destruct (beqs m n) eqn:B.
    + apply beqs_eq in B. subst m. assert (E : st' n = st n + 1).
      { rewrite Hst, beqs_refl. subst r. apply Z.mod_small. lia. }
      assert (st' n <= st'' n) by (apply IH; lia). lia.
    + assert (E : st' n = st n).
      { rewrite Hst. destruct (beqs n m) eqn:B'; auto. apply beqs_eq in B'. subst. rewrite beqs_refl in B. congruence. }
      rewrite <- E. apply IH; lia.
  - destruct (beqs m n) eqn:B; cbn [app largest] in *.
    + apply beqs_eq in B. subst m. assert (E : st' n = Z.max (st n) v) by (rewrite Hst, beqs_refl; subst r; reflexivity).
      assert (st' n <= st'' n) by (apply IH; lia). lia.
    + assert (E : st' n = st n).
      { rewrite Hst. destruct (beqs n m) eqn:B'; auto. apply beqs_eq in B'. subst. rewrite beqs_refl in B. congruence. }
      rewrite <- E. apply IH; lia.
Qed.

Lemma incs_app n a b : incs n (a ++ b) = (incs n a + incs n b)%nat.
Proof. unfold incs. rewrite filter_app, app_length. reflexivity. Qed.

Lemma maxes_app n a b : maxes n (a ++ b) = maxes n a ++ maxes n b.
Proof. unfold maxes. apply flat_map_app. Qed.

Lemma largest_app a b : largest (a ++ b) = Z.max (largest a) (largest b).
Proof. assert (0 <= largest b) by (induction b; simpl; lia). induction a; simpl; lia. Qed.

Lemma sequential_bound n : forall log st st', sequential st log st' -> 0 <= st n ->
  st' n <= Z.max (st n) (largest (maxes n log)) + Z.of_nat (incs n log).
Proof.
  induction 1 as [st|st t o r log st' st'' Hr Hst Hs IH]; intros H0; [simpl; lia|].
  assert (Hlg : 0 <= largest (maxes n log)) by (clear; induction (maxes n log); simpl; lia).
  rewrite incs_cons, maxes_cons in *.
  destruct o as [m|m|m v]; cbn [call_result sop_name app Nat.add] in *.
  - assert (E : st' n = st n). { rewrite Hst. destruct (beqs n m) eqn:B; auto. apply beqs_eq in B. subst; auto. }
    rewrite <- E. apply IH; lia.
  - destruct (beqs m n) eqn:B.
    + apply beqs_eq in B. subst m.
      assert (E : st' n = (st n + 1) mod 2 ^ 64) by (rewrite Hst, beqs_refl; subst r; reflexivity).
      assert (0 <= st' n < 2 ^ 64) by (rewrite E; apply Z.mod_pos_bound; lia).
      assert (st' n <= st n + 1) by (rewrite E; apply Z.mod_le; lia).
      specialize (IH ltac:(lia)). lia.
    + assert (E : st' n = st n).
      { rewrite Hst. destruct (beqs n m) eqn:B'; auto. apply beqs_eq in B'. subst. rewrite beqs_refl in B. congruence. }
      rewrite <- E. apply IH; lia.
  - destruct (beqs m n) eqn:B; cbn [app largest] in *.
    + apply beqs_eq in B. subst m. assert (E : st' n = Z.max (st n) v) by (rewrite Hst, beqs_refl; subst r; reflexivity).
      specialize (IH ltac:(lia)). lia.
    + assert (E : st' n = st n).
      { rewrite Hst. destruct (beqs n m) eqn:B'; auto. apply beqs_eq in B'. subst. rewrite beqs_refl in B. congruence. }
      rewrite <- E. apply IH; lia.
Qed.

Lemma count_mono names progs a b s1 log1 s2 log2 n : uint64_args progs ->
  run names progs a = Some (s1, log1) -> run names progs (a ++ b) = Some (s2, log2) ->
  largest (maxes n log2) + Z.of_nat (incs n log2) < 2 ^ 64 ->
  count names s1 n <= count names s2 n.
Proof.
  intros U H1 H2 Hb.
  destruct (run_linear _ _ _ _ _ U H1) as [(st1 & Q1 & E1) _].
  destruct (run_linear _ _ _ _ _ U H2) as [(st2 & Q2 & E2) _].
  unfold run in H1, H2. rewrite run_from_app, H1 in H2. apply run_from_log in H2. destruct H2 as (more & ->).
  destruct (sequential_app _ _ _ Q2 log1 more eq_refl) as (mid & M1 & M2).
  rewrite <- E1, <- E2. rewrite (sequential_fun _ _ _ Q1 _ _ (fun _ => eq_refl) M1 n).
  rewrite incs_app, maxes_app, largest_app in Hb.
  pose proof (sequential_bound n _ _ _ M1 ltac:(lia)) as B. simpl in B.
  assert (0 <= largest (maxes n log1)) by (clear; induction (maxes n log1); simpl; lia).
  assert (Hp : 0 <= mid n).
  { rewrite <- (sequential_fun _ _ _ Q1 _ _ (fun _ => eq_refl) M1 n), E1.
    pose proof (inv_range _ _ _ _ (run_inv _ _ _ _ _ H1) U) as R. unfold count.
    destruct (lookup names n) as [i|]; [|lia].
    destruct (nth_in_or_default i (s_counts s1) 0) as [Hin|Hin]; [|rewrite Hin; lia].
    rewrite Forall_forall in R. apply R in Hin. lia. }
  eapply sequential_mono; eauto; lia.
Qed.

(** ** Progress: a goroutine left alone completes its call within three steps *)

Lemma solo_progress names progs sched s log t p : run names progs sched = Some (s, log) ->
  (forall p o, In p progs -> In o p -> In (sop_name o) names) ->
  nth_error progs t = Some p -> calls_of t log <> p ->
  exists s' log', run names progs (sched ++ [t; t; t]) = Some (s', log') /\
    (length (calls_of t log) < length (calls_of t log'))%nat.
Proof.
  intros H K Hp Hn. pose proof (run_inv _ _ _ _ _ H) as I0.
  destruct (run names progs (sched ++ [t; t; t])) as [[s' log']|] eqn:E.
  2:{ exfalso. revert E. apply run_no_panic; auto. }
  exists s', log'. split; auto.
  unfold run in H, E. rewrite run_from_app, H in E. clear H.
  assert (Step : forall s log, Inv names progs s log -> forall g, nth_error (s_gors s) t = Some g ->
     exists c g' ret, gor_step names (s_counts s) g = SStep c g' ret /\
       Inv names progs (Sys c (set_nth (s_gors s) t g')) (match ret with None => log | Some (o, v) => log ++ [(t, o, v)] end) /\
       nth_error (set_nth (s_gors s) t g') t = Some g').
  { intros s0 log0 J g Hg. pose proof (inv_step _ _ _ _ _ _ J Hg) as X.
    destruct (gor_step names (s_counts s0) g) as [|c g' ret].
    - destruct X as (o & q & Hq & Ho & N). exfalso. apply N. eapply K; eauto. eapply nth_error_In; eauto.
    - exists c, g', ret. split; auto. split; auto. apply nth_error_set_same. apply nth_error_Some. congruence. }
  assert (Mono : forall sched s log s' log', run_from names s log sched = Some (s', log') ->
     (length (calls_of t log) <= length (calls_of t log'))%nat).
  { intros sc s0 l0 s1 l1 R. apply run_from_log in R. destruct R as (m & ->).
    unfold calls_of. rewrite filter_app, map_app, app_length. lia. }
  assert (Hg : exists g, nth_error (s_gors s) t = Some g /\ g_todo g <> []).
  { destruct (nth_error (s_gors s) t) as [g|] eqn:Eg.
    - exists g. split; auto. pose proof (inv_prog _ _ _ _ I0 _ _ Eg) as X. intros Y. rewrite Y, app_nil_r in X. congruence.
    - apply nth_error_None in Eg. rewrite (inv_glen _ _ _ _ I0) in Eg.
      assert (t < length progs)%nat by (apply nth_error_Some; congruence). lia. }
  destruct Hg as (g & Hg & Ht).
  (* a step that returns *)
  assert (Ret : forall s0 l0 k s1 l1 g c g' o v, nth_error (s_gors s0) t = Some g ->
     gor_step names (s_counts s0) g = SStep c g' (Some (o, v)) ->
     run_from names s0 l0 (t :: repeat t k) = Some (s1, l1) -> (length (calls_of t l0) < length (calls_of t l1))%nat).
  { intros s0 l0 k s1 l1 g0 c g' o v Hg0 Hs R. simpl in R. rewrite Hg0, Hs in R. apply Mono in R.
    rewrite calls_of_snoc_same, app_length in R. simpl in R. lia. }
  (* a step of an idle goroutine: it returns, or it has loaded the current value *)
  assert (Idle : forall s0 l0 k s1 l1 g, Inv names progs s0 l0 -> nth_error (s_gors s0) t = Some g ->
     g_todo g <> [] -> g_loaded g = None ->
     run_from names s0 l0 (t :: t :: repeat t k) = Some (s1, l1) -> (length (calls_of t l0) < length (calls_of t l1))%nat).
  { intros s0 l0 k s1 l1 g0 J Hg0 Hn0 Hl R.
    destruct (Step _ _ J _ Hg0) as (c & g' & ret & Hs & J' & Hg').
    destruct ret as [[o v]|].
    - change (t :: t :: repeat t k) with (t :: repeat t (S k)) in R. eapply Ret; eauto.
    - simpl in R. rewrite Hg0, Hs, Hg' in R.
      unfold gor_step in Hs. destruct (g_todo g0) as [|o rest] eqn:Et; [congruence|].
      destruct (lookup names (sop_name o)) as [i|] eqn:Hi; [|discriminate].
      destruct o as [n|n|n v]; try discriminate. rewrite Hl in Hs. simpl in Hi.
      destruct (v <=? nth i (s_counts s0) 0) eqn:Le; [discriminate|]. inversion Hs; subst c g'.
      assert (Hs2 : gor_step names (s_counts s0) (Gor (SMax n v :: rest) (Some (nth i (s_counts s0) 0))) =
                SStep (set_nth (s_counts s0) i v) (Gor rest None) (Some (SMax n v, v))).
      { unfold gor_step. simpl. rewrite Hi, Z.eqb_refl. reflexivity. }
      simpl in R. rewrite Hs2 in R. apply Mono in R. rewrite calls_of_snoc_same, app_length in R. simpl in R. lia. }
  destruct (g_loaded g) as [c0|] eqn:Hl.
  - destruct (Step _ _ I0 _ Hg) as (c & g' & ret & Hs & J' & Hg').
    destruct ret as [[o v]|].
    + change [t; t; t] with (t :: repeat t 2) in E. eapply Ret; eauto.
    + pose proof E as E'. simpl in E'. rewrite Hg, Hs in E'.
      assert (E2 : run_from names (Sys c (set_nth (s_gors s) t g')) log (t :: t :: repeat t 0) = Some (s', log')) by exact E'.
      assert (Hg'2 : g_todo g' = g_todo g /\ g_loaded g' = None).
      { unfold gor_step in Hs. destruct (g_todo g) as [|o rest] eqn:Et; [congruence|].
        destruct (lookup names (sop_name o)) as [i|] eqn:Hi; [|discriminate].
        destruct o as [n|n|n v]; try discriminate. rewrite Hl in Hs.
        destruct (nth i (s_counts s) 0 =? c0); [discriminate|]. inversion Hs; subst. auto. }
      destruct Hg'2 as [Ha Hb]. eapply (Idle _ _ _ _ _ g' J' Hg'); eauto. congruence.
  - change [t; t; t] with (t :: t :: repeat t 1) in E. eapply (Idle _ _ _ _ _ g I0 Hg); eauto.
Qed.

(** ** System-wide progress: while an unfinished goroutine takes three steps, some call completes *)

(** Steps a goroutine can still take before one of its steps completes a call, if nobody else
    changes the counters. *)
Definition pot (names : list bytes) (counts : list Z) (g : gor) : nat :=
  match g_loaded g, g_todo g with
  | Some c, o :: _ =>
      match lookup names (sop_name o) with
      | Some i => if nth i counts 0 =? c then 0%nat else 2%nat
      | None => 0%nat
      end
  | _, _ => 1%nat
  end.

Lemma no_completion names progs t : forall b s log s' g, Inv names progs s log ->
  nth_error (s_gors s) t = Some g -> g_todo g <> [] ->
  run_from names s log b = Some (s', log) ->
  (count_occ Nat.eq_dec b t <= pot names (s_counts s) g)%nat.
Proof.
  induction b as [|u b IH]; intros s log s' g J Hg Ht R; [simpl; lia|].
  simpl in R. destruct (nth_error (s_gors s) u) as [gu|] eqn:Hu.
  2:{ rewrite count_occ_cons_neq by (intros ->; congruence). eauto. }
  pose proof (inv_step _ _ _ _ _ _ J Hu) as X.
  destruct (gor_step names (s_counts s) gu) as [|c g' ret] eqn:Es; [discriminate|].
  destruct ret as [[o v]|].
  { exfalso. apply run_from_log in R. destruct R as (m & R). rewrite <- app_assoc in R.
    rewrite <- (app_nil_r log) in R at 1. apply app_inv_head in R. discriminate. }
  destruct (Nat.eq_dec u t) as [->|N].
  - assert (gu = g) by congruence. subst gu.
    assert (Hlt : (t < length (s_gors s))%nat) by (apply nth_error_Some; congruence).
    rewrite count_occ_cons_eq by auto.
    assert (Hst : c = s_counts s /\ g_todo g' = g_todo g /\ (pot names (s_counts s) g' < pot names (s_counts s) g)%nat).
    { unfold gor_step in Es. destruct (g_todo g) as [|o rest] eqn:Et; [congruence|].
      destruct (lookup names (sop_name o)) as [i|] eqn:Hi; [|discriminate].
      destruct o as [n|n|n v]; try discriminate. simpl in Hi. unfold pot. rewrite Et.
      destruct (g_loaded g) as [c0|] eqn:Hl.
      - destruct (nth i (s_counts s) 0 =? c0) eqn:Eq; [discriminate|]. inversion Es; subst c g'.
        simpl. rewrite Hi, Eq. split; auto.
      - destruct (v <=? nth i (s_counts s) 0); [discriminate|]. inversion Es; subst c g'.
        simpl. rewrite Hi, Z.eqb_refl. split; auto. }
    destruct Hst as (-> & Et & Hp).
    specialize (IH _ _ s' g' X). simpl in IH. rewrite nth_error_set_same in IH by auto.
    specialize (IH eq_refl). rewrite Et in IH. specialize (IH Ht R). lia.
  - rewrite count_occ_cons_neq by auto.
    assert (c = s_counts s).
    { unfold gor_step in Es. destruct (g_todo gu) as [|o rest]; [inversion Es; auto|].
      destruct (lookup names (sop_name o)); [|discriminate]. destruct o; try discriminate.
      destruct (g_loaded gu); [destruct (_ =? _)|destruct (_ <=? _)]; inversion Es; auto. }
    subst c. specialize (IH _ _ s' g X). simpl in IH. rewrite nth_error_set_other in IH by auto.
    apply IH in R; auto.
Qed.

Lemma system_progress names progs a b s log s' log' t p :
  run names progs a = Some (s, log) -> run names progs (a ++ b) = Some (s', log') ->
  nth_error progs t = Some p -> calls_of t log <> p ->
  (3 <= count_occ Nat.eq_dec b t)%nat -> (length log < length log')%nat.
Proof.
  intros H1 H2 Hp Hn Hc. pose proof (run_inv _ _ _ _ _ H1) as I0.
  assert (Hg : exists g, nth_error (s_gors s) t = Some g /\ g_todo g <> []).
  { destruct (nth_error (s_gors s) t) as [g|] eqn:Eg.
    - exists g. split; auto. pose proof (inv_prog _ _ _ _ I0 _ _ Eg) as X. intros Y. rewrite Y, app_nil_r in X. congruence.
    - apply nth_error_None in Eg. rewrite (inv_glen _ _ _ _ I0) in Eg.
      assert (t < length progs)%nat by (apply nth_error_Some; congruence). lia. }
  destruct Hg as (g & Hg & Ht).
  unfold run in H1, H2. rewrite run_from_app, H1 in H2.
  pose proof (run_from_log _ _ _ _ _ _ H2) as (m & ->). rewrite app_length.
  destruct m as [|e m]; [|simpl; lia]. rewrite app_nil_r in H2.
  pose proof (no_completion _ _ _ _ _ _ _ _ I0 Hg Ht H2) as B.
  assert (pot names (s_counts s) g <= 2)%nat.
  { unfold pot. destruct (g_loaded g); [|lia]. destruct (g_todo g); [lia|]. destruct (lookup _ _); [|lia].
    destruct (_ =? _); lia. }
  lia.
Qed.
