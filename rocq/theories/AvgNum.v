(** Averages and last values. *)
From Verif Require Import Base Text TextSpec TextProofs Convert NumSpec NumProofs Avg AvgSpec AvgProofs.
Local Open Scope Z_scope.

Section Num.
  Variable fo : floatOps.
  Notation step_val := (step_val fo).

  Lemma parse_int_text t z : int_text t z -> int64 z -> parse_int (t ++ lit "i") = Some z.
  Proof.
    intros T I. unfold parse_int, int_body. assert (Ne := int_text_ne _ _ T).
    change (lit "i") with ["i"%char]. rewrite app_length. cbn [length].
    replace (2 <=? Z.of_nat (length t + 1)) with true by (destruct t; [congruence|simpl; lia]).
    rewrite last_last, Ascii.eqb_refl. cbn [andb]. rewrite removelast_last.
    rewrite (ToInt_exact t z) by (auto; unfold int64, minInt64, maxInt64, two63, two64 in *; lia).
    destruct (int64_dec z); tauto.
  Qed.

  Lemma parse_int_None v : (~ exists t z, v = t ++ lit "i" /\ int_text t z) -> parse_int v = None.
  Proof.
    intros H. unfold parse_int, int_body. destruct (_ && _) eqn:E; auto.
    apply andb_prop in E. destruct E as [L E]. apply Ascii.eqb_eq in E.
    apply ToInt_bad. intros z T. apply H. exists (removelast v), z. split; auto.
    change (lit "i") with ["i"%char]. rewrite <- E. apply app_removelast_last. destruct v; [simpl in L; lia|discriminate].
  Qed.

  Lemma new_int t z : int_text t z -> int64 z -> newFieldValue fo (t ++ lit "i") = VInt fo z 1.
  Proof. intros T I. unfold newFieldValue. rewrite (parse_int_text t z) by auto. auto. Qed.

  Lemma new_tok txt : good_val fo (FTok txt) -> newFieldValue fo txt = VRaw fo txt.
  Proof. intros (_ & P & N). unfold newFieldValue. rewrite parse_int_None by auto. rewrite P. auto. Qed.

  Lemma new_num txt x : good_val fo (FNum txt) -> f_parse fo txt = Some x -> newFieldValue fo txt = VFloat fo x 1.
  Proof.
    intros (_ & N & _) P. unfold newFieldValue. rewrite parse_int_None, P; auto.
    intros (t & z & -> & _). apply N. exists t. auto.
  Qed.

  (* -------------------------------------------------------------- *)
  (** * Strings and other values: the last one *)
  Lemma keep_string qvs : forall s, fold_left step_val qvs (Some (VString fo s)) = Some (VString fo (last (map snd qvs) s)).
  Proof.
    induction qvs as [|[q v] qvs IH]; intros s; auto. cbn [fold_left AvgProofs.step_val updateValue snd]. rewrite IH.
    destruct qvs as [|p qvs]; auto. f_equal. f_equal. cbn [map snd last]. apply (last_default (map snd (p :: qvs))). discriminate.
  Qed.

  Lemma keep_raw qvs : forall s, fold_left step_val qvs (Some (VRaw fo s)) = Some (VRaw fo (last (map snd qvs) s)).
  Proof.
    induction qvs as [|[q v] qvs IH]; intros s; auto. cbn [fold_left AvgProofs.step_val updateValue snd]. rewrite IH.
    destruct qvs as [|p qvs]; auto. f_equal. f_equal. cbn [map snd last]. apply (last_default (map snd (p :: qvs))). discriminate.
  Qed.

  (* -------------------------------------------------------------- *)
  (** * Integers *)
  Lemma quot_bounds a n : 1 <= n -> exists r, a = n * Z.quot a n + r /\ Z.abs r <= n - 1 /\ (0 <= a -> 0 <= Z.quot a n <= a) /\ (a <= 0 -> a <= Z.quot a n <= 0).
  Proof.
    intros H. exists (Z.rem a n). pose proof (Z.quot_rem a n ltac:(lia)).
    split; [lia|]. split.
    - pose proof (Z.rem_bound_abs a n ltac:(lia)). lia.
    - split; intros Hs.
      + pose proof (Z.rem_bound_pos a n Hs ltac:(lia)). nia.
      + pose proof (Z.rem_bound_pos_neg a n ltac:(lia) Hs). nia.
  Qed.

  Lemma int_step lo hi avg c z : int64 lo -> int64 hi -> hi - lo <= maxInt64 ->
    lo <= avg <= hi -> lo <= z <= hi -> 1 <= c < maxInt64 ->
    exists q r, wrap64 (avg + wrap64 (Z.quot (wrap64 (z - avg)) (wrap64 (c + 1)))) = avg + q /\ wrap64 (c + 1) = c + 1 /\
      z - avg = (c + 1) * q + r /\ Z.abs r <= c /\ lo <= avg + q <= hi.
  Proof.
    unfold int64, minInt64, maxInt64, two63. intros Il Ih W Ha Hz Hc.
    rewrite (wrap64_id (c + 1)) by (unfold int64, minInt64, maxInt64, two63; lia).
    rewrite (wrap64_id (z - avg)) by (unfold int64, minInt64, maxInt64, two63; lia).
    destruct (quot_bounds (z - avg) (c + 1) ltac:(lia)) as (r & E & R & P & N).
    set (q := Z.quot (z - avg) (c + 1)) in *. exists q, r.
    assert (B : lo <= avg + q <= hi) by (destruct (Z.le_ge_cases 0 (z - avg)); [specialize (P H)|specialize (N H)]; lia).
    assert (Bq : Z.abs q <= 9223372036854775807) by (destruct (Z.le_ge_cases 0 (z - avg)); [specialize (P H)|specialize (N H)]; lia).
    rewrite (wrap64_id q) by (unfold int64, minInt64, maxInt64, two63; lia).
    rewrite wrap64_id by (unfold int64, minInt64, maxInt64, two63; lia).
    split; auto. split; auto. split; auto. split; [lia|auto].
  Qed.

  Lemma parse_int_reads v : good_val fo v -> reads_int v (parse_int (vraw v)).
  Proof.
    intros G. unfold reads_int. destruct (parse_int (vraw v)) as [z|] eqn:E.
    - unfold parse_int, int_body in E. destruct (_ && _) eqn:C; [|discriminate].
      apply andb_prop in C. destruct C as [L C]. apply Ascii.eqb_eq in C.
      assert (Ev : vraw v = removelast (vraw v) ++ lit "i").
      { change (lit "i") with ["i"%char]. rewrite <- C. apply app_removelast_last. destruct (vraw v); [simpl in L; lia|discriminate]. }
      remember (removelast (vraw v)) as t eqn:Et. clear Et. exists t. split; auto.
      destruct (int_text_dec t) as [[z' T]|N]; [|rewrite (ToInt_bad t N) in E; discriminate].
      assert (Z.abs z' < two64).
      { destruct v as [t' z1|t'|s|t']; cbn [vraw good_val] in *.
        - apply app_inj_tail in Ev. destruct Ev as [-> _], G as [G I]. rewrite (int_text_unique t z' z1) by auto.
          unfold int64, minInt64, maxInt64, two63, two64 in *. lia.
        - exfalso. apply G. exists t. auto.
        - destruct G as (_ & _ & G). apply (G t z'); auto.
        - exfalso. apply G. eauto. }
      rewrite (ToInt_exact t z') in E by auto. destruct (int64_dec z') as [I|]; [|discriminate]. inversion E; subst. auto.
    - intros (t & z & Ev & T & I). rewrite Ev, (parse_int_text t z) in E by auto. discriminate.
  Qed.

  Definition qv (v : fval) := (is_str v, vraw v).

  Lemma reads_unique v o o' : reads_int v o -> reads_int v o' -> o = o'.
  Proof.
    destruct o as [z|], o' as [z'|]; cbn [reads_int]; auto.
    - intros (t & E & T & _) (t' & E' & T' & _). rewrite E in E'. apply app_inj_tail in E'. destruct E' as [-> _].
      f_equal. eapply int_text_unique; eauto.
    - intros (t & H) N. exfalso. apply N. eauto.
    - intros N (t & H). exfalso. apply N. eauto.
  Qed.

  Lemma reads_parse vs : Forall (good_val fo) vs -> forall os, Forall2 reads_int vs os -> os = map (fun v => parse_int (vraw v)) vs.
  Proof.
    induction 1 as [|v vs G F IH]; intros os R; inversion R; subst; auto. cbn [map]. f_equal; auto.
    eapply reads_unique; eauto. apply parse_int_reads; auto.
  Qed.

  Lemma reads_exist vs : Forall (good_val fo) vs -> Forall2 reads_int vs (map (fun v => parse_int (vraw v)) vs).
  Proof. induction 1; cbn [map]; constructor; auto. apply parse_int_reads; auto. Qed.

  (** Fields of integers. *)
  Fixpoint int_count (c : Z) (os : list (option Z)) : Z :=
    match os with [] => c | None :: os' => int_count c os' | Some _ :: os' => int_count (wrap64 (c + 1)) os' end.

  Lemma int_fold vs : forall a c, fold_left step_val (map qv vs) (Some (VInt fo a c)) =
    Some (VInt fo (int_running a c (map (fun v => parse_int (vraw v)) vs)) (int_count c (map (fun v => parse_int (vraw v)) vs))).
  Proof.
    induction vs as [|v vs IH]; intros a c; auto. cbn [map fold_left]. unfold AvgProofs.step_val at 2, updateValue. cbn [qv snd].
    destruct (parse_int (vraw v)) as [z|]; cbn [int_running int_count]; auto.
  Qed.

  Fixpoint float_count (c : Z) (os : list (option (fT fo))) : Z :=
    match os with [] => c | None :: os' => float_count c os' | Some _ :: os' => float_count (wrap64 (c + 1)) os' end.

  Lemma num_fold vs : forall a c, fold_left step_val (map qv vs) (Some (VFloat fo a c)) =
    Some (VFloat fo (float_running fo a c (map (fun v => f_parse fo (vraw v)) vs)) (float_count c (map (fun v => f_parse fo (vraw v)) vs))).
  Proof.
    induction vs as [|v vs IH]; intros a c; auto. cbn [map fold_left]. unfold AvgProofs.step_val at 2, updateValue. cbn [qv snd].
    destruct (f_parse fo (vraw v)) as [z|]; cbn [float_running float_count]; auto.
  Qed.

  Lemma int_running_range a c os : int64 a -> int64 (int_running a c os).
  Proof. revert a c. induction os as [|[z|] os IH]; intros a c I; cbn [int_running]; auto. apply IH. apply wrap64_range. Qed.

  (** What a field prints is a summary of its values. *)
  Lemma field_summary vs : vs <> [] -> Forall (good_val fo) vs ->
    exists fv, fold_left step_val (map qv vs) None = Some fv /\ summarises fo vs (valueBytes fo fv).
  Proof.
    destruct vs as [|v vs]; [congruence|]. intros _ F. inversion F as [|? ? G F']; subst.
    cbn [map fold_left]. unfold AvgProofs.step_val at 2, create. cbn [qv fst snd].
    destruct v as [t z|t|s|t]; cbn [is_str vraw].
    - destruct G as [T I]. rewrite (new_int t z) by auto. rewrite int_fold. eexists. split; [reflexivity|]. cbn [valueBytes].
      eapply sum_int; [apply reads_exist; auto|]. apply FormatInt_spec. apply int_running_range; auto.
    - destruct (proj2 (proj2 G)) as [x P]. rewrite (new_num t x) by auto. rewrite num_fold. eexists. split; [reflexivity|].
      cbn [valueBytes]. apply sum_num; auto.
    - rewrite keep_string. eexists. split; [reflexivity|]. cbn [valueBytes]. rewrite EscapeQuoted_spec, map_map. apply sum_str.
    - rewrite (new_tok t) by auto. rewrite keep_raw. eexists. split; [reflexivity|]. cbn [valueBytes]. rewrite map_map. apply sum_tok.
  Qed.

  (* -------------------------------------------------------------- *)
  (** * How far the integer average is from the mean *)
  Lemma zsum_app a b : zsum (a ++ b) = zsum a + zsum b.
  Proof. unfold zsum. induction a as [|x a IH]; cbn [app fold_right]; lia. Qed.

  Lemma int_average lo hi : int64 lo -> int64 hi -> hi - lo <= maxInt64 ->
    forall os avg c sum, lo <= avg <= hi -> 1 <= c -> Forall (fun z => lo <= z <= hi) (somes os) ->
    c + Z.of_nat (length (somes os)) <= maxInt64 -> 2 * Z.abs (c * avg - sum) <= c * (c - 1) ->
    let r := int_running avg c os in let n := c + Z.of_nat (length (somes os)) in
    lo <= r <= hi /\ 2 * Z.abs (n * r - (sum + zsum (somes os))) <= n * (n - 1).
  Proof.
    intros Il Ih W os. induction os as [|o os IH]; intros avg c sum B Hc F L D; cbn zeta.
    - cbn [int_running somes flat_map length zsum fold_right]. rewrite !Z.add_0_r. auto.
    - destruct o as [z|]; cbn [int_running somes flat_map]; fold (@somes Z os).
      + cbn [app length] in *. cbn [somes flat_map] in F, L. fold (@somes Z os) in F, L. cbn [app length] in F, L.
        inversion F as [|? ? Hz F']; subst.
        destruct (int_step lo hi avg c z Il Ih W B Hz ltac:(lia)) as (q & r & E1 & E2 & E3 & E4 & E5).
        rewrite E1, E2. specialize (IH (avg + q) (c + 1) (sum + z) E5 ltac:(lia) F' ltac:(lia)). cbn zeta in IH.
        replace (c + Z.of_nat (S (length (somes os)))) with (c + 1 + Z.of_nat (length (somes os))) by lia.
        replace (sum + zsum (z :: somes os)) with (sum + z + zsum (somes os)) by (unfold zsum; cbn [fold_right]; lia).
        apply IH. replace ((c + 1) * (avg + q) - (sum + z)) with (c * avg - sum - r) by lia.
        replace ((c + 1) * (c + 1 - 1)) with (c * (c - 1) + 2 * c) by lia. lia.
      + cbn [app] in *. apply (IH avg c sum); auto.
  Qed.

  (** 0, 1, ..., n averages to 0. *)
  Lemma drift n : forall c, 1 <= c -> c + Z.of_nat n <= maxInt64 ->
    int_running 0 c (map (fun i => Some (c + Z.of_nat i)) (seq 0 n)) = 0.
  Proof.
    induction n as [|n IH]; intros c Hc L; [reflexivity|]. cbn [seq map int_running].
    rewrite (wrap64_id (c + 1)) by (unfold int64, minInt64, maxInt64, two63 in *; lia).
    rewrite Z.sub_0_r, (wrap64_id (c + Z.of_nat 0)) by (unfold int64, minInt64, maxInt64, two63 in *; lia).
    rewrite Z.quot_small by lia. replace (wrap64 (0 + wrap64 0)) with 0 by reflexivity.
    rewrite <- seq_shift, map_map. etransitivity; [|apply (IH (c + 1)); lia]. f_equal. apply map_ext. intros i. f_equal. lia.
  Qed.

  (** Equal values average to themselves. *)
  Lemma constant z os : int64 z -> Forall (fun y => y = z) (somes os) -> forall c, int_running z c os = z.
  Proof.
    intros I. induction os as [|[y|] os IH]; intros F c; cbn [int_running]; auto.
    cbn [somes flat_map app] in F. fold (@somes Z os) in F. inversion F; subst.
    rewrite Z.sub_diag. change (wrap64 0) with 0.
    replace (Z.quot 0 (wrap64 (c + 1))) with 0 by reflexivity. change (wrap64 0) with 0. rewrite Z.add_0_r, wrap64_id by auto.
    auto.
  Qed.
End Num.
