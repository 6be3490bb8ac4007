(** How much the order in which points arrive matters to the averages of a period
    (downsampler/avgbucket.go:44-78, 198-260). *)
From Verif Require Import Base Text TextSpec TextProofs Convert NumSpec NumProofs LinesSpec RulesSpec RulesProofs PromProofs
  Avg AvgSpec AvgProofs AvgNum AvgPrint Assigner AssignerSpec AssignerProofs DsProofs DsMain.
Local Open Scope Z_scope.

(** ** Specification *)

(** The lines of series [k] (measurement and tags, up to the first unescaped space), in order. *)
Definition of_series (k : bytes) (ls : list bytes) : list bytes :=
  filter (fun l => beqs (fst (TokenEscaped (lit " ") l)) k) ls.

(** Two arrivals of lines in which the lines of each series come in the same order: the streams of different
    series (hosts, say) may be interleaved in any way. *)
Definition same_per_series (ls ls' : list bytes) : Prop := forall k, of_series k ls = of_series k ls'.

(** Two outputs that consist of the same lines, one per series. *)
Definition same_lines (o o' : bytes) : Prop :=
  exists out out' : list (bytes * bytes), o = concat (map snd out) /\ o' = concat (map snd out') /\ Permutation out out' /\
    NoDup (map fst out) /\ Forall (fun kl => exists rest, snd kl = fst kl ++ sp :: rest ++ [nl]) out.

(* ------------------------------------------------------------------ *)
(** ** Interleaving *)

Lemma bltb_inj a b : bltb a b = false -> bltb b a = false -> a = b.
Proof. intros H1 H2. apply bltb_total; auto. Qed.

Section Inter.
  Variable fo : floatOps.
  Variable gosort : forall A : Type, (A -> A -> bool) -> list A -> list A.
  Hypothesis Hs : sorts gosort.

  Lemma sort_same (a b : list bytes) : NoDup a -> Permutation a b -> gosort bytes bltb a = gosort bytes bltb b.
  Proof.
    intros D P. destruct (Hs bytes bltb a bltb_weak) as [Pa Oa]. destruct (Hs bytes bltb b bltb_weak) as [Pb Ob].
    apply (sorted_unique bltb).
    - apply bltb_irrefl.
    - apply ascending; auto. eapply Permutation_NoDup; [|exact D]. eapply perm_trans; [exact P|exact Pb].
    - eapply perm_trans; [apply Permutation_sym; exact Pb|]. eapply perm_trans; [apply Permutation_sym; exact P|exact Pa].
    - exact Oa.
  Qed.

  Lemma AddLine_same b b' line : mget b (fst (TokenEscaped (lit " ") line)) = mget b' (fst (TokenEscaped (lit " ") line)) ->
    mget (fst (AddLine fo b line)) (fst (TokenEscaped (lit " ") line)) = mget (fst (AddLine fo b' line)) (fst (TokenEscaped (lit " ") line)).
  Proof.
    unfold AddLine. destruct (TokenEscaped (lit " ") line) as [key raw]. cbn [fst]. intros Eb. rewrite <- Eb.
    destruct (mget b key) as [fields|] eqn:G.
    - destruct (updateFields fo fields raw) as [f' errs]. cbn [fst]. rewrite !mget_mset, beqs_refl. auto.
    - destruct (updateFields fo [] raw) as [f' errs]. destruct errs; cbn [fst]; [rewrite !mget_mset, beqs_refl; auto|congruence].
  Qed.

  (** What the bucket holds of a series depends on the lines of that series only. *)
  Lemma series_only k : forall ls b b', mget b k = mget b' k ->
    mget (fold_left (fun b l => fst (AddLine fo b l)) ls b) k = mget (fold_left (fun b l => fst (AddLine fo b l)) (of_series k ls) b') k.
  Proof.
    induction ls as [|l ls IH]; intros b b' Eb; [exact Eb|]. cbn [fold_left of_series filter].
    destruct (beqs (fst (TokenEscaped (lit " ") l)) k) eqn:Ek.
    - apply beqs_eq in Ek. cbn [fold_left]. apply IH. subst k. apply AddLine_same. exact Eb.
    - apply IH. rewrite other_series; [exact Eb|]. intros ->. rewrite beqs_refl in Ek. discriminate.
  Qed.

  Lemma same_series_same ls ls' : same_per_series ls ls' -> forall k, mget (bucket_from fo ls) k = mget (bucket_from fo ls') k.
  Proof.
    intros H k. unfold bucket_from. rewrite (series_only k ls [] []) by auto. rewrite (series_only k ls' [] []) by auto.
    rewrite (H k). reflexivity.
  Qed.

  Lemma entry_same ts k f n n' : NoDup n -> Permutation n n' -> entry_text fo gosort ts (k, f, n) = entry_text fo gosort ts (k, f, n').
  Proof. intros D P. unfold entry_text. cbn [fst snd]. unfold fieldsBytes. rewrite (sort_same n n' D P). reflexivity. Qed.

  Lemma perm_of_same (b b' : avgBucket fo) : NoDup (map fst b) -> NoDup (map fst b') -> (forall k, mget b k = mget b' k) -> Permutation b b'.
  Proof.
    intros D D' H. apply NoDup_Permutation.
    - apply (NoDup_map_inv fst). exact D.
    - apply (NoDup_map_inv fst). exact D'.
    - intros [k v]. split; intros J.
      + apply mget_In. rewrite <- H. apply mget_nodup; auto.
      + apply mget_In. rewrite H. apply mget_nodup; auto.
  Qed.

  (** The canonical line of a bucket entry. *)
  Definition canon ts (e : bytes * fieldPairs fo) : bytes * bytes := (fst e, entry_text fo gosort ts (fst e, snd e, map fst (snd e))).

  Lemma out_canon ts order : Forall (fun e : bytes * fieldPairs fo * list bytes => Permutation (map fst (snd (fst e))) (snd e)) order ->
    Forall (fun e : bytes * fieldPairs fo => NoDup (map fst (snd e))) (map fst order) ->
    bucketBytes fo gosort ts order = concat (map snd (map (canon ts) (map fst order))).
  Proof.
    intros N Df. rewrite bucketBytes_entries. f_equal. rewrite !map_map.
    apply map_ext_in. intros [[k f] n] J. rewrite Forall_forall in N. specialize (N _ J). cbn [fst snd] in N.
    rewrite Forall_forall in Df. specialize (Df _ (in_map fst _ _ J)). cbn [fst snd] in Df.
    unfold canon. cbn [fst snd]. symmetry. apply entry_same; [exact Df|exact N].
  Qed.

  Theorem interleaving ls ls' ts order order' : same_per_series ls ls' ->
    iteration_of fo (bucket_from fo ls) order -> iteration_of fo (bucket_from fo ls') order' ->
    same_lines (bucketBytes fo gosort ts order) (bucketBytes fo gosort ts order').
  Proof.
    intros H [P N] [P' N']. exists (map (canon ts) (map fst order)), (map (canon ts) (map fst order')).
    destruct (bucket_from_wf fo ls) as [D Df]. destruct (bucket_from_wf fo ls') as [D' Df'].
    split; [apply out_canon; auto; exact (Permutation_Forall P Df)|]. split; [apply out_canon; auto; exact (Permutation_Forall P' Df')|]. split; [|split].
    - apply Permutation_map. eapply perm_trans; [apply Permutation_sym; exact P|].
      eapply perm_trans; [|exact P']. apply perm_of_same; auto. apply same_series_same. exact H.
    - replace (map fst (map (canon ts) (map fst order))) with (map fst (map fst order)) by (rewrite !map_map; reflexivity).
      eapply Permutation_NoDup; [apply Permutation_map; exact P|exact D].
    - apply Forall_forall. intros kl J. apply in_map_iff in J. destruct J as (e & <- & _).
      unfold canon, entry_text. cbn [fst snd].
      eexists (match fieldsBytes fo gosort (snd e) (map fst (snd e)) with [] => [] | fb => fb ++ [sp] end ++ FormatInt (wrap64 ts)).
      cbn [app]. rewrite <- app_assoc. reflexivity.
  Qed.
End Inter.

(** The same for whole histories: a period's contents. *)
Definition of_series_log (k : bytes) (l : log) : log := filter (fun x => beqs (fst (TokenEscaped (lit " ") (snd x))) k) l.
Definition same_log_per_series (l l' : log) : Prop := forall k, of_series_log k l = of_series_log k l'.

Lemma contents_from fo p l e : contents (avgBucket fo) lerr (fun _ => []) (AddLine fo) p l e =
  bucket_from fo (map snd (filter (fun x => (e - p <=? fst x) && (fst x <? e)) l)).
Proof.
  unfold contents, bucket_from. generalize ([] : avgBucket fo). induction (filter (fun x => (e - p <=? fst x) && (fst x <? e)) l) as [|x xs IH]; intros b; auto.
  cbn [fold_left map]. apply IH.
Qed.

Lemma filter_comm {A} (f g : A -> bool) l : filter f (filter g l) = filter g (filter f l).
Proof.
  induction l as [|x l IH]; auto. cbn [filter]. destruct (g x) eqn:Eg, (f x) eqn:Ef; cbn [filter]; rewrite ?Eg, ?Ef, IH; auto.
Qed.
Lemma filter_map_snd k (l : log) : of_series k (map snd l) = map snd (of_series_log k l).
Proof. unfold of_series, of_series_log. induction l as [|x l IH]; auto. cbn [map filter]. destruct (beqs _ k); cbn [map]; rewrite IH; auto. Qed.

Theorem interleaving_period : forall fo gosort p l l' e ts order order', sorts gosort -> same_log_per_series l l' ->
  iteration_of fo (contents (avgBucket fo) lerr (fun _ => []) (AddLine fo) p l e) order ->
  iteration_of fo (contents (avgBucket fo) lerr (fun _ => []) (AddLine fo) p l' e) order' ->
  same_lines (bucketBytes fo gosort ts order) (bucketBytes fo gosort ts order').
Proof.
  intros fo gosort p l l' e ts order order' Hs H I1 I2. rewrite contents_from in I1, I2.
  eapply interleaving; [exact Hs| |exact I1|exact I2].
  intros k. rewrite !filter_map_snd. f_equal. unfold of_series_log. rewrite !(filter_comm _ (fun x => (e - p <=? fst x) && (fst x <? e))).
  f_equal. apply H.
Qed.

(* ------------------------------------------------------------------ *)
(** ** Reordering the points of one series *)

Lemma values_perm k n pts pts' : Permutation pts pts' -> Permutation (values k n pts) (values k n pts').
Proof. intros P. unfold values. apply Permutation_flat_map. exact P. Qed.

Definition int_of (v : fval) : Z := match v with FInt _ z => z | _ => 0 end.
Definition is_int (v : fval) : Prop := exists t z, v = FInt t z /\ int_text t z /\ int64 z.

Lemma reads_ints vs os : Forall is_int vs -> Forall2 reads_int vs os -> somes os = map int_of vs.
Proof.
  intros F H. induction H as [|v o vs os R H IH]; auto. inversion F as [|? ? (t & z & -> & T & Iz) F']; subst.
  cbn [map int_of]. destruct o as [z'|].
  - cbn [reads_int vraw] in R. destruct R as (t' & Et & T' & _). apply app_inj_tail in Et. destruct Et as [<- _].
    rewrite (int_text_fun _ _ _ T' T). change (somes (Some z :: os)) with (z :: somes os). rewrite IH; auto.
  - exfalso. apply R. exists t, z. cbn [vraw]. auto.
Qed.

Lemma zsum_perm a b : Permutation a b -> zsum a = zsum b.
Proof. induction 1; unfold zsum in *; cbn [fold_right]; lia. Qed.

Theorem int_reordered : forall fo vs vs' txt txt' lo hi, Permutation vs vs' -> Forall is_int vs ->
  summarises fo vs txt -> summarises fo vs' txt' ->
  int64 lo -> int64 hi -> hi - lo <= maxInt64 -> Forall (fun v => lo <= int_of v <= hi) vs -> Z.of_nat (length vs) <= maxInt64 ->
  exists a a' t t', dec_text a t /\ txt = t ++ lit "i" /\ dec_text a' t' /\ txt' = t' ++ lit "i" /\
    Z.abs (a - a') <= Z.of_nat (length vs) - 1.
Proof.
  intros fo vs vs' txt txt' lo hi P F S1 S2 Il Ih W R L.
  assert (F' : Forall is_int vs') by (eapply Permutation_Forall; eauto).
  assert (R' : Forall (fun v => lo <= int_of v <= hi) vs') by (eapply Permutation_Forall; eauto).
  assert (X : forall vs txt, Forall is_int vs -> summarises fo vs txt -> Forall (fun v => lo <= int_of v <= hi) vs -> Z.of_nat (length vs) <= maxInt64 ->
    exists a t, dec_text a t /\ txt = t ++ lit "i" /\ 1 <= Z.of_nat (length vs) /\
      2 * Z.abs (Z.of_nat (length vs) * a - zsum (map int_of vs)) <= Z.of_nat (length vs) * (Z.of_nat (length vs) - 1)).
  { clear -Il Ih W. intros vs txt F S R L.
    inversion S as [s vs0 E1|t vs0 E1|t z vs0 os tx Ro D E1|t x vs0 Px E1]; subst; try (inversion F as [|? ? (t' & z' & E0 & _) _]; discriminate).
    exists (int_running z 1 os), tx. split; auto. split; auto. split; [cbn [length]; lia|].
    assert (So : somes os = map int_of vs0) by (apply reads_ints; [exact (Forall_inv_tail F)|exact Ro]).
    destruct (bounded_average z os lo hi) as [_ B]; auto.
    - constructor; [exact (Forall_inv R)|]. rewrite So. apply Forall_map. exact (Forall_inv_tail R).
    - cbn [length] in *. rewrite So, map_length. exact L.
    - cbn [length] in B. rewrite So, map_length in B. exact B. }
  destruct (X vs txt F S1 R L) as (a & t & D & E1 & L1 & B1).
  destruct (X vs' txt' F' S2 R') as (a' & t' & D' & E1' & L1' & B1'); [rewrite <- (Permutation_length P); exact L|].
  exists a, a', t, t'. split; auto. split; auto. split; auto. split; auto.
  rewrite <- (Permutation_length P) in B1'. rewrite (zsum_perm _ _ (Permutation_map int_of (Permutation_sym P))) in B1'.
  nia.
Qed.

(** The bound is attained: 0, 1, ..., n and n, ..., 1, 0. *)
Lemma ramp_down n : forall m c, Z.of_nat n < maxInt64 -> (m <= n)%nat -> 1 <= c -> Z.of_nat n - Z.of_nat m + 1 <= c -> c + Z.of_nat m <= maxInt64 ->
  int_running (Z.of_nat n) c (map (fun i => Some (Z.of_nat i)) (rev (seq 0 m))) = Z.of_nat n.
Proof.
  induction m as [|m IH]; intros c Ln Lm Lc Ld Lb; [reflexivity|].
  rewrite seq_S, rev_app_distr. cbn [rev app map int_running plus].
  assert (W : forall z, minInt64 <= z <= maxInt64 -> wrap64 z = z) by (intros; apply wrap64_id; unfold int64; lia).
  unfold minInt64, maxInt64, two63 in *.
  rewrite (W (c + 1)) by lia. rewrite (W (Z.of_nat m - Z.of_nat n)) by lia.
  replace (Z.quot (Z.of_nat m - Z.of_nat n) (c + 1)) with 0.
  2:{ symmetry. rewrite <- (Z.opp_involutive (Z.of_nat m - Z.of_nat n)). rewrite Z.quot_opp_l by lia. rewrite Z.quot_small by lia. reflexivity. }
  rewrite (W 0) by lia. rewrite (W (Z.of_nat n + 0)) by lia. replace (Z.of_nat n + 0) with (Z.of_nat n) by lia.
  apply IH; lia.
Qed.

Definition ramp_point (i : nat) : point := (lit "m,t=1", [(lit "f", FInt (FormatInt (Z.of_nat i)) (Z.of_nat i))]).

Theorem ramp_reversed : forall fo n, Z.of_nat n < maxInt64 ->
  let up := map ramp_point (seq 0 (S n)) in let down := map ramp_point (rev (seq 0 (S n))) in
  Permutation up down /\ Forall (good_point fo) up /\
  exists v v', field_in fo (bucket_of fo up) (lit "m,t=1") (lit "f") = Some v /\ valueBytes fo v = lit "0i" /\
    field_in fo (bucket_of fo down) (lit "m,t=1") (lit "f") = Some v' /\ valueBytes fo v' = FormatInt (Z.of_nat n) ++ lit "i".
Proof.
  intros fo n L up down.
  assert (P : Permutation up down) by (apply Permutation_map, Permutation_rev).
  destruct (drift_ok fo n L) as (G & v & Fv & Vv & _).
  assert (Gd : Forall (good_point fo) down) by (eapply Permutation_Forall; [exact P|exact G]).
  split; auto. split; [exact G|]. 
  assert (R : forall i, In i (seq 0 (S n)) -> int64 (Z.of_nat i)).
  { intros i J. apply in_seq in J. unfold int64, minInt64, maxInt64, two63 in *. lia. }
  assert (V : values (lit "m,t=1") (lit "f") down = map (fun i => FInt (FormatInt (Z.of_nat i)) (Z.of_nat i)) (rev (seq 0 (S n)))).
  { unfold down. rewrite <- (values_const (lit "m,t=1") (lit "f") (map _ (rev (seq 0 (S n))))). rewrite map_map. reflexivity. }
  assert (V' : rev (seq 0 (S n)) = n :: rev (seq 0 n)) by (rewrite seq_S, rev_app_distr; reflexivity).
  rewrite V' in V. cbn [map] in V. exists v.
  rewrite (field_history fo down) by exact Gd. rewrite V. cbn [map fold_left]. unfold step_val at 2, create. cbn [fst snd is_str vraw].
  rewrite (new_int fo _ (Z.of_nat n)); [|apply FormatInt_spec, R, in_seq; lia|apply R, in_seq; lia].
  change (fun v => (is_str v, vraw v)) with qv. rewrite int_fold. eexists. split; [exact Fv|]. split; [exact Vv|]. split; [reflexivity|].
  cbn [valueBytes]. rewrite map_map. cbn [vraw].
  rewrite (map_ext_in _ (fun i => Some (Z.of_nat i))).
  2:{ intros i J. assert (Ri : int64 (Z.of_nat i)) by (apply R; apply in_rev in J; apply in_seq in J; apply in_seq; lia).
      apply parse_int_text; [apply FormatInt_spec|]; exact Ri. }
  rewrite ramp_down by (unfold maxInt64, two63 in *; lia). reflexivity.
Qed.
