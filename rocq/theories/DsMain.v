(** The statements of P_Downsampler.v, from the lemmas before. *)
From Verif Require Import Base Text TextSpec TextProofs Convert NumSpec NumProofs LinesSpec RulesSpec RulesProofs Splitter SplitterProofs
  Avg AvgSpec AvgProofs AvgNum AvgPrint Assigner AssignerSpec AssignerProofs DsProofs.
Local Open Scope Z_scope.

Lemma buckets_ok : forall (B E : Type) (newBucket : Z -> B) (addLine : B -> bytes -> B * list E) p now0 e0 calls,
  0 < p -> period_end p now0 e0 ->
  let (a, answers) := do_calls B E newBucket addLine (newAssigner B newBucket p now0) calls in
  exists k l, history B E newBucket addLine p e0 calls answers k l /\ 0 <= k /\
    a_prev B a = (e0 + (k - 1) * p, contents B E newBucket addLine p l (e0 + (k - 1) * p)) /\
    a_curr B a = (e0 + k * p, contents B E newBucket addLine p l (e0 + k * p)) /\
    a_next B a = (e0 + (k + 1) * p, contents B E newBucket addLine p l (e0 + (k + 1) * p)).
Proof.
  intros B E nb ad p now0 e0 calls Hp P.
  destruct (refines B E nb ad p e0 Hp (proj2 P) now0 calls P) as (k & l & H & Hk & I & _).
  destruct (do_calls B E nb ad (newAssigner B nb p now0) calls) as [a ans]. cbn [fst snd] in *.
  exists k, l. subst a. cbn [a_prev a_curr a_next]. unfold slot. auto.
Qed.

Lemma emitted_ok : forall (B E : Type) (newBucket : Z -> B) (addLine : B -> bytes -> B * list E) p now0 e0 calls,
  0 < p -> period_end p now0 e0 ->
  let answers := snd (do_calls B E newBucket addLine (newAssigner B newBucket p now0) calls) in
  exists k l, history B E newBucket addLine p e0 calls answers k l /\
    Z.of_nat (length (emitted calls answers)) = k /\
    (forall j now e b, nth_error (emitted calls answers) j = Some (now, (e, b)) ->
       e = e0 + (Z.of_nat j - 1) * p /\ e + p <= now /\ b = contents B E newBucket addLine p l e) /\
    Forall (fun x => e0 - 2 * p <= fst x < e0 + (k + 1) * p) l.
Proof.
  intros B E nb ad p now0 e0 calls Hp P. cbn zeta.
  destruct (refines B E nb ad p e0 Hp (proj2 P) now0 calls P) as (k & l & H & Hk & _ & _).
  exists k, l. split; auto.
  destruct (history_emitted B E nb ad p e0 Hp (proj2 P) _ _ _ _ H) as (_ & L & J & F). split; [lia|]. auto.
Qed.

Lemma timer_ok : forall (B E : Type) (newBucket : Z -> B) (addLine : B -> bytes -> B * list E) p now0 e0 calls now now',
  0 < p -> period_end p now0 e0 -> now <= now' ->
  let a := fst (do_calls B E newBucket addLine (newAssigner B newBucket p now0) calls) in
  (now + UntilNext B a now <= now' -> exists a' eb, emit B newBucket a now' = (a', Some eb)) /\
  (now' < now + UntilNext B a now -> emit B newBucket a now' = (a, None)).
Proof.
  intros B E nb ad p now0 e0 calls now now' Hp P Hn. cbn zeta.
  destruct (refines B E nb ad p e0 Hp (proj2 P) now0 calls P) as (k & l & H & Hk & I).
  set (a := fst _) in *. destruct I as [-> _]. unfold UntilNext, emit. cbn [a_curr slot fst]. split; intros L.
  - replace (now' <? e0 + k * p) with false by lia. eauto.
  - replace (now' <? e0 + k * p) with true by lia. auto.
Qed.

(* ---------------------------------------------------------------- *)

(** The text of an integer, as strconv.FormatInt writes it. *)
Definition FormatIntText (z : Z) : bytes := FormatInt z.


Lemma shielded_free d s : s <> [] -> ~ ends_in bsl s -> ~ In d s -> shielded d s.
Proof. intros N E I. split; auto. split; auto. intros p q -> _. exfalso. apply I. apply in_or_app; simpl; auto. Qed.

Lemma not_ends_bsl s : ~ In bsl s -> ~ ends_in bsl s.
Proof. intros N [p ->]. apply N. apply in_or_app; simpl; auto. Qed.

Ltac free := apply shielded_free; [discriminate | apply not_ends_bsl |]; apply memb_false; reflexivity.

Lemma sum_seq n : 2 * zsum (map Z.of_nat (seq 0 (S n))) = Z.of_nat n * Z.of_nat (S n).
Proof.
  induction n as [|n IH]; [reflexivity|]. rewrite seq_S, map_app, zsum_app. cbn [plus map].
  change (zsum [Z.of_nat (S n)]) with (Z.of_nat (S n) + 0). nia.
Qed.

Lemma values_const k n (vs : list fval) : values k n (map (fun v => (k, [(n, v)])) vs) = vs.
Proof.
  induction vs as [|v vs IH]; auto. unfold values in *. cbn [map flat_map fst snd]. rewrite !beqs_refl. cbn [app flat_map]. rewrite IH. auto.
Qed.

Lemma drift_ok : forall fo n, Z.of_nat n < maxInt64 ->
  let pts := map (fun i => (lit "m,t=1", [(lit "f", FInt (FormatIntText (Z.of_nat i)) (Z.of_nat i))])) (seq 0 (S n)) in
  Forall (good_point fo) pts /\
  exists v, field_in fo (bucket_of fo pts) (lit "m,t=1") (lit "f") = Some v /\ valueBytes fo v = lit "0i" /\
    2 * zsum (map Z.of_nat (seq 0 (S n))) = Z.of_nat n * Z.of_nat (S n).
Proof.
  intros fo n L. cbn zeta.
  assert (R : forall i, In i (seq 0 (S n)) -> int64 (Z.of_nat i)).
  { intros i I. apply in_seq in I. unfold int64, minInt64, maxInt64, two63 in *. lia. }
  set (pts := map _ (seq 0 (S n))).
  assert (G : Forall (good_point fo) pts).
  { apply Forall_forall. intros pt I. apply in_map_iff in I. destruct I as (i & <- & I). split; [|split; [|split]]; cbn [fst snd].
    - free.
    - discriminate.
    - repeat constructor. intros [].
    - constructor; [|constructor]. cbn [fst snd good_val]. split; [free|]. split; auto. apply FormatInt_spec; auto. }
  split; auto.
  assert (V : values (lit "m,t=1") (lit "f") pts = map (fun i => FInt (FormatIntText (Z.of_nat i)) (Z.of_nat i)) (seq 0 (S n))).
  { unfold pts. rewrite <- (values_const (lit "m,t=1") (lit "f") (map _ (seq 0 (S n)))). rewrite map_map. auto. }
  rewrite field_history by auto. rewrite V. cbn [seq map]. cbn [fold_left]. unfold step_val at 2, create. cbn [fst snd is_str vraw].
  rewrite (new_int fo _ (Z.of_nat 0)); [|apply FormatInt_spec; unfold int64, minInt64, maxInt64, two63; lia|unfold int64, minInt64, maxInt64, two63; lia].
  change (fun v => (is_str v, vraw v)) with qv.
  rewrite int_fold. eexists. split; [reflexivity|]. split; [|apply sum_seq].
  cbn [valueBytes]. rewrite map_map. cbn [vraw].
  rewrite (map_ext_in _ (fun i => Some (Z.of_nat i))).
  2:{ intros i I. apply parse_int_text; [apply FormatInt_spec|]; apply R; cbn [seq]; right; auto. }
  rewrite <- seq_shift, map_map. rewrite (map_ext _ (fun i => Some (1 + Z.of_nat i))) by (intros; f_equal; lia).
  change (Z.of_nat 0) with 0. rewrite drift by lia. reflexivity.
Qed.

Lemma bounded_average : forall z os lo hi,
  let zs := z :: somes os in let n := Z.of_nat (length zs) in let avg := int_running z 1 os in
  int64 lo -> int64 hi -> hi - lo <= maxInt64 -> Forall (fun x => lo <= x <= hi) zs -> n <= maxInt64 ->
  lo <= avg <= hi /\ 2 * Z.abs (n * avg - zsum zs) <= n * (n - 1).
Proof.
  intros z os lo hi. cbn zeta. intros Il Ih W F L. inversion F as [|? ? Hz F']; subst. cbn [length] in *.
  destruct (int_average lo hi Il Ih W os z 1 z Hz ltac:(lia) F' ltac:(lia) ltac:(lia)) as [A D].
  replace (Z.of_nat (S (length (somes os)))) with (1 + Z.of_nat (length (somes os))) by lia. auto.
Qed.

Lemma int_field : forall fo pts k n t z vs, Forall (good_point fo) pts ->
  values k n pts = FInt t z :: vs ->
  exists v os txt, field_in fo (bucket_of fo pts) k n = Some v /\ Forall2 reads_int vs os /\
    dec_text (int_running z 1 os) txt /\ valueBytes fo v = txt ++ lit "i".
Proof.
  intros fo pts k n t z vs F V. destruct (field_value fo pts k n F) as (v & A & Sm); [congruence|].
  rewrite V in Sm. inversion Sm as [| | ? ? ? os txt R D E1 E2|]; subst. exists v, os, txt. auto.
Qed.

Lemma last_field : forall fo pts k n v vs, Forall (good_point fo) pts -> values k n pts = v :: vs ->
  exists fv, field_in fo (bucket_of fo pts) k n = Some fv /\
    (forall s, v = FStr s -> valueBytes fo fv = dq :: esc_spec [dq] (last (map vraw vs) s) ++ [dq]) /\
    (forall t, v = FTok t -> valueBytes fo fv = last (map vraw vs) t).
Proof.
  intros fo pts k n v vs F V. destruct (field_value fo pts k n F) as (fv & A & Sm); [congruence|].
  rewrite V in Sm. exists fv. split; auto. split; intros s ->; inversion Sm; auto.
Qed.

Lemma partial_line : forall fo,
  let b := bucket_of fo [(lit "m", [(lit "a", FInt (lit "1") 1)])] in
  let r := AddLine fo b (lit "m a=5i,b") in
  good_point fo (lit "m", [(lit "a", FInt (lit "1") 1)]) /\ snd r <> [] /\
  field_in fo b (lit "m") (lit "a") = Some (VInt fo 1 1) /\ field_in fo (fst r) (lit "m") (lit "a") = Some (VInt fo 3 2).
Proof.
  intros fo. cbn zeta. split; [|vm_compute; split; [discriminate|auto]].
  split; [|split; [|split]]; cbn [fst snd].
  - free.
  - discriminate.
  - repeat constructor. intros [].
  - constructor; [|constructor]. cbn [fst snd good_val]. split; [free|]. split.
    + apply (it_pos (lit "1")). split; [discriminate|]. repeat constructor; vm_compute; discriminate.
    + unfold int64, minInt64, maxInt64, two63. lia.
Qed.

Lemma reject_field : forall fo b k n v, good_point fo (k, [(n, v)]) ->
  snd (AddLine fo b (point_text (k, [(n, v)]))) <> [] -> fst (AddLine fo b (point_text (k, [(n, v)]))) = b.
Proof.
  intros fo b k n v G N. destruct (point_parse fo _ G) as (raw & T & P).
  apply (reject_single fo b _ (map asg_of [(n, v)]) []); auto. rewrite T. auto.
Qed.

(* ---------------------------------------------------------------- *)
Lemma order_one fo k f order : iteration_of fo [(k, f)] order -> exists ns, order = [(k, f, ns)] /\ Permutation (map fst f) ns.
Proof.
  intros [P F]. apply Permutation_length_1_inv in P. destruct order as [|[[k' f'] ns] [|? ?]]; try discriminate.
  cbn in P. inversion P; subst. inversion F; subst. exists ns. auto.
Qed.

Lemma perm_one {A} (x : A) l : Permutation [x] l -> l = [x].
Proof. apply Permutation_length_1_inv. Qed.

Lemma unquoted_ok : forall fo gosort, sorts gosort -> f_parse fo (lit "t") = None ->
  let pts := [(lit "m", [(lit "f", FTok (lit "t"))]); (lit "m", [(lit "f", FStr (lit "a b"))])] in
  Forall (good_point fo) pts /\
  (forall order, iteration_of fo (bucket_of fo pts) order -> bucketBytes fo gosort 1500 order = lit "m f=a b 1500
") /\
  (forall v, good_val fo v -> vtext v <> lit "a b").
Proof.
  intros fo gs Hs Ht. cbn zeta.
  assert (G : Forall (good_point fo) [(lit "m", [(lit "f", FTok (lit "t"))]); (lit "m", [(lit "f", FStr (lit "a b"))])]).
  { constructor; [|constructor; [|constructor]]; (split; [|split; [|split]]; cbn [fst snd]; [free | discriminate | repeat constructor; intros [] | constructor; [|constructor]; cbn [fst snd good_val]; split; [free|]]).
    - split; [|split; auto].
      + split; [discriminate|]. split; [|discriminate]. intros c Hc I. simpl in Hc, I. intuition; subst; discriminate.
      + intros (t & z & E & T). destruct t as [|? [|? ?]]; [|discriminate|discriminate]. discriminate.
    - split; [apply not_ends_bsl; apply memb_false; reflexivity|]. split; [left; apply memb_false; reflexivity|].
      intros t z E T. exfalso. change (lit "a b") with (["a"%char; " "%char] ++ ["b"%char]) in E. apply app_inj_tail in E. destruct E; discriminate. }
  split; auto. split.
  - intros order It.
    assert (Eb : bucket_of fo [(lit "m", [(lit "f", FTok (lit "t"))]); (lit "m", [(lit "f", FStr (lit "a b"))])] = [(lit "m", [(lit "f", VRaw fo (lit "a b"))])]).
    { unfold bucket_of. cbn [fold_left].
      assert (E1 : fst (AddLine fo [] (point_text (lit "m", [(lit "f", FTok (lit "t"))]))) = [(lit "m", [(lit "f", newFieldValue fo (lit "t"))])]) by reflexivity.
      rewrite E1. rewrite new_tok.
      - reflexivity.
      - inversion G as [|? ? (_ & _ & _ & F) _]; subst. inversion F as [|? ? [_ X] _]; subst. exact X. }
    rewrite Eb in It. apply order_one in It. destruct It as (ns & -> & P). cbn [map fst] in P. apply perm_one in P. subst ns.
    cbn [bucketBytes fieldsBytes]. destruct (Hs bytes bltb [lit "f"] bltb_weak) as [Pf _]. apply perm_one in Pf.
    rewrite Pf. reflexivity.
  - intros [t z|t|s|t] Gv E; cbn [vtext] in E.
    + change (lit "a b") with (["a"%char; " "%char] ++ ["b"%char]) in E. apply app_inj_tail in E. destruct E; discriminate.
    + destruct Gv as ((_ & X & _) & _). subst t. apply (X sp); simpl; auto.
    + discriminate.
    + destruct Gv as ((_ & X & _) & _). subst t. apply (X sp); simpl; auto.
Qed.

Lemma no_fields_ok : forall fo gosort order,
  iteration_of fo (bucket_from fo [lit "m"]) order -> bucketBytes fo gosort 1500 order = lit "m 1500
".
Proof.
  intros fo gs order It. change (bucket_from fo [lit "m"]) with ([(lit "m", [])] : avgBucket fo) in It.
  apply order_one in It. destruct It as (ns & -> & _). reflexivity.
Qed.

(* ---------------------------------------------------------------- *)
Lemma dsMax_is : Z.of_nat dsMax = 1048576.
Proof. unfold dsMax. apply Z2Nat.id. lia. Qed.
Lemma worker_ok : forall (B E : Type) (newBucket : Z -> B) (addLine : B -> bytes -> B * list E) fail p now0 turns,
  let d := worker_run B E newBucket addLine fail (newWorker B newBucket p now0) turns in
  let (a, answers) := do_calls B E newBucket addLine (newAssigner B newBucket p now0) (flat_map (turn_calls B) turns) in
  d_asg B d = a /\ exists bufs,
    Forall2 (fun (eb : Z * (Z * B)) buf => exists t, In t turns /\ buf = t_render B t (snd eb)) (emitted (flat_map (turn_calls B) turns) answers) bufs /\
    d_received (d_st B d) = Z.of_nat (length (filter (fun t => match t_in B t with Some _ => true | None => false end) turns)) /\
    d_invalid_ts (d_st B d) = Z.of_nat (length (filter (is_ts_error E) (all_errors B E answers))) /\
    d_invalid_lines (d_st B d) = Z.of_nat (length (filter (fun e => negb (is_ts_error E e)) (all_errors B E answers))) /\
    d_sent (d_st B d) = Z.of_nat (length (filter (fun b : bytes => match b with [] => false | _ => true end) bufs)) /\
    concat (d_pub (d_st B d)) = concat bufs /\
    Forall (fun m => m <> [] /\ Z.of_nat (length m) <= 1048577) (d_pub (d_st B d)) /\
    (Forall (fun b => Forall (fun l => Z.of_nat (length l) <= 1048576) (lines_of b)) bufs ->
       flat_map lines_of (d_pub (d_st B d)) = flat_map lines_of bufs) /\
    d_failed (d_st B d) = Z.of_nat (length (filter fail (seq 0 (length (d_pub (d_st B d)))))).
Proof.
  intros B E nb ad fail p now0 turns. cbn zeta.
  destruct (run_accounts B E nb ad fail (newAssigner B nb p now0) turns _ eq_refl) as (A & bufs & A1 & A2 & A3 & A4 & A5 & A6 & A7).
  fold (newWorker B nb p now0) in *.
  destruct (do_calls B E nb ad (newAssigner B nb p now0) (flat_map (turn_calls B) turns)) as [a ans]. cbn [fst snd] in *.
  split; auto. exists bufs. split; auto. split; auto. split; auto. split; auto. split; auto.
  assert (Hm : (1 <= dsMax)%nat) by (pose proof dsMax_is; lia).
  rewrite A6. split; [|split; [|split]].
  - clear -Hm. induction bufs as [|b bufs IH]; auto. cbn [flat_map concat]. rewrite concat_app, IH, split_all_concat by auto. auto.
  - apply Forall_forall. intros m I. apply in_flat_map in I. destruct I as (b & _ & I). split.
    + apply (proj1 (Forall_forall _ _) (split_all_nonempty dsMax b Hm) m I).
    + pose proof (proj1 (Forall_forall _ _) (split_all_size dsMax b Hm) m I) as X. cbn beta in X. pose proof dsMax_is. lia.
  - clear -Hm. induction 1 as [|b bufs Hb F IH]; auto. cbn [flat_map]. rewrite flat_map_app, IH. f_equal.
    apply split_all_lines; auto. eapply Forall_impl; [|exact Hb]. cbn beta. intros l Hl. pose proof dsMax_is. lia.
  - rewrite <- A6. exact A7.
Qed.

(** A float implementation for the examples: no text is a float. *)
Definition fo0 : floatOps := mkFloatOps unit (fun _ _ => tt) (fun _ _ => tt) (fun _ _ => tt) (fun _ => tt) (fun _ => None) (fun _ => lit "0").
Definition ex_pts : list point :=
  [ (lit "cpu,h=a", [(lit "z", FInt (lit "10") 10); (lit "b", FTok (lit "t"))]);
    (lit "mem", [(lit "s", FStr (lit "x ""y"""))]);
    (lit "cpu,h=a", [(lit "b", FTok (lit "f")); (lit "z", FInt (lit "21") 21)]) ].

Ltac word := split; [discriminate|]; split; [|discriminate]; let c := fresh in let Hc := fresh in let Hi := fresh in
  intros c Hc Hi; simpl in Hc, Hi; intuition; subst; discriminate.

Lemma tok_one fo c : f_parse fo [c] = None -> bare [c] -> good_val fo (FTok [c]).
Proof.
  intros P W. split; auto. split; auto. intros (t & z & E & T). destruct t as [|? [|? ?]]; try discriminate.
  inversion T; subst; unfold digits in *; intuition; discriminate.
Qed.

Lemma ex_pts_good : Forall (good_point fo0) ex_pts.
Proof.
  repeat (apply Forall_cons; [split; [|split; [|split]]; cbn [fst snd];
    [free | discriminate | repeat constructor; cbn [map fst]; intros X; simpl in X; intuition discriminate
    | repeat (apply Forall_cons; [cbn [fst snd]; split; [free|]|]); try apply Forall_nil] |]); try apply Forall_nil.
  - split; [|unfold int64, minInt64, maxInt64, two63; lia]. apply (it_pos (lit "10")). split; [discriminate|]. repeat constructor; vm_compute; discriminate.
  - apply tok_one; [reflexivity|word].
  - split; [apply not_ends_bsl; apply memb_false; reflexivity|]. split; [right; intros (p & c & q & E & I)|].
    + assert (N : ~ In bsl (lit "x ""y""")) by (apply memb_false; reflexivity). apply N. rewrite E. apply in_or_app; simpl; auto.
    + intros t z E T. exfalso. change (lit "x ""y""") with (["x"%char; " "%char; dq; "y"%char] ++ [dq]) in E. apply app_inj_tail in E. destruct E; discriminate.
  - apply tok_one; [reflexivity|word].
  - split; [|unfold int64, minInt64, maxInt64, two63; lia]. apply (it_pos (lit "21")). split; [discriminate|]. repeat constructor; vm_compute; discriminate.
Qed.

Lemma ex_output : exists order, iteration_of fo0 (bucket_of fo0 ex_pts) order /\
  bucketBytes fo0 (@isort) 1500 order = lit "mem s=""x \""y\"""" 1500
cpu,h=a b=f,z=15i 1500
".
Proof.
  exists [(lit "mem", [(lit "s", VString fo0 (lit "x ""y"""))], [lit "s"]);
     (lit "cpu,h=a", [(lit "z", VInt fo0 15 2); (lit "b", VRaw fo0 (lit "f"))], [lit "z"; lit "b"])].
  split; [|vm_compute; reflexivity].
  assert (E : bucket_of fo0 ex_pts = [(lit "cpu,h=a", [(lit "z", VInt fo0 15 2); (lit "b", VRaw fo0 (lit "f"))]); (lit "mem", [(lit "s", VString fo0 (lit "x ""y"""))])]) by (vm_compute; reflexivity).
  rewrite E. split; [apply perm_swap|]. repeat constructor; cbn; auto.
Qed.

(** A float implementation with one number, "0". *)
Definition fo1 : floatOps := mkFloatOps unit (fun _ _ => tt) (fun _ _ => tt) (fun _ _ => tt) (fun _ => tt)
  (fun s => if beqs s (lit "0") then Some tt else None) (fun _ => lit "0").
Lemma fo1_formats : formats_well fo1.
Proof.
  intros []. cbn [good_val fo1 f_format]. split; [word|]. split; [|exists tt; reflexivity].
  intros [p E]. destruct p as [|? [|? ?]]; discriminate.
Qed.
Lemma values_in k n pts v : In v (values k n pts) <-> exists pt, In pt pts /\ fst pt = k /\ In (n, v) (snd pt).
Proof.
  unfold values. rewrite in_flat_map. split.
  - intros (pt & I & J). exists pt. destruct (beqs (fst pt) k) eqn:E; [|destruct J]. apply beqs_eq in E.
    apply in_flat_map in J. destruct J as ([n' v'] & K & L). cbn [fst snd] in L. destruct (beqs n' n) eqn:E2; [|destruct L].
    apply beqs_eq in E2. destruct L as [<-|[]]. subst. auto.
  - intros (pt & I & <- & J). exists pt. split; auto. rewrite beqs_refl. apply in_flat_map. exists (n, v). split; auto.
    cbn [fst snd]. rewrite beqs_refl. simpl. auto.
Qed.
Lemma ex_consistent : consistent ex_pts.
Proof.
  intros k n v w Hv Hw. apply values_in in Hv, Hw. destruct Hv as (p & Ip & <- & Jp), Hw as (q & Iq & Eq & Jq).
  simpl in Ip, Iq. destruct Ip as [<-|[<-|[<-|[]]]], Iq as [<-|[<-|[<-|[]]]]; try discriminate Eq; simpl in Jp, Jq;
  repeat match goal with H : _ \/ _ |- _ => destruct H end; try contradiction;
  repeat match goal with H : (_, _) = (_, _) |- _ => inversion H; clear H; subst end; try reflexivity; discriminate.
Qed.
