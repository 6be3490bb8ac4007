(** The metric parser against the grammar of PromSpec. *)
From Verif Require Import Base Convert NumSpec NumProofs Prom RulesSpec PromSpec.
Local Open Scope nat_scope.

Lemma index_of_Some p s i : index_of p s = Some i ->
  exists a c b, s = a ++ c :: b /\ length a = i /\ Forall (fun x => p x = false) a /\ p c = true.
Proof.
  revert i. induction s as [|x r IH]; cbn [index_of]; intros i H; [discriminate|].
  destruct (p x) eqn:E.
  - inversion H; subst. exists [], x, r. repeat split; auto.
  - destruct (index_of p r) as [j|]; [|discriminate]. inversion H; subst.
    destruct (IH j eq_refl) as (a & c & b & -> & <- & Fa & Pc). exists (x :: a), c, b. repeat split; auto.
Qed.

Lemma index_of_None p s : index_of p s = None -> Forall (fun x => p x = false) s.
Proof.
  induction s as [|x r IH]; cbn [index_of]; intros H; auto.
  destruct (p x) eqn:E; [discriminate|]. destruct (index_of p r); [discriminate|]. constructor; auto.
Qed.

Lemma index_of_app p a c b : Forall (fun x => p x = false) a -> p c = true -> index_of p (a ++ c :: b) = Some (length a).
Proof. induction 1 as [|x r Hx F IH]; cbn [app index_of length]; intros Hc; [rewrite Hc; auto|]. rewrite Hx, IH; auto. Qed.

Lemma index_of_none p a : Forall (fun x => p x = false) a -> index_of p a = None.
Proof. induction 1 as [|x r Hx F IH]; cbn [index_of]; auto. rewrite Hx, IH; auto. Qed.

Lemma not_in_forall c (s : bytes) : ~ In c s <-> Forall (fun x => Ascii.eqb c x = false) s.
Proof.
  rewrite Forall_forall. split.
  - intros H x Hx. apply Ascii.eqb_neq. intros ->. auto.
  - intros H Hc. apply H in Hc. rewrite Ascii.eqb_refl in Hc. discriminate.
Qed.

Lemma no_eqdq_cons x s : no_eqdq (x :: s) -> no_eqdq s.
Proof. intros H p q E. apply (H (x :: p) q). rewrite E. reflexivity. Qed.

Lemma no_eqdq_nil : no_eqdq [].
Proof. intros [|] q; discriminate. Qed.

Lemma index_eqdq_cons c d r : index_eqdq (c :: d :: r) =
  if Ascii.eqb c eqs && Ascii.eqb d dq then Some O else option_map S (index_eqdq (d :: r)).
Proof. reflexivity. Qed.

Lemma index_eqdq_app a b : no_eqdq a -> index_eqdq (a ++ eqs :: dq :: b) = Some (length a).
Proof.
  induction a as [|x a IH]; intros H; cbn [app].
  - rewrite index_eqdq_cons, !Ascii.eqb_refl. reflexivity.
  - assert (E : exists d r, a ++ eqs :: dq :: b = d :: r /\ (Ascii.eqb x eqs && Ascii.eqb d dq)%bool = false).
    { destruct a as [|y a].
      - exists eqs, (dq :: b). split; auto. rewrite andb_false_iff. right. reflexivity.
      - exists y, (a ++ eqs :: dq :: b). split; auto. apply andb_false_iff.
        destruct (Ascii.eqb x eqs) eqn:E1; auto. destruct (Ascii.eqb y dq) eqn:E2; auto.
        apply Ascii.eqb_eq in E1, E2. subst. exfalso. apply (H [] a). reflexivity. }
    destruct E as (d & r & E & B). specialize (IH (no_eqdq_cons _ _ H)). rewrite E in *.
    rewrite index_eqdq_cons, B, IH. reflexivity.
Qed.

Lemma index_eqdq_Some s i : index_eqdq s = Some i ->
  exists a b, s = a ++ eqs :: dq :: b /\ length a = i /\ no_eqdq a.
Proof.
  revert i. induction s as [|x r IH]; intros i H; [discriminate|].
  destruct r as [|d r]; [discriminate|]. rewrite index_eqdq_cons in H.
  destruct (Ascii.eqb x eqs && Ascii.eqb d dq)%bool eqn:B.
  - apply andb_true_iff in B. destruct B as [B1 B2]. apply Ascii.eqb_eq in B1, B2. subst. inversion H; subst.
    exists [], r. split; [reflexivity|split; [reflexivity|apply no_eqdq_nil]].
  - destruct (index_eqdq (d :: r)) as [j|] eqn:E; [|discriminate]. inversion H; subst.
    destruct (IH j eq_refl) as (a & b & E' & L & N). exists (x :: a), b.
    split; [rewrite E'; reflexivity|]. split; [simpl; auto|].
    intros p q Ep. destruct p as [|y p]; cbn [app] in Ep; inversion Ep; subst.
    + cbn [app] in E'. inversion E'; subst. rewrite !Ascii.eqb_refl in B. discriminate.
    + apply (N p q); auto.
Qed.

Lemma index_eqdq_None s : index_eqdq s = None -> no_eqdq s.
Proof.
  intros H p q E. revert p E. induction s as [|x r IH]; intros p E; [destruct p; discriminate|].
  destruct r as [|d r].
  - destruct p as [|y [|z p]]; discriminate.
  - rewrite index_eqdq_cons in H. destruct (Ascii.eqb x eqs && Ascii.eqb d dq)%bool eqn:B; [discriminate|].
    destruct (index_eqdq (d :: r)) eqn:E1; [discriminate|].
    destruct p as [|y p]; cbn [app] in E; inversion E; subst.
    + rewrite !Ascii.eqb_refl in B. discriminate.
    + apply (IH eq_refl p). auto.
Qed.

Lemma skipn_app_len {A} (a b : list A) n : n = length a -> skipn n (a ++ b) = b.
Proof. intros ->. rewrite skipn_app, skipn_all, Nat.sub_diag. reflexivity. Qed.

Lemma firstn_app_len {A} (a b : list A) n : n = length a -> firstn n (a ++ b) = a.
Proof. intros ->. rewrite firstn_app, firstn_all, Nat.sub_diag. simpl. apply app_nil_r. Qed.

Lemma skipn_add {A} (l : list A) : forall i j, skipn (i + j) l = skipn j (skipn i l).
Proof. induction l as [|x l IH]; intros [|i] j; simpl; auto. destruct j; auto. Qed.

Lemma label_item_len n v : length (label_item n v) = length n + length v + 3.
Proof. unfold label_item. rewrite !app_length. simpl. lia. Qed.

Lemma skipn_split {A} (s : list A) i t : skipn i s = t -> t <> [] -> exists p, s = p ++ t /\ length p = i.
Proof.
  intros H N. exists (firstn i s). split; [subst; symmetry; apply firstn_skipn|].
  rewrite firstn_length. destruct (Nat.le_gt_cases i (length s)); [lia|].
  rewrite skipn_all2 in H by lia. congruence.
Qed.

(** Everything [labels_parse] does on one label, in terms of the text at its position. *)
Lemma labels_step f s base i out n v w p :
  s = p ++ label_item n v ++ w -> length p = i -> no_eqdq n -> ~ In dq v ->
  labels_parse (S f) s base i out =
  let out' := out ++ [((base + i, length n), (base + (i + length n + 2), length v))] in
  let i2 := i + length (label_item n v) in
  match w with
  | [] => LPanic
  | c :: _ => if Ascii.eqb c rbrace then LOk out' (i2 + 1)
              else if Ascii.eqb c comma then labels_parse f s base (i2 + 1) out' else LErr
  end.
Proof.
  intros Es Lp Hn Hv. cbn [labels_parse].
  assert (E1 : skipn i s = n ++ eqs :: dq :: (v ++ [dq]) ++ w).
  { rewrite Es, skipn_app_len by auto. unfold label_item. rewrite <- !app_assoc. reflexivity. }
  rewrite E1, index_eqdq_app by auto.
  assert (E2 : skipn (i + length n + 2) s = v ++ dq :: w).
  { replace (i + length n + 2) with (i + (length n + 2)) by lia. rewrite skipn_add, E1.
    rewrite skipn_add, skipn_app_len by auto. cbn [skipn]. rewrite <- app_assoc. reflexivity. }
  rewrite E2, index_of_app; [|apply not_in_forall; auto|apply Ascii.eqb_refl].
  assert (E3 : skipn (i + length n + 2 + length v + 1) s = w).
  { replace (i + length n + 2 + length v + 1) with (i + length n + 2 + (length v + 1)) by lia.
    rewrite skipn_add, E2. rewrite skipn_add, skipn_app_len by auto. reflexivity. }
  assert (E4 : i + length n + 2 + length v + 1 = i + length (label_item n v)) by (rewrite label_item_len; lia).
  rewrite <- E4.
  assert (E5 : nth_error s (i + length n + 2 + length v + 1) = hd_error w).
  { rewrite <- E3. clear. generalize (i + length n + 2 + length v + 1). intros k. revert k.
    induction s as [|x s IH]; intros [|k]; simpl; auto. }
  rewrite E5. destruct w as [|c w]; reflexivity.
Qed.

(** A successful or panicking step found a label. *)
Lemma labels_step_inv f s base i out : i <= length s ->
  match labels_parse (S f) s base i out with
  | LErr => True
  | _ => exists n v w, skipn i s = label_item n v ++ w /\ no_eqdq n /\ ~ In dq v
  end.
Proof.
  intros Hi. cbn [labels_parse]. destruct (index_eqdq (skipn i s)) as [j|] eqn:E1; [|exact I].
  apply index_eqdq_Some in E1. destruct E1 as (n & b & E1 & <- & Hn).
  assert (E2 : skipn (i + length n + 2) s = b).
  { replace (i + length n + 2) with (i + (length n + 2)) by lia. rewrite skipn_add, E1.
    rewrite skipn_add, skipn_app_len by auto. reflexivity. }
  rewrite E2. destruct (index_of (Ascii.eqb dq) b) as [k|] eqn:E3; [|exact I].
  apply index_of_Some in E3. destruct E3 as (v & c & w & Eb & <- & Fv & Ec). apply Ascii.eqb_eq in Ec. subst c.
  assert (X : exists n0 v0 w0, skipn i s = label_item n0 v0 ++ w0 /\ no_eqdq n0 /\ ~ In dq v0).
  { exists n, v, w. split; [rewrite E1, Eb; unfold label_item; rewrite <- !app_assoc; reflexivity|].
    split; auto. apply not_in_forall; auto. }
  repeat match goal with |- context [match ?x with _ => _ end] => destruct x end; auto.
Qed.

Lemma label_items_nonempty u ls : label_items u ls -> u <> [].
Proof.
  intros H E. apply f_equal with (f := @length ascii) in E.
  inversion H; subst; try rewrite app_length in E; rewrite label_item_len in E; simpl in E; lia.
Qed.

(** The end of a view. *)
Definition vend (v : view) : nat := fst v + snd v.
Definition lend (l : view * view) : nat := Nat.max (vend (fst l)) (vend (snd l)).

Lemma slice_shift pre s i j base : base = length pre -> slice (pre ++ s) (base + i, j) = firstn j (skipn i s).
Proof. intros ->. unfold slice; simpl. rewrite skipn_add, skipn_app_len by auto. reflexivity. Qed.

Lemma slice_item pre p n v w base i : base = length pre -> i = length p ->
  let s := p ++ label_item n v ++ w in
  label_text (pre ++ s) ((base + i, length n), (base + (i + length n + 2), length v)) = (n, v).
Proof.
  intros Hb Hi s. unfold label_text. cbn [fst snd]. rewrite !slice_shift by auto. f_equal.
  - unfold s. rewrite skipn_app_len by auto. unfold label_item. rewrite <- !app_assoc. apply firstn_app_len. auto.
  - unfold s. replace (i + length n + 2) with (i + (length n + 2)) by lia.
    rewrite skipn_add, skipn_app_len by auto. unfold label_item. rewrite <- !app_assoc.
    rewrite skipn_add, skipn_app_len by auto. cbn [skipn app]. apply firstn_app_len. auto.
Qed.

(** Completeness: a list of labels is read as such, wherever it stands. *)
Lemma labels_complete u ls : label_items u ls -> forall fuel pre p w base i out,
  base = length pre -> i = length p -> length u < fuel ->
  let s := p ++ u ++ w in
  match w with
  | [] => labels_parse fuel s base i out = LPanic
  | c :: _ => c = rbrace -> exists vs, labels_parse fuel s base i out = LOk (out ++ vs) (i + length u + 1) /\
      map (label_text (pre ++ s)) vs = ls /\ Forall (fun l => lend l <= base + i + length u) vs /\
      Forall (fun l => vend (fst l) <= base + i + length u /\ vend (snd l) <= base + i + length u) vs
  end.
Proof.
  induction 1 as [n v Hn Hv|n v u ls Hn Hv Hu IH]; intros fuel pre p w base i out Hb Hi Hf s.
  - destruct fuel as [|f]; [lia|]. pose proof (labels_step f s base i out n v w p eq_refl (eq_sym Hi) Hn Hv) as X.
    destruct w as [|c w]; [exact X|]. intros ->. rewrite X. rewrite Ascii.eqb_refl. cbv zeta.
    eexists. split; [reflexivity|].
    split; [|split].
    + cbn [map]. f_equal. apply slice_item; auto.
    + constructor; auto. unfold lend, vend. cbn [fst snd]. rewrite label_item_len. lia.
    + constructor; auto. unfold vend. cbn [fst snd]. rewrite label_item_len. lia.
  - destruct fuel as [|f]; [lia|]. set (it := label_item n v) in *.
    assert (Es : s = p ++ it ++ (comma :: u ++ w)). { unfold s. rewrite <- !app_assoc. reflexivity. }
    pose proof (labels_step f s base i out n v (comma :: u ++ w) p Es (eq_sym Hi) Hn Hv) as X.
    cbv zeta in X. cbn [Ascii.eqb] in X.
    replace (Ascii.eqb comma rbrace) with false in X by reflexivity. rewrite Ascii.eqb_refl in X.
    fold it in X. rewrite X.
    assert (Es2 : s = (p ++ it ++ [comma]) ++ u ++ w). { rewrite Es, <- !app_assoc. reflexivity. }
    assert (Lf : length u < f). { rewrite !app_length in Hf. unfold it in Hf. rewrite label_item_len in Hf. simpl in Hf. lia. }
    assert (Li : i + length it + 1 = length (p ++ it ++ [comma])). { rewrite !app_length. simpl. lia. }
    specialize (IH f pre (p ++ it ++ [comma]) w base (i + length it + 1)
      (out ++ [((base + i, length n), (base + (i + length n + 2), length v))]) Hb Li Lf).
    cbv zeta in IH. rewrite <- Es2 in IH.
    destruct w as [|c w]; [exact IH|]. intros Hc. destruct (IH Hc) as (vs & E & Em & Ev & Ev2).
    exists (((base + i, length n), (base + (i + length n + 2), length v)) :: vs).
    split; [rewrite E, <- app_assoc; f_equal; rewrite !app_length; simpl; lia|].
    split; [|split].
    + cbn [map]. f_equal; auto. rewrite Es. apply slice_item; auto.
    + constructor.
      * unfold lend, vend. cbn [fst snd]. rewrite !app_length. unfold it. rewrite label_item_len. simpl. lia.
      * eapply Forall_impl; [|exact Ev]. cbn beta. intros a Ha. rewrite !app_length. simpl. lia.
    + constructor.
      * unfold vend. cbn [fst snd]. rewrite !app_length. unfold it. rewrite label_item_len. simpl. lia.
      * eapply Forall_impl; [|exact Ev2]. cbn beta. intros a Ha. rewrite !app_length. simpl. lia.
Qed.

(** Soundness: what is read as labels is a list of labels. *)
Lemma labels_sound : forall fuel s base i out, i <= length s ->
  match labels_parse fuel s base i out with
  | LErr => True
  | LPanic => exists u ls, skipn i s = u /\ label_items u ls
  | LOk _ n => exists u ls w, skipn i s = u ++ rbrace :: w /\ label_items u ls
  end.
Proof.
  induction fuel as [|f IH]; intros s base i out Hi; [exact I|].
  pose proof (labels_step_inv f s base i out Hi) as X.
  destruct (labels_parse (S f) s base i out) as [| |vs k] eqn:E; auto.
  - destruct X as (n & v & w & Ew & Hn & Hv).
    destruct (skipn_split s i _ Ew) as (p & Es & Lp).
    { intros Z. apply f_equal with (f := @length ascii) in Z. rewrite app_length, label_item_len in Z. simpl in Z. lia. }
    rewrite (labels_step f s base i out n v w p Es Lp Hn Hv) in E. cbv zeta in E.
    destruct w as [|c w].
    + exists (label_item n v), [(n, v)]. rewrite Ew, app_nil_r. split; auto. constructor; auto.
    + destruct (Ascii.eqb c rbrace); [discriminate|]. destruct (Ascii.eqb c comma) eqn:Ec; [|discriminate].
      apply Ascii.eqb_eq in Ec. subst c.
      assert (Hle : i + length (label_item n v) + 1 <= length s).
      { rewrite Es, !app_length. simpl. lia. }
      specialize (IH s base (i + length (label_item n v) + 1)
        (out ++ [((base + i, length n), (base + (i + length n + 2), length v))]) Hle). rewrite E in IH.
      destruct IH as (u & ls & Eu & Hu).
      assert (Ew2 : skipn (i + length (label_item n v) + 1) s = w).
      { replace (i + length (label_item n v) + 1) with (i + (length (label_item n v) + 1)) by lia.
        rewrite skipn_add, Ew, skipn_add, skipn_app_len by auto. reflexivity. }
      rewrite Ew2 in Eu. subst w. exists (label_item n v ++ [comma] ++ u), ((n, v) :: ls).
      split; [exact Ew|]. constructor; auto.
  - destruct X as (n & v & w & Ew & Hn & Hv).
    destruct (skipn_split s i _ Ew) as (p & Es & Lp).
    { intros Z. apply f_equal with (f := @length ascii) in Z. rewrite app_length, label_item_len in Z. simpl in Z. lia. }
    rewrite (labels_step f s base i out n v w p Es Lp Hn Hv) in E. cbv zeta in E.
    destruct w as [|c w]; [discriminate|].
    destruct (Ascii.eqb c rbrace) eqn:Eb.
    + apply Ascii.eqb_eq in Eb. subst c. exists (label_item n v), [(n, v)], w. split; [exact Ew|]. constructor; auto.
    + destruct (Ascii.eqb c comma) eqn:Ec; [|discriminate].
      apply Ascii.eqb_eq in Ec. subst c.
      assert (Hle : i + length (label_item n v) + 1 <= length s).
      { rewrite Es, !app_length. simpl. lia. }
      specialize (IH s base (i + length (label_item n v) + 1)
        (out ++ [((base + i, length n), (base + (i + length n + 2), length v))]) Hle). rewrite E in IH.
      destruct IH as (u & ls & w' & Eu & Hu).
      assert (Ew2 : skipn (i + length (label_item n v) + 1) s = w).
      { replace (i + length (label_item n v) + 1) with (i + (length (label_item n v) + 1)) by lia.
        rewrite skipn_add, Ew, skipn_add, skipn_app_len by auto. reflexivity. }
      rewrite Ew2 in Eu. subst w. exists (label_item n v ++ [comma] ++ u), ((n, v) :: ls), w'.
      split; [rewrite Ew, <- !app_assoc; reflexivity|]. constructor; auto.
Qed.

Lemma split_sep (c : ascii) (a a' b b' : bytes) : a ++ c :: b = a' ++ c :: b' -> ~ In c a -> ~ In c a' -> a = a' /\ b = b'.
Proof.
  revert a'. induction a as [|x a IH]; intros a' E N N'; destruct a' as [|y a']; cbn [app] in E; inversion E; subst.
  - auto.
  - exfalso. apply N'. left; auto.
  - exfalso. apply N. left; auto.
  - destruct (IH a' H1 (fun h => N (or_intror h)) (fun h => N' (or_intror h))) as [-> ->]. auto.
Qed.

(** ** The numbers *)

Lemma numbers_spec s nm ls i :
  match parse_numbers s nm ls i with
  | MPanic => length s < i
  | MErr => i <= length s /\ forall v ms, ~ numbers (skipn i s) v ms
  | MOk m => i <= length s /\ numbers (skipn i s) (m_value m) (m_ms m) /\
      m = Metric s nm ls (m_value m) (m_ms m)
  end.
Proof.
  unfold parse_numbers. destruct (Nat.ltb_spec (length s) i) as [H|H]; [exact H|].
  set (t := skipn i s). assert (Lt : length t = length s - i) by (unfold t; apply skipn_length).
  destruct (index_of (Ascii.eqb sp) t) as [j|] eqn:E.
  - apply index_of_Some in E. destruct E as (a & c & b & Et & <- & Fa & Ec). apply Ascii.eqb_eq in Ec. subst c.
    assert (E1 : firstn (length a) t = a) by (rewrite Et; apply firstn_app_len; auto). rewrite E1.
    assert (Nsp : ~ In sp a) by (apply not_in_forall; auto).
    assert (E2 : skipn (i + length a + 1) s = b).
    { replace (i + length a + 1) with (i + (length a + 1)) by lia. rewrite skipn_add. fold t.
      rewrite Et, skipn_add, skipn_app_len by auto. reflexivity. }
    assert (Inv : forall v ms, numbers t v ms -> ToInt a = Some v /\ ToInt b = Some ms).
    { intros v ms Hn. inversion Hn as [t0 v0 N0 T0 X1 X2|t0 v0 t1 ms0 N0 T0 T1 X1 X2].
      - exfalso. subst t0. apply N0. rewrite Et. apply in_app_iff. right. left; auto.
      - subst v0 ms0.
        assert (t0 = a /\ t1 = b).
        { rewrite Et in X1. cbn [app] in X1. apply split_sep in X1; auto. }
        destruct H0 as [-> ->]. auto. }
    destruct (ToInt a) as [v|] eqn:Tv.
    2:{ split; auto. intros v ms Hn. apply Inv in Hn. destruct Hn. discriminate. }
    destruct (Nat.ltb_spec (i + length a) (length s)) as [H2|H2].
    2:{ exfalso. rewrite Et, app_length in Lt. simpl in Lt. lia. }
    rewrite E2. destruct (ToInt b) as [ms|] eqn:Tm.
    + simpl. split; auto. split; auto. rewrite Et. apply (num_both a v b ms); auto.
    + split; auto. intros v' ms Hn. apply Inv in Hn. destruct Hn. discriminate.
  - apply index_of_None in E. apply not_in_forall in E. rewrite firstn_all.
    destruct (ToInt t) as [v|] eqn:Tv.
    + destruct (Nat.ltb_spec (i + length t) (length s)) as [H2|H2]; [lia|]. simpl. split; auto. split; auto.
      apply num_value; auto.
    + split; auto. intros v ms Hn. inversion Hn; subst; [congruence|]. apply E. rewrite <- H0.
      apply in_app_iff. right. left; auto.
Qed.

Lemma app_inj_len {A} (a a' b b' : list A) : a ++ b = a' ++ b' -> length a' = length a -> a' = a /\ b' = b.
Proof.
  revert a'. induction a as [|x a IH]; intros [|y a'] E L; simpl in *; try discriminate; auto.
  inversion E; subst. destruct (IH a' H1) as [-> ->]; auto.
Qed.

(** ** A whole line *)

Lemma memb_sep c : memb [sp; lbrace] c = false <-> c <> sp /\ c <> lbrace.
Proof.
  rewrite memb_false. split.
  - intros H. split; intros ->; apply H; simpl; auto.
  - intros [H1 H2] [E|[E|[]]]; congruence.
Qed.

Lemma sep_forall (s : bytes) : Forall (fun c => memb [sp; lbrace] c = false) s <-> ~ In sp s /\ ~ In lbrace s.
Proof.
  rewrite Forall_forall. split.
  - intros H. split; intros Hi; apply H in Hi; apply memb_sep in Hi; tauto.
  - intros [H1 H2] x Hx. apply memb_sep. split; intros ->; auto.
Qed.

(** The position and length of everything in a parsed metric. *)
Definition views_in (m : metric) (bound : nat) : Prop :=
  m_name m <= bound /\ Forall (fun l => vend (fst l) <= bound /\ vend (snd l) <= bound) (m_labels m).

Lemma hd_error_app {A} (u w : list A) : u <> [] -> hd_error (u ++ w) = hd_error u.
Proof. destruct u; [congruence|reflexivity]. Qed.

(** What parsing a well-formed line gives. *)
Lemma ParseMetric_complete line e : reads line e ->
  exists m, ParseMetric line = MOk m /\ m_line m = line /\ Name m = e_name e /\ m_name m = length (e_name e) /\
    Labels m = e_labels e /\ m_value m = e_value e /\ m_ms m = e_ms e /\
    views_in m (length (e_name e) + match e_labels e with [] => 0 | _ => length (labels_text (e_labels e)) end) /\
    (e_labels e <> [] -> exists w, line = e_name e ++ labels_text (e_labels e) ++ w).
Proof.
  destruct e as [name ls v ms]. cbn [e_name e_labels e_value e_ms].
  intros (L3 & Nsp & Nlb & lp & num & El & Hlp & Hnum). cbn [e_name e_labels e_value e_ms] in *.
  assert (Fn : Forall (fun c => memb [sp; lbrace] c = false) name) by (apply sep_forall; auto).
  assert (Items : forall u ls0, label_items u ls0 -> labels_text ls0 = [lbrace] ++ u ++ [rbrace]).
  { clear. intros u ls0 H. unfold labels_text. f_equal. f_equal.
    induction H as [n v Hn Hv|n v u ls Hn Hv Hu IH]; [reflexivity|].
    destruct ls as [|l r]; [inversion Hu|]. cbn [labels_loop]. cbn [labels_loop] in IH. rewrite IH. unfold label_item.
    rewrite <- !app_assoc. reflexivity. }
  unfold ParseMetric. destruct (Nat.ltb_spec (length line) 3) as [H|_]; [lia|].
  assert (Fin : forall vs i, skipn i line = num -> i <= length line -> exists m,
     parse_numbers line (length name) vs i = MOk m /\ m_line m = line /\ Name m = name /\ m_name m = length name /\
     m_labels m = vs /\ m_value m = v /\ m_ms m = ms).
  { intros vs i Hs Hi. pose proof (numbers_spec line (length name) vs i) as X.
    destruct (parse_numbers line (length name) vs i) as [| |m] eqn:E.
    - exfalso. destruct X as [_ X]. eapply X. rewrite Hs. exact Hnum.
    - lia.
    - destruct X as (_ & X & Em). rewrite Hs in X. exists m. split; auto.
      assert (m_value m = v /\ m_ms m = ms).
      { clear - X Hnum. inversion Hnum as [t0 v0 N0 T0 X1 X2|t0 v0 t1 ms0 N0 T0 T1 X1 X2];
          inversion X as [t2 v2 N2 T2 Y1 Y2|t2 v2 t3 ms2 N2 T2 T3 Y1 Y2]; subst.
        - split; congruence.
        - exfalso. apply N0. apply in_app_iff. right. left; auto.
        - exfalso. apply N2. apply in_app_iff. right. left; auto.
        - assert (t0 = t2 /\ t1 = t3).
          { cbn [app] in Y1. apply split_sep in Y1; auto. destruct Y1; auto. }
          destruct H as [-> ->]. split; congruence. }
      destruct H as [Hv Hms]. rewrite Em. cbn. repeat split; auto.
      unfold Name. cbn. rewrite El. apply firstn_app_len. auto. }
  inversion Hlp as [x X1 X2|u ls0 x Hu Hh X1 X2|X1 X2]; subst lp.
  - (* empty braces *)
    subst ls. assert (El' : line = name ++ lbrace :: rbrace :: x :: num) by (rewrite El; reflexivity).
    assert (Ei : index_of (memb [sp; lbrace]) line = Some (length name)) by (rewrite El'; apply index_of_app; auto).
    assert (En : nth (length name) line sp = lbrace) by (rewrite El', app_nth2, Nat.sub_diag by lia; reflexivity).
    rewrite Ei, En, Ascii.eqb_refl.
    assert (Es : skipn (length name + 1) line = rbrace :: x :: num).
    { rewrite El', skipn_add, skipn_app_len by auto. reflexivity. }
    rewrite Es. cbn [parseLabels]. rewrite Ascii.eqb_refl.
    destruct (Fin [] (length name + 1 + 1 + 1)) as (m & E & A1 & A2 & A3 & A4 & A5 & A6).
    { replace (length name + 1 + 1 + 1) with (length name + 3) by lia. rewrite El', skipn_add, skipn_app_len by auto. reflexivity. }
    { rewrite El', app_length. simpl. lia. }
    exists m. split; auto. split; auto. split; auto. split; auto. split; [unfold Labels; rewrite A4; reflexivity|].
    split; auto. split; auto. split.
    + split; [lia|]. rewrite A4. constructor.
    + congruence.
  - (* labels *)
    subst ls0. set (it := u ++ [rbrace; x]) in *.
    assert (El' : line = name ++ lbrace :: it ++ num) by (rewrite El; reflexivity).
    assert (Ei : index_of (memb [sp; lbrace]) line = Some (length name)) by (rewrite El'; apply index_of_app; auto).
    assert (En : nth (length name) line sp = lbrace) by (rewrite El', app_nth2, Nat.sub_diag by lia; reflexivity).
    rewrite Ei, En, Ascii.eqb_refl.
    assert (Es : skipn (length name + 1) line = u ++ rbrace :: x :: num).
    { rewrite El', skipn_add, skipn_app_len by auto. cbn [skipn]. unfold it. rewrite <- app_assoc. reflexivity. }
    rewrite Es. pose proof (label_items_nonempty _ _ Hu) as Nu.
    unfold parseLabels.
    destruct (u ++ rbrace :: x :: num) as [|c r] eqn:Eu; [destruct u; discriminate|].
    assert (Hc : Ascii.eqb c rbrace = false).
    { apply Ascii.eqb_neq. intros ->. apply Hh. rewrite <- (hd_error_app u (rbrace :: x :: num) Nu), Eu. reflexivity. }
    rewrite Hc, <- Eu.
    pose proof (labels_complete u ls Hu (S (length (u ++ rbrace :: x :: num))) (name ++ [lbrace]) [] (rbrace :: x :: num)
      (length name + 1) 0 []) as Cm. cbv zeta in Cm. cbn [app] in Cm.
    destruct Cm as (vs & E & Em & Ev & Ev2); auto.
    { rewrite app_length. reflexivity. }
    { rewrite app_length. lia. }
    cbn [length] in E. rewrite E.
    assert (Eline : (name ++ [lbrace]) ++ u ++ rbrace :: x :: num = line).
    { rewrite El'. unfold it. rewrite <- !app_assoc. reflexivity. }
    rewrite Eline in Em.
    destruct (Fin vs (length name + 1 + (0 + length u + 1) + 1)) as (m & E2 & A1 & A2 & A3 & A4 & A5 & A6).
    { replace (length name + 1 + (0 + length u + 1) + 1) with (length name + 1 + (length u + 2)) by lia.
      rewrite skipn_add, Es. rewrite <- Eu, skipn_add, skipn_app_len by auto. reflexivity. }
    { rewrite <- Eline, !app_length. simpl. lia. }
    exists m. rewrite E2. split; auto. split; auto. split; auto. split; auto.
    split; [unfold Labels; rewrite A4, A1; exact Em|]. split; auto. split; auto. split.
    + pose proof (Items _ _ Hu) as It. destruct ls as [|l0 r0]; [inversion Hu|]. rewrite It. split; [lia|].
      rewrite A4. eapply Forall_impl; [|exact Ev2]. cbn beta. intros a Ha. rewrite !app_length. simpl length. lia.
    + intros _. exists (x :: num). rewrite (Items _ _ Hu). rewrite <- Eline, <- !app_assoc. reflexivity.
  - (* no braces *)
    subst ls. assert (El' : line = name ++ sp :: num) by (rewrite El; reflexivity).
    assert (Ei : index_of (memb [sp; lbrace]) line = Some (length name)) by (rewrite El'; apply index_of_app; auto).
    assert (En : nth (length name) line sp = sp) by (rewrite El', app_nth2, Nat.sub_diag by lia; reflexivity).
    rewrite Ei, En.
    replace (Ascii.eqb sp lbrace) with false by reflexivity.
    destruct (Fin [] (length name + 1)) as (m & E & A1 & A2 & A3 & A4 & A5 & A6).
    { rewrite El', skipn_add, skipn_app_len by auto. reflexivity. }
    { rewrite El', app_length. simpl. lia. }
    exists m. split; auto. split; auto. split; auto. split; auto. split; [unfold Labels; rewrite A4; reflexivity|].
    split; auto. split; auto. split.
    + split; [lia|]. rewrite A4. constructor.
    + congruence.
Qed.

Lemma ParseMetric_sound line m : ParseMetric line = MOk m -> exists e, reads line e.
Proof.
  unfold ParseMetric. destruct (Nat.ltb_spec (length line) 3) as [H|L3]; [discriminate|].
  destruct (index_of (memb [sp; lbrace]) line) as [i|] eqn:E; [|discriminate].
  apply index_of_Some in E. destruct E as (name & c & t & El & <- & Fn & Hc). apply sep_forall in Fn. destruct Fn as [Nsp Nlb].
  assert (En : nth (length name) line sp = c) by (rewrite El, app_nth2, Nat.sub_diag by lia; reflexivity).
  rewrite En; clear En.
  assert (Es : skipn (length name + 1) line = t).
  { rewrite El, skipn_add, skipn_app_len by auto. reflexivity. }
  destruct (Ascii.eqb c lbrace) eqn:Ec.
  - apply Ascii.eqb_eq in Ec. subst c. rewrite Es. unfold parseLabels. destruct t as [|d r] eqn:Et; [discriminate|].
    destruct (Ascii.eqb d rbrace) eqn:Ed.
    + apply Ascii.eqb_eq in Ed. subst d. intros P. pose proof (numbers_spec line (length name) [] (length name + 1 + 1 + 1)) as X.
      rewrite P in X. destruct X as (Hle & Hn & _).
      destruct r as [|x num]; [rewrite El, app_length in Hle; simpl in Hle; lia|].
      exists (Entry name [] (m_value m) (m_ms m)). split; auto. split; auto. split; auto. cbn.
      exists [lbrace; rbrace; x], num. split; [rewrite El; reflexivity|]. split; [constructor|].
      replace (length name + 1 + 1 + 1) with (length name + 1 + 2) in Hn by lia.
      rewrite skipn_add, Es in Hn. exact Hn.
    + pose proof (labels_sound (S (length (d :: r))) (d :: r) (length name + 1) 0 [] (Nat.le_0_l _)) as S0.
      destruct (labels_parse (S (length (d :: r))) (d :: r) (length name + 1) 0 []) as [| |vs n] eqn:Ep; try discriminate.
      destruct S0 as (u & ls & w & Eu & Hu). cbn [skipn] in Eu.
      assert (Enn : n = length u + 1).
      { pose proof (labels_complete u ls Hu (S (length (d :: r))) (name ++ [lbrace]) [] (rbrace :: w) (length name + 1) 0 []) as Cm.
        cbv zeta in Cm. cbn [app] in Cm. rewrite <- Eu, Ep in Cm. destruct Cm as (vs' & E' & _); auto.
        { rewrite app_length; reflexivity. } { rewrite Eu, app_length. simpl. lia. }
        inversion E'. lia. }
      subst n. intros P. pose proof (numbers_spec line (length name) vs (length name + 1 + (length u + 1) + 1)) as X.
      rewrite P in X. destruct X as (Hle & Hn & _).
      destruct w as [|x num].
      { rewrite El, Eu, !app_length in Hle. simpl in Hle. rewrite app_length in Hle. simpl in Hle. lia. }
      exists (Entry name ls (m_value m) (m_ms m)). split; auto. split; auto. split; auto. cbn.
      exists ([lbrace] ++ u ++ [rbrace; x]), num. split; [rewrite El, Eu; rewrite <- !app_assoc; reflexivity|]. split.
      * constructor; auto. intros Hh. apply Ascii.eqb_neq in Ed. apply Ed.
        rewrite <- (hd_error_app u (rbrace :: x :: num)) in Hh by (eapply label_items_nonempty; eauto).
        rewrite <- Eu in Hh. inversion Hh. auto.
      * replace (length name + 1 + (length u + 1) + 1) with (length name + 1 + (length u + 2)) in Hn by lia.
        rewrite skipn_add, Es, Eu, skipn_add, skipn_app_len in Hn by auto. exact Hn.
  - assert (c = sp).
    { apply memb_In in Hc. destruct Hc as [<-|[<-|[]]]; auto. rewrite Ascii.eqb_refl in Ec. discriminate. }
    subst c. intros P. pose proof (numbers_spec line (length name) [] (length name + 1)) as X. rewrite P in X.
    destruct X as (Hle & Hn & _). exists (Entry name [] (m_value m) (m_ms m)). split; auto. split; auto. split; auto. cbn.
    exists [sp], t. split; [rewrite El; reflexivity|]. split; [constructor|]. rewrite Es in Hn. exact Hn.
Qed.

Lemma reads_unique line e e' : reads line e -> reads line e' -> e = e'.
Proof.
  intros H H'. apply ParseMetric_complete in H, H'.
  destruct H as (m & E & _ & A1 & _ & A2 & A3 & A4 & _), H' as (m' & E' & _ & B1 & _ & B2 & B3 & B4 & _).
  assert (m = m') by congruence. subst m'. destruct e, e'; simpl in *; subst; auto.
Qed.

(** When the parser panics. *)
Lemma ParseMetric_panic line : ParseMetric line = MPanic <->
  3 <= length line /\ exists name t, line = name ++ lbrace :: t /\ ~ In sp name /\ ~ In lbrace name /\ breaks_off t.
Proof.
  unfold ParseMetric. destruct (Nat.ltb_spec (length line) 3) as [H|L3].
  { split; [discriminate|]. intros [H' _]. lia. }
  destruct (index_of (memb [sp; lbrace]) line) as [i|] eqn:E.
  2:{ split; [discriminate|]. intros (_ & name & t & El & _). apply index_of_None in E. apply sep_forall in E.
      destruct E as [_ E]. exfalso. apply E. rewrite El. apply in_app_iff. right. left; auto. }
  apply index_of_Some in E. destruct E as (name & c & t & El & <- & Fn & Hc).
  pose proof Fn as Fn'. apply sep_forall in Fn'. destruct Fn' as [Nsp Nlb].
  assert (En : nth (length name) line sp = c) by (rewrite El, app_nth2, Nat.sub_diag by lia; reflexivity).
  rewrite En; clear En.
  assert (Es : skipn (length name + 1) line = t).
  { rewrite El, skipn_add, skipn_app_len by auto. reflexivity. }
  assert (Uniq : forall name' t', line = name' ++ lbrace :: t' -> ~ In sp name' -> ~ In lbrace name' ->
     name' = name /\ t' = t /\ c = lbrace).
  { intros name' t' El' N1 N2. assert (F' : Forall (fun c => memb [sp; lbrace] c = false) name') by (apply sep_forall; auto).
    assert (L : length name' = length name).
    { assert (Some (length name') = Some (length name)); [|congruence].
      rewrite <- (index_of_app (memb [sp; lbrace]) name' lbrace t' F' eq_refl), <- El'.
      rewrite El. apply index_of_app; auto. }
    rewrite El in El'. apply app_inj_len in El'; auto. destruct El' as [-> X]. inversion X; auto. }
  destruct (Ascii.eqb c lbrace) eqn:Ec.
  2:{ assert (Hnp : parse_numbers line (length name) [] (length name + 1) <> MPanic).
      { intros P. pose proof (numbers_spec line (length name) [] (length name + 1)) as X. rewrite P in X.
        rewrite El, app_length in X. simpl in X. lia. }
      split; [contradiction|]. intros (_ & name' & t' & El' & N1 & N2 & _).
      destruct (Uniq name' t' El' N1 N2) as (_ & _ & ->). rewrite Ascii.eqb_refl in Ec. discriminate. }
  apply Ascii.eqb_eq in Ec. subst c. rewrite Es.
  assert (Main : match parseLabels t (length name + 1) with
     | LErr => MErr | LPanic => MPanic
     | LOk ls n => parse_numbers line (length name) ls (length name + 1 + n + 1) end = MPanic <-> breaks_off t).
  2:{ rewrite Main. split.
      - intros B. split; auto. exists name, t. auto.
      - intros (_ & name' & t' & El' & N1 & N2 & B). destruct (Uniq name' t' El' N1 N2) as (_ & -> & _). exact B. }
  unfold parseLabels. destruct t as [|d r] eqn:Et.
  { split; auto. intros _. left; auto. }
  rewrite <- Et in *.
  destruct (Ascii.eqb d rbrace) eqn:Ed.
  - apply Ascii.eqb_eq in Ed. subst d. pose proof (numbers_spec line (length name) [] (length name + 1 + 1 + 1)) as X. split.
    + intros P. rewrite P in X. rewrite El, app_length, Et in X. simpl in X. destruct r; [|simpl in X; lia].
      right. left. exact Et.
    + intros B. destruct (parse_numbers line (length name) [] (length name + 1 + 1 + 1)) as [| |m]; auto; exfalso.
      * destruct X as [X _]. rewrite El, app_length, Et in X. simpl in X.
        destruct B as [B|[B|(u & ls & Hu & Hh & B)]]; [congruence|rewrite Et in B; inversion B; subst r; simpl in X; lia|].
        apply Hh. destruct B as [B|B]; rewrite Et in B.
        -- rewrite <- B. reflexivity.
        -- rewrite <- (hd_error_app u [rbrace]), <- B by (eapply label_items_nonempty; eauto). reflexivity.
      * destruct X as [X _]. rewrite El, app_length, Et in X. simpl in X.
        destruct B as [B|[B|(u & ls & Hu & Hh & B)]]; [congruence|rewrite Et in B; inversion B; subst r; simpl in X; lia|].
        apply Hh. destruct B as [B|B]; rewrite Et in B.
        -- rewrite <- B. reflexivity.
        -- rewrite <- (hd_error_app u [rbrace]), <- B by (eapply label_items_nonempty; eauto). reflexivity.
  - pose proof (labels_sound (S (length t)) t (length name + 1) 0 [] (Nat.le_0_l _)) as S0. cbn [skipn] in S0.
    assert (Hd : forall u ls w, t = u ++ w -> label_items u ls -> hd_error u <> Some rbrace).
    { intros u ls w Eu Hu Hh. apply Ascii.eqb_neq in Ed. apply Ed.
      rewrite <- (hd_error_app u w) in Hh by (eapply label_items_nonempty; eauto).
      rewrite <- Eu, Et in Hh. inversion Hh. auto. }
    assert (Comp : forall u ls w, t = u ++ w -> label_items u ls ->
       match w with [] => labels_parse (S (length t)) t (length name + 1) 0 [] = LPanic
       | c :: _ => c = rbrace -> exists vs, labels_parse (S (length t)) t (length name + 1) 0 [] = LOk vs (length u + 1) end).
    { intros u ls w Eu Hu.
      pose proof (labels_complete u ls Hu (S (length t)) (name ++ [lbrace]) [] w (length name + 1) 0 []) as Cm.
      cbv zeta in Cm. cbn [app] in Cm. rewrite <- Eu in Cm.
      assert (H1 : length name + 1 = length (name ++ [lbrace])) by (rewrite app_length; reflexivity).
      assert (H2 : length u < S (length t)) by (rewrite Eu, app_length; lia).
      specialize (Cm H1 eq_refl H2). destruct w as [|c w]; auto. intros Hcc. destruct (Cm Hcc) as (vs & Ev & _). exists vs. exact Ev. }
    split.
    + destruct (labels_parse (S (length t)) t (length name + 1) 0 []) as [| |vs n] eqn:Ep; try discriminate.
      * intros _. destruct S0 as (u & ls & Eu & Hu). right. right. exists u, ls. split; auto.
        split; [apply (Hd u ls []); auto; rewrite app_nil_r; auto|]. left; auto.
      * intros P. destruct S0 as (u & ls & w & Eu & Hu).
        destruct (Comp u ls (rbrace :: w) Eu Hu eq_refl) as (vs' & Ev). inversion Ev; subst vs' n.
        pose proof (numbers_spec line (length name) vs (length name + 1 + (length u + 1) + 1)) as X. rewrite P in X.
        right. right. exists u, ls. split; auto. split; [apply (Hd u ls (rbrace :: w)); auto|]. right.
        destruct w as [|x w]; auto. rewrite El, Eu, !app_length in X. simpl in X. rewrite app_length in X. simpl in X. lia.
    + intros [B|[B|(u & ls & Hu & Hh & B)]].
      * congruence.
      * rewrite Et in B. inversion B; subst. rewrite Ascii.eqb_refl in Ed. discriminate.
      * destruct B as [B|B].
        -- pose proof (Comp u ls [] ltac:(rewrite app_nil_r; auto) Hu) as X. cbn iota in X. rewrite X. reflexivity.
        -- destruct (Comp u ls [rbrace] B Hu eq_refl) as (vs & Ev). rewrite Ev.
           pose proof (numbers_spec line (length name) vs (length name + 1 + (length u + 1) + 1)) as X.
           destruct (parse_numbers line (length name) vs (length name + 1 + (length u + 1) + 1)); auto; exfalso;
             destruct X as [X _]; rewrite El, B, !app_length in X; simpl in X; rewrite app_length in X; simpl in X; lia.
Qed.

Lemma ParseMetric_ok line : (exists m, ParseMetric line = MOk m) <-> exists e, reads line e.
Proof.
  split.
  - intros (m & H). eapply ParseMetric_sound; eauto.
  - intros (e & H). destruct (ParseMetric_complete _ _ H) as (m & E & _). eauto.
Qed.
