From Verif Require Import Base Convert Timestamps NumSpec.
Local Open Scope Z_scope.

Lemma digit_val_Some c d : digit_val c = Some d <-> is_digit c /\ d = Z.of_N (bval c) - 48.
Proof.
  unfold digit_val, is_digit.
  destruct ((48 <=? Z.of_N (bval c)) && (Z.of_N (bval c) <=? 57)) eqn:E.
  - split; [intros H; inversion H; subst; lia | intros [_ ->]; auto].
  - split; [discriminate | lia].
Qed.

Lemma digit_val_None c : digit_val c = None <-> ~ is_digit c.
Proof.
  unfold digit_val, is_digit.
  destruct ((48 <=? Z.of_N (bval c)) && (Z.of_N (bval c) <=? 57)) eqn:E; split; intros; try discriminate; auto; lia.
Qed.

Definition dec_fold (n : Z) (ds : bytes) : Z := fold_left (fun n c => n * 10 + (Z.of_N (bval c) - 48)) ds n.

Lemma dec_fold_bound ds : Forall is_digit ds -> forall n,
  0 <= n -> n * 10 ^ Z.of_nat (length ds) <= dec_fold n ds < (n + 1) * 10 ^ Z.of_nat (length ds).
Proof.
  induction 1 as [|c ds Hc Hd IH]; intros n Hn.
  - cbn. lia.
  - cbn [dec_fold fold_left]. change (fold_left _ ds ?x) with (dec_fold x ds).
    unfold is_digit in Hc.
    specialize (IH (n * 10 + (Z.of_N (bval c) - 48))).
    cbn [length]. rewrite Nat2Z.inj_succ, Z.pow_succ_r by lia.
    assert (0 < 10 ^ Z.of_nat (length ds)) by (apply Z.pow_pos_nonneg; lia). nia.
Qed.

Lemma dec_value_bound ds : Forall is_digit ds -> 0 <= dec_value ds < 10 ^ Z.of_nat (length ds).
Proof. intros H. pose proof (dec_fold_bound ds H 0). unfold dec_value. fold (dec_fold 0 ds). lia. Qed.

Lemma toint_loop_spec s : forall n, 0 <= n < two64 ->
  toint_loop s n = if forallb (fun c => match digit_val c with Some _ => true | None => false end) s
                   then Some (dec_fold n s mod two64) else None.
Proof.
  induction s as [|c s IH]; intros n Hn.
  - cbn. rewrite Z.mod_small; auto.
  - cbn [toint_loop forallb]. destruct (digit_val c) as [d|] eqn:E; auto. cbn [andb].
    apply digit_val_Some in E. destruct E as [Hc ->].
    assert (W : wrapu64 (wrapu64 (n * 10) + (Z.of_N (bval c) - 48)) = (n * 10 + (Z.of_N (bval c) - 48)) mod two64).
    { unfold wrapu64. rewrite Z.add_mod_idemp_l by (unfold two64; lia). auto. }
    rewrite W, IH by (apply Z.mod_pos_bound; unfold two64; lia).
    destruct (forallb _ s); auto. f_equal. cbn [dec_fold fold_left].
    change (fold_left _ s ?x) with (dec_fold x s).
    generalize (n * 10 + (Z.of_N (bval c) - 48)). clear.
    assert (G : forall s0 x y, x mod two64 = y mod two64 -> dec_fold x s0 mod two64 = dec_fold y s0 mod two64).
    { induction s0 as [|c0 s0 IH]; intros x y H; auto. cbn [dec_fold fold_left]. apply IH.
      rewrite Z.add_mod, Z.mul_mod, H, <- Z.mul_mod, <- Z.add_mod by (unfold two64; lia). auto. }
    intros z. apply G. rewrite Z.mod_mod by (unfold two64; lia). auto.
Qed.

Lemma forallb_digits s : forallb (fun c => match digit_val c with Some _ => true | None => false end) s = true
  <-> Forall is_digit s.
Proof.
  rewrite forallb_forall, Forall_forall. split; intros H c Hc; specialize (H c Hc).
  - destruct (digit_val c) eqn:E; [|discriminate]. apply digit_val_Some in E; tauto.
  - destruct (digit_val c) eqn:E; auto. apply digit_val_None in E; tauto.
Qed.

Lemma minus_not_digit : ~ is_digit "-"%char.
Proof. unfold is_digit; vm_compute. intros [H _]. apply H. reflexivity. Qed.

Lemma ToInt_pos ds : digits ds ->
  ToInt ds = if maxInt64 <? dec_value ds mod two64 then None else Some (dec_value ds mod two64).
Proof.
  intros [Hn Hd]. unfold ToInt. destruct ds as [|c r]; [congruence|].
  destruct (Ascii.eqb_spec c "-"%char) as [->|_].
  { inversion Hd; subst. exfalso. apply minus_not_digit; auto. }
  rewrite toint_loop_spec by (unfold two64; lia).
  rewrite (proj2 (forallb_digits _) Hd). change (dec_fold 0 (c :: r)) with (dec_value (c :: r)).
  destruct (Z.ltb_spec maxInt64 (dec_value (c :: r) mod two64)); auto.
  rewrite wrap64_id; auto. unfold int64.
  pose proof (Z.mod_pos_bound (dec_value (c :: r)) two64). unfold minInt64, two63, two64 in *. lia.
Qed.

Lemma ToInt_neg ds : digits ds ->
  ToInt ("-"%char :: ds) = if two63 <? dec_value ds mod two64 then None else Some (- (dec_value ds mod two64)).
Proof.
  intros [Hn Hd]. unfold ToInt. rewrite Ascii.eqb_refl. destruct ds as [|c r]; [congruence|].
  rewrite toint_loop_spec by (unfold two64; lia).
  rewrite (proj2 (forallb_digits _) Hd). change (dec_fold 0 (c :: r)) with (dec_value (c :: r)).
  pose proof (Z.mod_pos_bound (dec_value (c :: r)) two64) as B.
  set (n := dec_value (c :: r) mod two64) in *.
  destruct (Z.ltb_spec two63 n); auto.
  f_equal. destruct (Z.eq_dec n two63) as [->|N]; [vm_compute; auto|].
  rewrite (wrap64_id n); [rewrite wrap64_id; auto|]; unfold int64, minInt64, maxInt64, two63, two64 in *; lia.
Qed.

Lemma ToInt_bad s : (forall z, ~ int_text s z) -> ToInt s = None.
Proof.
  intros H. unfold ToInt. destruct s as [|c r]; auto.
  destruct (Ascii.eqb_spec c "-"%char) as [->|N].
  - destruct r as [|c' r']; auto. rewrite toint_loop_spec by (unfold two64; lia).
    destruct (forallb _ (c' :: r')) eqn:E; auto. apply forallb_digits in E.
    exfalso. eapply H. apply it_neg. split; [discriminate|]; auto.
  - rewrite toint_loop_spec by (unfold two64; lia).
    destruct (forallb _ (c :: r)) eqn:E; auto. apply forallb_digits in E.
    exfalso. eapply H. apply it_pos. split; [discriminate|]; auto.
Qed.

Lemma int64_dec z : {int64 z} + {~ int64 z}.
Proof.
  unfold int64. destruct (Z_le_dec minInt64 z), (Z_le_dec z maxInt64); [left|right|right|right]; lia.
Defined.

Lemma int_text_dec s : {z | int_text s z} + {forall z, ~ int_text s z}.
Proof.
  destruct s as [|c r].
  { right. intros z H. inversion H as [? H0|? H0]; subst. destruct H0; congruence. }
  destruct (forallb (fun c => match digit_val c with Some _ => true | None => false end) (c :: r)) eqn:E.
  - left. exists (dec_value (c :: r)). apply it_pos. split; [discriminate|]. apply forallb_digits; auto.
  - destruct (Ascii.eqb_spec c "-"%char) as [->|N].
    + destruct r as [|c' r'].
      * right. intros z H. inversion H as [? H0|? H0]; subst; destruct H0 as [? D]; try congruence.
        inversion D; subst. apply minus_not_digit; auto.
      * destruct (forallb (fun c => match digit_val c with Some _ => true | None => false end) (c' :: r')) eqn:E'.
        -- left. exists (- dec_value (c' :: r')). apply it_neg. split; [discriminate|]. apply forallb_digits; auto.
        -- right. intros z H. inversion H as [? H0|? H0]; subst; destruct H0 as [? D]; apply forallb_digits in D; congruence.
    + right. intros z H. inversion H as [? H0|? H0]; subst; destruct H0 as [? D]; apply forallb_digits in D; congruence.
Qed.

(** Exactness as long as the magnitude fits the 64 bit accumulator. *)
Lemma ToInt_exact s z : int_text s z -> Z.abs z < two64 ->
  ToInt s = if int64_dec z then Some z else None.
Proof.
  intros H A. inversion H; subst.
  - rewrite ToInt_pos by auto. pose proof (dec_value_bound _ (proj2 H0)).
    rewrite Z.mod_small by lia.
    destruct (Z.ltb_spec maxInt64 (dec_value s)); destruct (int64_dec (dec_value s)); auto;
      unfold int64, minInt64, maxInt64, two63 in *; lia.
  - rewrite ToInt_neg by auto. pose proof (dec_value_bound _ (proj2 H0)).
    rewrite Z.mod_small by lia.
    destruct (Z.ltb_spec two63 (dec_value ds)); destruct (int64_dec (- dec_value ds)); auto;
      unfold int64, minInt64, maxInt64, two63 in *; lia.
Qed.

Lemma int_text_small s z : int_text s z -> (length s <= 19)%nat -> Z.abs z < two64.
Proof.
  intros H L. assert (E : 10 ^ 19 < two64) by (unfold two64; lia).
  inversion H; subst; pose proof (dec_value_bound _ (proj2 H0)).
  - assert (10 ^ Z.of_nat (length s) <= 10 ^ 19) by (apply Z.pow_le_mono_r; lia). lia.
  - simpl in L. assert (10 ^ Z.of_nat (length ds) <= 10 ^ 19) by (apply Z.pow_le_mono_r; lia). lia.
Qed.

Lemma ToInt_short s v : (length s <= 19)%nat -> (ToInt s = Some v <-> int_text s v /\ int64 v).
Proof.
  intros L. destruct (int_text_dec s) as [[z Hz]|N].
  - rewrite (ToInt_exact _ z) by eauto using int_text_small.
    assert (U : forall z', int_text s z' -> z' = z).
    { intros z' H'. inversion H'; inversion Hz; subst; auto; try congruence.
      - destruct H as [_ D]. inversion D; subst. exfalso; apply minus_not_digit; auto.
      - destruct H2 as [_ D]. inversion D; subst. exfalso; apply minus_not_digit; auto. }
    destruct (int64_dec z) as [I|I].
    + split; [intros H; inversion H; subst; auto | intros [H _]; apply U in H; congruence].
    + split; [discriminate|]. intros [H I']. apply U in H. congruence.
  - rewrite ToInt_bad by auto. split; [discriminate|]. intros [H _]. exfalso; eapply N; eauto.
Qed.

Lemma int_text_unique s z z' : int_text s z -> int_text s z' -> z = z'.
Proof.
  intros Hz H'. inversion H'; inversion Hz; subst; auto; try congruence.
  - destruct H as [_ D]. inversion D; subst. exfalso; apply minus_not_digit; auto.
  - destruct H2 as [_ D]. inversion D; subst. exfalso; apply minus_not_digit; auto.
Qed.

(* ------------------------------------------------------------------ *)
(** * Decimal formatting *)

Lemma digit_chr_spec d : 0 <= d <= 9 -> is_digit (digit_chr d) /\ Z.of_N (bval (digit_chr d)) - 48 = d.
Proof.
  intros H. unfold is_digit, digit_chr, bval. rewrite N_ascii_embedding by lia. lia.
Qed.

Lemma dec_fold_app n a b : dec_fold n (a ++ b) = dec_fold (dec_fold n a) b.
Proof. unfold dec_fold. apply fold_left_app. Qed.

Lemma dec_digits_spec : forall fuel n acc, 0 <= n < 10 ^ Z.of_nat fuel -> (0 < fuel)%nat ->
  exists ds, dec_digits fuel n acc = ds ++ acc /\ digits ds /\ dec_value ds = n /\
    (n = 0 -> ds = ["0"%char]) /\ (n <> 0 -> exists c r, ds = c :: r /\ c <> "0"%char) /\
    (length ds <= fuel)%nat.
Proof.
  induction fuel as [|f IH]; intros n acc H L; [lia|].
  cbn [dec_digits].
  pose proof (Z.mod_pos_bound n 10) as B. pose proof (Z.div_mod n 10) as D.
  destruct (digit_chr_spec (n mod 10)) as [Dg Dv]; [lia|].
  destruct (Z.eqb_spec (n / 10) 0) as [E|E].
  - exists [digit_chr (n mod 10)]. split; auto. split; [split; [discriminate|auto]|].
    split; [unfold dec_value; cbn [fold_left]; lia|]. split; [|split].
    + intros ->. reflexivity.
    + intros N. exists (digit_chr (n mod 10)), []. split; auto. intros X. rewrite X in Dv.
      change (Z.of_N (bval "0"%char) - 48) with 0 in Dv. lia.
    + simpl. lia.
  - assert (Hf : (0 < f)%nat).
    { destruct f; [|lia]. exfalso. simpl in H. apply E. apply Z.div_small. lia. }
    assert (Hn : 0 <= n / 10 < 10 ^ Z.of_nat f).
    { rewrite Nat2Z.inj_succ, Z.pow_succ_r in H by lia. split; [apply Z.div_pos; lia|].
      apply Z.div_lt_upper_bound; lia. }
    destruct (IH (n / 10) (digit_chr (n mod 10) :: acc) Hn Hf) as (ds & E1 & [N1 N2] & V & Z0 & Z1 & Ln).
    exists (ds ++ [digit_chr (n mod 10)]). rewrite E1, <- app_assoc. split; auto.
    split; [split|].
    + destruct ds; discriminate.
    + apply Forall_app. auto.
    + split; [|split; [|split]].
      * unfold dec_value in *. fold (dec_fold 0 ds) in V. fold (dec_fold 0 (ds ++ [digit_chr (n mod 10)])).
        rewrite dec_fold_app, V. unfold dec_fold; cbn [fold_left]. lia.
      * intros ->. exfalso. apply E. reflexivity.
      * intros _. destruct (Z1 E) as (c & r & -> & Hc). exists c, (r ++ [digit_chr (n mod 10)]). auto.
      * rewrite app_length; simpl; lia.
Qed.

Lemma FormatInt_spec z : int64 z -> dec_text z (FormatInt z) /\ (length (FormatInt z) <= 20)%nat.
Proof.
  intros H. unfold FormatInt, int64, minInt64, maxInt64, two63 in *.
  assert (P : 10 ^ Z.of_nat 19 = 10000000000000000000) by reflexivity.
  assert (P20 : 10 ^ Z.of_nat 20 = 100000000000000000000) by reflexivity.
  assert (Len : forall n ds, digits ds -> dec_value ds = n -> n < 10 ^ 19 ->
     (exists c r, ds = c :: r /\ c <> "0"%char) -> (length ds <= 19)%nat).
  { intros n ds [Dn Dd] V Hn (c & r & -> & Hc). inversion Dd; subst.
    pose proof (dec_fold_bound r H3 (Z.of_N (bval c) - 48)) as B.
    assert (V : dec_value (c :: r) = dec_fold (Z.of_N (bval c) - 48) r) by reflexivity.
    assert (1 <= Z.of_N (bval c) - 48).
    { unfold is_digit in H2. assert (bval c <> 48%N); [|lia].
      intros X. apply Hc. apply bval_inj. rewrite X. reflexivity. }
    destruct (le_lt_dec (length (c :: r)) 19); auto. exfalso. simpl in l.
    assert (10 ^ 19 <= 10 ^ Z.of_nat (length r)) by (apply Z.pow_le_mono_r; lia). nia. }
  destruct (Z.ltb_spec z 0).
  - destruct (dec_digits_spec 20 (- z) []) as (ds & E & D & V & Z0 & Z1 & L); [lia|lia|].
    rewrite E, app_nil_r. split.
    + split; [|split; [|split]].
      * replace z with (- dec_value ds) by lia. apply it_neg; auto.
      * lia.
      * intros r. left. discriminate.
      * intros r X. inversion X; subst. destruct Z1 as (c & r' & X1 & X2); [lia|]. congruence.
    + simpl. apply le_n_S. apply (Len (- z)); auto; try lia. apply Z1. lia.
  - destruct (dec_digits_spec 20 z []) as (ds & E & D & V & Z0 & Z1 & L); [lia|lia|].
    rewrite E, app_nil_r. split; [|lia].
    split; [|split; [|split]].
    + subst z. apply it_pos; auto.
    + auto.
    + intros r. destruct (Z.eq_dec z 0); auto. left. intros ->. destruct (Z1 n) as (c & r' & X1 & X2). congruence.
    + intros r ->. destruct D as [_ D]. inversion D; subst. apply minus_not_digit; auto.
Qed.

Lemma FormatInt_length19 z : 0 <= z <= maxInt64 -> (length (FormatInt z) <= 19)%nat.
Proof.
  intros H. assert (I : int64 z) by (unfold int64, minInt64, maxInt64, two63 in *; lia).
  destruct (FormatInt_spec z I) as [(T & Z0 & Z1 & _) L].
  destruct (Z.eq_dec z 0) as [->|N]; [vm_compute; lia|].
  remember (FormatInt z) as s eqn:Es. clear Es Z0.
  inversion T as [ds D E1 E2|ds D E1 E2].
  - subst ds. destruct D as [Dn Dd]. destruct s as [|c r]; [congruence|]. inversion Dd as [|? ? H2 H3]; subst.
    pose proof (dec_fold_bound r H3 (Z.of_N (bval c) - 48)) as B.
    assert (1 <= Z.of_N (bval c) - 48).
    { unfold is_digit in H2. assert (bval c <> 48%N); [|lia].
      intros X. assert (c = "0"%char) by (apply bval_inj; rewrite X; reflexivity).
      destruct (Z1 r) as [Y|Y]; congruence. }
    change (dec_value (c :: r)) with (dec_fold (Z.of_N (bval c) - 48) r) in *.
    destruct (le_lt_dec (length (c :: r)) 19); auto. exfalso. simpl in l.
    assert (10 ^ 19 <= 10 ^ Z.of_nat (length r)) by (apply Z.pow_le_mono_r; lia).
    assert (maxInt64 < 10 ^ 19) by (vm_compute; auto). nia.
  - pose proof (dec_value_bound _ (proj2 D)). lia.
Qed.

Lemma ToInt_FormatInt z : int64 z -> ToInt (FormatInt z) = Some z.
Proof.
  intros I. destruct (FormatInt_spec z I) as [[T _] _].
  rewrite (ToInt_exact _ _ T).
  - destruct (int64_dec z); tauto.
  - unfold int64, minInt64, maxInt64, two63, two64 in *. lia.
Qed.

(** Canonical texts are unique, so [dec_text] determines the output. *)
Lemma int_text_no_space s z : int_text s z -> ~ In sp s.
Proof.
  intros H HI. assert (Hs : ~ is_digit sp) by (unfold is_digit; vm_compute; intros [? _]; auto).
  inversion H; subst.
  - destruct H0 as [_ D]. rewrite Forall_forall in D. apply Hs; auto.
  - destruct HI as [HI|HI]; [discriminate|]. destruct H0 as [_ D]. rewrite Forall_forall in D. apply Hs; auto.
Qed.

Lemma int_text_no_nl s z : int_text s z -> ~ In nl s.
Proof.
  intros H HI. assert (Hs : ~ is_digit nl) by (unfold is_digit; vm_compute; intros [? _]; auto).
  inversion H; subst.
  - destruct H0 as [_ D]. rewrite Forall_forall in D. apply Hs; auto.
  - destruct HI as [HI|HI]; [discriminate|]. destruct H0 as [_ D]. rewrite Forall_forall in D. apply Hs; auto.
Qed.

(* ------------------------------------------------------------------ *)
(** * Timestamps *)

Lemma byte_at_true l i c : byte_at l i c = true <-> nth_error l i = Some c.
Proof.
  unfold byte_at. destruct (nth_error l i) as [x|]; [|split; discriminate].
  rewrite Ascii.eqb_eq. split; congruence.
Qed.

Lemma byte_at_split (l : bytes) i (c : ascii) : nth_error l i = Some c -> l = firstn i l ++ c :: skipn (i + 1) l.
Proof.
  revert l; induction i as [|i IH]; intros [|x l] H; simpl in *; try discriminate.
  - inversion H; auto.
  - f_equal. auto.
Qed.

Lemma strip_nl_chomp line : line <> [] -> chomp line (strip_nl line).
Proof.
  intros Hn. unfold chomp, strip_nl. destruct (byte_at line (length line - 1) nl) eqn:E.
  - left. apply byte_at_true in E. apply byte_at_split in E.
    rewrite E at 1. f_equal. f_equal. apply skipn_all2. destruct line; simpl; try lia; congruence.
  - right. split; auto. intros [p ->]. assert (X : byte_at (p ++ [nl]) (length (p ++ [nl]) - 1) nl = true); [|congruence].
    apply byte_at_true. rewrite app_length. simpl. rewrite nth_error_app2 by lia.
    replace (length p + 1 - 1 - length p)%nat with O by lia. auto.
Qed.

Lemma chomp_unique line b b' : chomp line b -> chomp line b' -> b = b'.
Proof.
  unfold chomp. intros [->|[-> H]] [E|[E H']].
  - apply app_inj_tail in E. tauto.
  - exfalso. apply H'. eauto.
  - exfalso. apply H. eauto.
  - auto.
Qed.

Lemma scan_down_Some line to : forall cnt i, scan_down line to cnt = Some i <->
  (to <= i < to + cnt)%nat /\ nth_error line i = Some sp /\
  forall j, (i < j < to + cnt)%nat -> nth_error line j <> Some sp.
Proof.
  induction cnt as [|c IH]; intros i; cbn [scan_down].
  - split; [discriminate | intros [H _]; lia].
  - destruct (byte_at line (to + c) sp) eqn:E.
    + apply byte_at_true in E. split.
      * intros H; inversion H; subst. split; [lia|]. split; auto. intros; lia.
      * intros (A & B & C). f_equal. destruct (Nat.eq_dec i (to + c)); auto. exfalso. apply (C (to + c)%nat); auto. lia.
    + assert (E' : nth_error line (to + c) <> Some sp) by (rewrite <- byte_at_true, E; discriminate).
      rewrite IH. split; intros (A & B & C).
      * split; [lia|]. split; auto. intros j Hj.
        destruct (Nat.eq_dec j (to + c)); [subst; auto | apply C; lia].
      * assert (i <> (to + c)%nat) by congruence. split; [lia|]. split; auto. intros j Hj. apply C; lia.
Qed.

Lemma scan_down_None line to : forall cnt, scan_down line to cnt = None <->
  forall j, (to <= j < to + cnt)%nat -> nth_error line j <> Some sp.
Proof.
  induction cnt as [|c IH]; cbn [scan_down].
  - split; auto. intros _ j Hj; lia.
  - destruct (byte_at line (to + c) sp) eqn:E.
    + apply byte_at_true in E. split; [discriminate|]. intros H. exfalso. apply (H (to + c)%nat); auto. lia.
    + assert (E' : nth_error line (to + c) <> Some sp) by (rewrite <- byte_at_true, E; discriminate).
      rewrite IH. split; intros H j Hj; [|apply H; lia].
      destruct (Nat.eq_dec j (to + c)); [subst; auto | apply H; lia].
Qed.

Lemma scan_up_Some line : forall cnt k i, scan_up line k cnt = Some i <->
  (k <= i < k + cnt)%nat /\ nth_error line i = Some sp /\
  forall j, (k <= j < i)%nat -> nth_error line j <> Some sp.
Proof.
  induction cnt as [|c IH]; intros k i; cbn [scan_up].
  - split; [discriminate | intros [H _]; lia].
  - destruct (byte_at line k sp) eqn:E.
    + apply byte_at_true in E. split.
      * intros H; inversion H; subst. split; [lia|]. split; auto. intros; lia.
      * intros (A & B & C). f_equal. destruct (Nat.eq_dec k i); auto. exfalso. apply (C k); auto. lia.
    + assert (E' : nth_error line k <> Some sp) by (rewrite <- byte_at_true, E; discriminate).
      rewrite IH. split; intros (A & B & C).
      * split; [lia|]. split; auto. intros j Hj. destruct (Nat.eq_dec j k); [subst; auto | apply C; lia].
      * assert (i <> k) by congruence. split; [lia|]. split; auto. intros j Hj. apply C; lia.
Qed.

Lemma MaxTsLen_19 : MaxTsLen = 19%nat.
Proof. reflexivity. Qed.

Lemma nth_not_in (l : bytes) k : (forall j, (k <= j < length l)%nat -> nth_error l j <> Some sp) ->
  ~ In sp (skipn k l).
Proof.
  intros H HI. apply In_nth_error in HI. destruct HI as [n E].
  assert (E' : nth_error l (k + n) = Some sp).
  { clear H. revert k E. induction l as [|x l IH]; intros [|k] E; simpl in *; auto. destruct n; discriminate. }
  apply (H (k + n)%nat); auto. split; [lia|]. apply nth_error_Some. congruence.
Qed.

Lemma nth_app_mid (a b : bytes) x : nth_error (a ++ x :: b) (length a) = Some x.
Proof. rewrite nth_error_app2, Nat.sub_diag; auto. Qed.

Lemma skipn_mid (a b : bytes) x : skipn (length a + 1) (a ++ x :: b) = b.
Proof. rewrite skipn_app. rewrite skipn_all2 by lia. replace (length a + 1 - length a)%nat with 1%nat by lia. auto. Qed.

Lemma firstn_mid (a b : bytes) x : firstn (length a) (a ++ x :: b) = a.
Proof. rewrite firstn_app, firstn_all, Nat.sub_diag. simpl. apply app_nil_r. Qed.

(** Both scans describe the same kind of split of the chomped line. *)
Lemma line_ts_intro line body i ts :
  chomp line body -> nth_error body i = Some sp -> (length body <= i + 20)%nat ->
  ToInt (skipn (i + 1) body) = Some ts ->
  line_ts_split line (firstn i body) (skipn (i + 1) body) ts /\ length (firstn i body) = i.
Proof.
  intros C Hi Hl T. assert (Li : (i < length body)%nat) by (apply nth_error_Some; congruence).
  assert (Ls : (length (skipn (i + 1) body) <= 19)%nat) by (rewrite skipn_length; lia).
  apply ToInt_short in T; auto. destruct T as [T I].
  split; [|apply firstn_length_le; lia].
  repeat split; auto; try apply I.
  - rewrite (byte_at_split _ _ _ Hi) in C. exact C.
  - eapply int_text_no_space; eauto.
Qed.

Lemma ExtractTimestamp_iff line ts off : (6 <= length line)%nat ->
  (ExtractTimestamp line = (ts, off) /\ off <> -1 <-> line_ts line ts off).
Proof.
  intros L. unfold ExtractTimestamp. replace (Nat.ltb (length line) 6) with false by lia.
  assert (C : chomp line (strip_nl line)) by (apply strip_nl_chomp; destruct line; simpl in *; [lia|discriminate]).
  set (body := strip_nl line) in *. rewrite MaxTsLen_19.
  set (to := (length body - 19 - 1)%nat). split.
  - intros [H N]. unfold ts_at in H. destruct (scan_down body to (length body - to)) as [i|] eqn:E; [|congruence].
    apply scan_down_Some in E. destruct E as (A & B & D).
    destruct (ToInt (skipn (i + 1) body)) as [v|] eqn:T; [|congruence]. inversion H; subst v off.
    destruct (line_ts_intro line body i ts C B) as [S1 S2]; auto; [lia|].
    exists (firstn i body), (skipn (i + 1) body). split; auto. rewrite S2. lia.
  - intros (pre & txt & (C' & Hs & Hl & T & I) & ->).
    assert (Eb : body = pre ++ sp :: txt) by (eapply chomp_unique; eauto).
    split; [|lia].
    assert (E : scan_down body to (length body - to) = Some (length pre)).
    { apply scan_down_Some. rewrite Eb. split; [|split].
      - subst to. rewrite Eb, app_length. simpl. lia.
      - apply nth_app_mid.
      - intros j Hj X. apply Hs. rewrite nth_error_app2 in X by lia.
        destruct (j - length pre)%nat eqn:Ej; [lia|]. simpl in X. eapply nth_error_In; eauto. }
    rewrite E. unfold ts_at. rewrite Eb at 1. rewrite skipn_mid.
    rewrite (proj2 (ToInt_short txt ts Hl)) by auto. f_equal. lia.
Qed.

Lemma ExtractTimestamp_neg line ts off : ExtractTimestamp line = (ts, off) -> off = -1 -> ts = -1.
Proof.
  unfold ExtractTimestamp, ts_at. intros H ->.
  destruct (Nat.ltb _ _); [congruence|]. destruct (scan_down _ _ _); [|congruence].
  destruct (ToInt _); inversion H; auto; lia.
Qed.

Lemma ExtractTimestamp_none line : (6 <= length line)%nat -> (forall ts off, ~ line_ts line ts off) ->
  ExtractTimestamp line = (-1, -1).
Proof.
  intros L H. destruct (ExtractTimestamp line) as [ts off] eqn:E.
  destruct (Z.eq_dec off (-1)) as [->|N].
  - rewrite (ExtractTimestamp_neg _ _ _ E eq_refl). auto.
  - exfalso. apply (H ts off). apply ExtractTimestamp_iff; auto.
Qed.

Lemma ExtractTimestamp_short line : (length line < 6)%nat -> ExtractTimestamp line = (-1, -1).
Proof. intros H. unfold ExtractTimestamp. replace (Nat.ltb (length line) 6) with true by lia. auto. Qed.

(** ExtractNanos: the same, but no other space may be within the last 20 bytes. *)
Lemma ExtractNanos_iff line ts off : (6 <= length line)%nat ->
  (ExtractNanos line = (ts, off) /\ off <> -1 <->
   exists pre txt, line_ts_split line pre txt ts /\ off = Z.of_nat (length pre) + 1 /\
     ~ In sp (skipn (length pre + length txt - 19) pre)).
Proof.
  intros L. unfold ExtractNanos. replace (Nat.ltb (length line) 6) with false by lia.
  assert (C : chomp line (strip_nl line)) by (apply strip_nl_chomp; destruct line; simpl in *; [lia|discriminate]).
  set (body := strip_nl line) in *. rewrite MaxTsLen_19.
  set (to := (length body - 19 - 1)%nat). split.
  - intros [H N]. unfold ts_at in H. destruct (scan_up body to (length body - to)) as [i|] eqn:E; [|congruence].
    apply scan_up_Some in E. destruct E as (A & B & D).
    destruct (ToInt (skipn (i + 1) body)) as [v|] eqn:T; [|congruence]. inversion H; subst v off.
    destruct (line_ts_intro line body i ts C B) as [S1 S2]; auto; [lia|].
    exists (firstn i body), (skipn (i + 1) body). split; auto. rewrite S2. split; [lia|].
    apply nth_not_in. intros j Hj X. rewrite S2 in Hj. rewrite skipn_length in Hj.
    apply (D j); [lia|]. rewrite <- (firstn_skipn i body). rewrite nth_error_app1; auto. lia.
  - intros (pre & txt & (C' & Hs & Hl & T & I) & -> & Hp).
    assert (Eb : body = pre ++ sp :: txt) by (eapply chomp_unique; eauto).
    split; [|lia].
    assert (E : scan_up body to (length body - to) = Some (length pre)).
    { apply scan_up_Some. rewrite Eb. split; [|split].
      - subst to. rewrite Eb, app_length. simpl. lia.
      - apply nth_app_mid.
      - intros j Hj X. apply Hp. rewrite nth_error_app1 in X by lia.
        rewrite <- (firstn_skipn (length pre + length txt - 19) pre) in X.
        subst to. rewrite Eb, app_length in Hj. simpl in Hj.
        assert (Lf : (length (firstn (length pre + length txt - 19) pre) <= j)%nat) by (rewrite firstn_length; lia).
        rewrite nth_error_app2 in X by exact Lf.
        eapply nth_error_In; eauto. }
    rewrite E. unfold ts_at. rewrite Eb at 1. rewrite skipn_mid.
    rewrite (proj2 (ToInt_short txt ts Hl)) by auto. f_equal. lia.
Qed.

Lemma ExtractNanos_neg line ts off : ExtractNanos line = (ts, off) -> off = -1 -> ts = -1.
Proof.
  unfold ExtractNanos, ts_at. intros H ->.
  destruct (Nat.ltb _ _); [congruence|]. destruct (scan_up _ _ _); [|congruence].
  destruct (ToInt _); inversion H; auto; lia.
Qed.

Lemma ExtractNanos_agrees line ts off :
  ExtractNanos line = (ts, off) -> off <> -1 -> ExtractTimestamp line = (ts, off).
Proof.
  intros H N. destruct (le_lt_dec 6 (length line)) as [L|L].
  - apply ExtractTimestamp_iff; auto. destruct (proj1 (ExtractNanos_iff line ts off L) (conj H N)) as (pre & txt & S1 & S2 & _).
    exists pre, txt; auto.
  - exfalso. unfold ExtractNanos in H. replace (Nat.ltb (length line) 6) with true in H by lia. congruence.
Qed.

Lemma ExtractNanos_full line pre txt ts :
  line_ts_split line pre txt ts -> length txt = 19%nat ->
  ExtractNanos line = (ts, Z.of_nat (length pre) + 1).
Proof.
  intros S Lt. assert (L : (6 <= length line)%nat).
  { destruct S as ([->|[-> _]] & _); rewrite ?app_length; simpl; rewrite ?app_length; lia. }
  eapply ExtractNanos_iff; auto. exists pre, txt. split; auto. split; auto.
  rewrite Lt. replace (length pre + 19 - 19)%nat with (length pre) by lia. rewrite skipn_all. auto.
Qed.

(* ------------------------------------------------------------------ *)
(** * Precision *)

Lemma multiplier_spec p : precision_ns p (getPrecisionMultiplier p).
Proof.
  unfold getPrecisionMultiplier.
  destruct (beqs p (lit "u")) eqn:E1; [apply beqs_eq in E1; subst; exact pr_u|].
  destruct (beqs p (lit "ms")) eqn:E2; [apply beqs_eq in E2; subst; exact pr_ms|].
  destruct (beqs p (lit "s")) eqn:E3; [apply beqs_eq in E3; subst; exact pr_s|].
  destruct (beqs p (lit "m")) eqn:E4; [apply beqs_eq in E4; subst; exact pr_m|].
  destruct (beqs p (lit "h")) eqn:E5; [apply beqs_eq in E5; subst; exact pr_h|].
  apply pr_other. rewrite beqs_neq in *. cbn [map In]. intuition.
Qed.

Lemma precision_fun p m : precision_ns p m -> m = getPrecisionMultiplier p.
Proof.
  intros H. destruct H; try reflexivity.
  cbn [map In] in H. unfold getPrecisionMultiplier.
  destruct (beqs p (lit "u")) eqn:E1; [apply beqs_eq in E1; subst; tauto|].
  destruct (beqs p (lit "ms")) eqn:E2; [apply beqs_eq in E2; subst; tauto|].
  destruct (beqs p (lit "s")) eqn:E3; [apply beqs_eq in E3; subst; tauto|].
  destruct (beqs p (lit "m")) eqn:E4; [apply beqs_eq in E4; subst; tauto|].
  destruct (beqs p (lit "h")) eqn:E5; [apply beqs_eq in E5; subst; tauto|]. auto.
Qed.

Lemma mult_bounds p : 1 <= getPrecisionMultiplier p <= 3600000000000.
Proof. destruct (multiplier_spec p); simpl; lia. Qed.

Definition in_nano_range (z : Z) : Prop := - 2 ^ 63 + 2 <= z <= 2 ^ 63 - 2.

Lemma safe_mult_ok a b : int64 a -> 1 <= b <= 3600000000000 -> in_nano_range (a * b) ->
  safeSignedMult a b = (a * b, true).
Proof.
  intros Ia Hb R. unfold in_nano_range in R. unfold safeSignedMult.
  assert (W : wrap64 (a * b) = a * b).
  { apply wrap64_id. unfold int64, minInt64, maxInt64, two63. lia. }
  destruct ((a =? 0) || (b =? 0) || (a =? 1) || (b =? 1)) eqn:E1; [congruence|].
  destruct ((a =? minNanoTime) || (b =? maxNanoTime)) eqn:E2.
  - exfalso. unfold minNanoTime, maxNanoTime, minInt64, maxInt64, two63 in *. nia.
  - rewrite W. f_equal. rewrite Z.quot_mul by lia. apply Z.eqb_refl.
Qed.

Lemma safe_mult_bad a b t : int64 a -> 1 <= b <= 3600000000000 -> ~ in_nano_range (a * b) ->
  safeSignedMult a b = (t, true) -> t < minNanoTime \/ maxNanoTime < t.
Proof.
  intros Ia Hb R H. unfold in_nano_range in R. unfold safeSignedMult in H.
  destruct ((a =? 0) || (b =? 0) || (a =? 1) || (b =? 1)) eqn:E1.
  - unfold int64, minNanoTime, maxNanoTime, minInt64, maxInt64, two63 in *. inversion H; subst t. rewrite wrap64_id; [nia|]. unfold int64, minInt64, maxInt64, two63.
    assert (a = 0 \/ a = 1 \/ b = 1) by lia. nia.
  - destruct ((a =? minNanoTime) || (b =? maxNanoTime)) eqn:E2; [discriminate|].
    unfold int64, minNanoTime, maxNanoTime, minInt64, maxInt64, two63 in *.
    injection H as H1 H2. apply Z.eqb_eq in H2.
    destruct (wrap64_mod (a * b)) as [k Hk]. pose proof (wrap64_range (a * b)) as Rg.
    unfold int64, minInt64, maxInt64, two63, two64 in *.
    set (c := wrap64 (a * b)) in *.
    assert (Q : Z.abs (c - b * a) < b).
    { rewrite <- H2. pose proof (Z.quot_rem' c b). pose proof (Z.rem_bound_abs c b). lia. }
    assert (k = 0) by nia. subst k. lia.
Qed.

Lemma SafeCalcTime_ok ts p m : int64 ts -> precision_ns p m -> in_nano_range (ts * m) ->
  SafeCalcTime ts p = Some (ts * m).
Proof.
  intros I P R. apply precision_fun in P. subst m. unfold SafeCalcTime.
  rewrite safe_mult_ok; auto using mult_bounds.
  unfold in_nano_range, minNanoTime, maxNanoTime, minInt64, maxInt64, two63 in *.
  destruct ((ts * getPrecisionMultiplier p <? _) || (_ <? ts * getPrecisionMultiplier p)) eqn:E; auto. lia.
Qed.

Lemma SafeCalcTime_err ts p m : int64 ts -> precision_ns p m -> ~ in_nano_range (ts * m) ->
  SafeCalcTime ts p = None.
Proof.
  intros I P R. apply precision_fun in P. subst m. unfold SafeCalcTime.
  destruct (safeSignedMult ts (getPrecisionMultiplier p)) as [t ok] eqn:E. destruct ok; auto.
  apply safe_mult_bad in E; auto using mult_bounds.
  destruct ((t <? minNanoTime) || (maxNanoTime <? t)) eqn:E2; auto. lia.
Qed.

(* ------------------------------------------------------------------ *)
(** * applyTimestampPrecision *)

Lemma chomp_prefix line pre tl : chomp line (pre ++ tl) -> firstn (length pre) line = pre.
Proof.
  intros [->|[-> _]]; rewrite <- ?app_assoc, firstn_app, firstn_all, Nat.sub_diag; simpl; apply app_nil_r.
Qed.

Lemma apply_rewrite line pre txt ts p m : (6 <= length line)%nat ->
  line_ts_split line pre txt ts -> precision_ns p m -> in_nano_range (ts * m) ->
  exists txt', dec_text (ts * m) txt' /\
    applyTimestampPrecision line p = pre ++ [sp] ++ txt' ++ [nl].
Proof.
  intros L S P R. exists (FormatInt (ts * m)).
  assert (I : int64 (ts * m)) by (unfold int64, in_nano_range, minInt64, maxInt64, two63 in *; lia).
  split; [apply FormatInt_spec; auto|].
  assert (LT : line_ts line ts (Z.of_nat (length pre) + 1)) by (exists pre, txt; auto).
  apply ExtractTimestamp_iff in LT; auto. destruct LT as [E N].
  unfold applyTimestampPrecision. rewrite E. replace (Z.of_nat (length pre) + 1 =? -1) with false by lia.
  destruct S as (C & _ & _ & T & It).
  rewrite (SafeCalcTime_ok _ _ m) by auto.
  replace (Z.to_nat (Z.of_nat (length pre) + 1)) with (length (pre ++ [sp])) by (rewrite app_length; simpl; lia).
  rewrite app_assoc in C. rewrite (chomp_prefix _ _ _ C). rewrite <- app_assoc. auto.
Qed.

Lemma apply_unchanged line p m : precision_ns p m ->
  ((length line < 6)%nat \/ forall pre txt ts, line_ts_split line pre txt ts -> ~ in_nano_range (ts * m)) ->
  applyTimestampPrecision line p = line.
Proof.
  intros P H. unfold applyTimestampPrecision. destruct (ExtractTimestamp line) as [ts off] eqn:E.
  destruct (Z.eqb_spec off (-1)); auto.
  destruct (le_lt_dec 6 (length line)) as [L|L].
  - destruct H as [H|H]; [lia|].
    destruct (proj1 (ExtractTimestamp_iff line ts off L) (conj E n)) as (pre & txt & S & _).
    rewrite (SafeCalcTime_err _ _ m); auto; [|eauto]. apply S.
  - rewrite ExtractTimestamp_short in E by auto. congruence.
Qed.

Lemma ToInt_exact_cases s z : int_text s z -> Z.abs z < 2 ^ 64 ->
  (int64 z -> ToInt s = Some z) /\ (~ int64 z -> ToInt s = None).
Proof. intros H A. rewrite (ToInt_exact s z H A). destruct (int64_dec z); tauto. Qed.

Lemma ExtractTimestamp_none' line :
  (length line < 6)%nat \/ (forall ts off, ~ line_ts line ts off) -> ExtractTimestamp line = (-1, -1).
Proof.
  intros H. destruct (le_lt_dec 6 (length line)).
  - destruct H; [lia|]. apply ExtractTimestamp_none; auto.
  - apply ExtractTimestamp_short; auto.
Qed.
