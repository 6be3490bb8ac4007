(** Bytes, literals and Go integer conventions shared by every model file. *)
From Coq Require Export String Ascii ZArith Lia Bool Arith Permutation List.
From Coq Require Export ZifyBool ZifyNat ZifyN.
Export ListNotations.
Open Scope list_scope.

(** Models Go's [byte] and [[]byte].  A nil slice and an empty slice are both []. *)
Definition byte := ascii.
Definition bytes := list ascii.

(** Go string literals, e.g. [[]byte(", ")]. *)
Definition lit (s : string) : bytes := list_ascii_of_string s.

Definition nl : ascii := "010"%char.
Definition sp : ascii := " "%char.
Definition comma : ascii := ","%char.
Definition eqs : ascii := "="%char.
Definition bsl : ascii := "\"%char.
Definition dq : ascii := """"%char.

(** Models the [for _, c := range until { if s[i] == c ...}] membership loops and
    bytes.IndexByte(chars, b) >= 0 (influx/escape.go containsByte). *)
Definition memb (cs : bytes) (c : ascii) : bool := existsb (Ascii.eqb c) cs.

(** Byte string equality: bytes.Equal. *)
Fixpoint beqs (a b : bytes) : bool :=
  match a, b with
  | [], [] => true
  | x :: a', y :: b' => Ascii.eqb x y && beqs a' b'
  | _, _ => false
  end.

(** bytes.Compare(a, b) < 0: lexicographic order on byte values. *)
Definition bval (c : ascii) : N := N_of_ascii c.
Fixpoint bltb (a b : bytes) : bool :=
  match a, b with
  | _, [] => false
  | [], _ :: _ => true
  | x :: a', y :: b' =>
      if N.ltb (bval x) (bval y) then true
      else if N.ltb (bval y) (bval x) then false else bltb a' b'
  end.

(** Go int64 arithmetic wraps modulo 2^64. *)
Definition two63 : Z := 9223372036854775808%Z.
Definition two64 : Z := 18446744073709551616%Z.
Definition wrap64 (z : Z) : Z := ((z + two63) mod two64 - two63)%Z.
Definition wrapu64 (z : Z) : Z := (z mod two64)%Z.
Definition minInt64 : Z := (- two63)%Z.
Definition maxInt64 : Z := (two63 - 1)%Z.
Definition int64 (z : Z) : Prop := (minInt64 <= z <= maxInt64)%Z.

(* ------------------------------------------------------------------ *)
(** * Generic lemmas *)

Lemma memb_In cs c : memb cs c = true <-> In c cs.
Proof.
  unfold memb. rewrite existsb_exists. split.
  - intros (x & H & E). apply Ascii.eqb_eq in E. subst; auto.
  - intros H. exists c. split; auto. apply Ascii.eqb_refl.
Qed.

Lemma memb_false cs c : memb cs c = false <-> ~ In c cs.
Proof. rewrite <- memb_In. destruct (memb cs c); split; congruence. Qed.

Lemma beqs_eq a b : beqs a b = true <-> a = b.
Proof.
  revert b; induction a as [|x a IH]; destruct b as [|y b]; simpl; split; try congruence.
  - rewrite andb_true_iff, Ascii.eqb_eq, IH. intros [-> ->]; auto.
  - intros E; inversion E; subst. rewrite Ascii.eqb_refl. simpl. apply IH; auto.
Qed.

Lemma beqs_refl a : beqs a a = true.
Proof. apply beqs_eq; auto. Qed.

Lemma beqs_neq a b : beqs a b = false <-> a <> b.
Proof. rewrite <- beqs_eq. destruct (beqs a b); split; congruence. Qed.

Lemma bval_inj x y : bval x = bval y -> x = y.
Proof. unfold bval; intros H. rewrite <- (ascii_N_embedding x), <- (ascii_N_embedding y), H; auto. Qed.

Lemma bltb_irrefl a : bltb a a = false.
Proof. induction a; simpl; auto. rewrite N.ltb_irrefl; auto. Qed.

Lemma bltb_trans a b c : bltb a b = true -> bltb b c = true -> bltb a c = true.
Proof.
  revert b c; induction a as [|x a IH]; destruct b as [|y b], c as [|z c]; simpl; try congruence; auto.
  destruct (N.ltb_spec (bval x) (bval y)), (N.ltb_spec (bval y) (bval z)),
    (N.ltb_spec (bval x) (bval z)), (N.ltb_spec (bval y) (bval x)),
    (N.ltb_spec (bval z) (bval y)), (N.ltb_spec (bval z) (bval x)); try congruence; try lia; eauto.
Qed.

Lemma bltb_total a b : bltb a b = false -> bltb b a = false -> a = b.
Proof.
  revert b; induction a as [|x a IH]; destruct b as [|y b]; simpl; try congruence; auto.
  destruct (N.ltb_spec (bval x) (bval y)), (N.ltb_spec (bval y) (bval x)); try congruence; try lia.
  intros. f_equal; [apply bval_inj; lia | auto].
Qed.

Lemma bltb_asym a b : bltb a b = true -> bltb b a = false.
Proof.
  intros H. destruct (bltb b a) eqn:E; auto.
  pose proof (bltb_trans _ _ _ H E). rewrite bltb_irrefl in H0. congruence.
Qed.

Lemma wrap64_id z : int64 z -> wrap64 z = z.
Proof.
  unfold int64, wrap64, minInt64, maxInt64, two63, two64. intros H.
  rewrite Z.mod_small; lia.
Qed.

Lemma wrap64_range z : int64 (wrap64 z).
Proof.
  unfold int64, wrap64, minInt64, maxInt64, two63, two64.
  pose proof (Z.mod_pos_bound (z + 9223372036854775808) 18446744073709551616). lia.
Qed.

Lemma wrap64_mod z : exists k, wrap64 z = (z + k * two64)%Z.
Proof.
  unfold wrap64. exists (- ((z + two63) / two64))%Z.
  pose proof (Z.div_mod (z + two63) two64). unfold two64 in *. lia.
Qed.

Lemma firstn_skipn_sub {A} (l : list A) n : firstn n l ++ skipn n l = l.
Proof. apply firstn_skipn. Qed.

Lemma last_app_ne {A} (l m : list A) d : m <> [] -> last (l ++ m) d = last m d.
Proof.
  intros H. induction l as [|x l IH]; simpl; auto.
  destruct (l ++ m) eqn:E; auto. destruct l; simpl in *; [congruence | discriminate].
Qed.
