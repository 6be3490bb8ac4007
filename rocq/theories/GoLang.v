(** The fragment of Go the data path is written in, with its run-time panics: index and slice expressions with bounds
    checks, integer division, loops.  (The Go Programming Language Specification: Index expressions, Slice expressions,
    Integer operators, For statements.)

    Simplified: a slice expression s[i:j] is also refused for len(s) < j <= cap(s), which Go allows (the batch, which
    relies on capacities, has its own operations in GoBatch.v); int is Z, because all ints here are lengths and indices. *)
From Verif Require Import Base.
Local Open Scope Z_scope.

(** The outcome of a piece of code: a value, a panic, or (not an outcome of Go) not finished within the given number of
    iterations. *)
Inductive go (A : Type) := Ret (a : A) | Panic | Unfinished.
Arguments Ret {A}. Arguments Panic {A}. Arguments Unfinished {A}.
(** Sequencing: a panic ends the function. *)
Definition bind {A B} (m : go A) (k : A -> go B) : go B := match m with Ret a => k a | Panic => Panic | Unfinished => Unfinished end.
Declare Scope go_scope.
Delimit Scope go_scope with go.
Notation "x <- m ;; k" := (bind m (fun x => k)) (at level 61, m at next level, right associativity) : go_scope.
Notation "' p <- m ;; k" := (bind m (fun x => match x with p => k end)) (at level 61, p pattern, m at next level, right associativity) : go_scope.
Open Scope go_scope.

(** len(s) *)
Definition len {A} (s : list A) : Z := Z.of_nat (length s).
(** s[i] *)
Definition at_ {A} (s : list A) (i : Z) : go A :=
  if i <? 0 then Panic else match nth_error s (Z.to_nat i) with Some x => Ret x | None => Panic end.
(** s[i:j] *)
Definition slice {A} (s : list A) (i j : Z) : go (list A) :=
  if (0 <=? i) && (i <=? j) && (j <=? len s) then Ret (firstn (Z.to_nat (j - i)) (skipn (Z.to_nat i) s)) else Panic.
(** s[i:] *)
Definition slice_from {A} (s : list A) (i : Z) : go (list A) := slice s i (len s).
(** s[i] = x *)
Fixpoint replace {A} (s : list A) (i : nat) (x : A) : list A :=
  match s, i with [], _ => [] | _ :: r, O => x :: r | y :: r, S j => y :: replace r j x end.
Definition put {A} (s : list A) (i : Z) (x : A) : go (list A) := if (0 <=? i) && (i <? len s) then Ret (replace s (Z.to_nat i) x) else Panic.
(** a / b for ints: panics on zero, truncates, wraps. *)
Definition div (a b : Z) : go Z := if b =? 0 then Panic else Ret (wrap64 (Z.quot a b)).

(** What one iteration of a loop does: continue, or leave the function (or the loop) with a value. *)
Inductive iter (S R : Type) := Cont (s : S) | Leave (r : R).
Arguments Cont {S R}. Arguments Leave {S R}.
(** for { body }, at most [fuel] iterations. *)
Fixpoint loop {S R} (fuel : nat) (body : S -> go (iter S R)) (s : S) : go R :=
  match fuel with
  | O => Unfinished
  | Datatypes.S f => r <- body s ;; match r with Cont s' => loop f body s' | Leave v => Ret v end
  end.
(** for i, x := range l { body }: the body may leave. *)
Fixpoint range {X S R} (l : list X) (i : Z) (body : Z -> X -> S -> go (iter S R)) (s : S) : go (iter S R) :=
  match l with
  | [] => Ret (Cont s)
  | x :: r => o <- body i x s ;; match o with Cont s' => range r (i + 1) body s' | Leave v => Ret (Leave v) end
  end.

(* ------------------------------------------------------------------ *)
(** * Facts *)

Lemma len_nonneg {A} (s : list A) : 0 <= len s.
Proof. unfold len. lia. Qed.
Lemma len_app {A} (a b : list A) : len (a ++ b) = len a + len b.
Proof. unfold len. rewrite app_length. lia. Qed.
Lemma len_cons {A} (x : A) s : len (x :: s) = 1 + len s.
Proof. unfold len. cbn [length]. lia. Qed.
Lemma len_nil {A} : len (@nil A) = 0.
Proof. reflexivity. Qed.

Lemma at_app {A} (a : list A) x b i : i = len a -> at_ (a ++ x :: b) i = Ret x.
Proof.
  intros ->. unfold at_, len. replace (Z.of_nat (length a) <? 0) with false by lia. rewrite Nat2Z.id, nth_error_app2, Nat.sub_diag by lia. reflexivity.
Qed.
Lemma at_ok {A} (s : list A) i : 0 <= i < len s -> exists a x b, s = a ++ x :: b /\ len a = i /\ at_ s i = Ret x.
Proof.
  intros H. destruct (nth_error s (Z.to_nat i)) as [x|] eqn:E.
  - destruct (nth_error_split _ _ E) as (a & b & -> & L). exists a, x, b. assert (len a = i) by (unfold len; lia). auto using at_app.
  - apply nth_error_None in E. unfold len in H. lia.
Qed.
Lemma slice_mid {A} (a b c : list A) i j : i = len a -> j = len a + len b -> slice (a ++ b ++ c) i j = Ret b.
Proof.
  intros -> ->. unfold slice. rewrite !len_app. pose proof (len_nonneg a). pose proof (len_nonneg b). pose proof (len_nonneg c).
  replace ((0 <=? len a) && (len a <=? len a + len b) && (len a + len b <=? len a + (len b + len c))) with true by lia.
  f_equal. unfold len. rewrite Nat2Z.id. replace (Z.to_nat (Z.of_nat (length a) + Z.of_nat (length b) - Z.of_nat (length a))) with (length b) by lia.
  rewrite skipn_app, skipn_all, Nat.sub_diag. cbn [skipn app]. rewrite firstn_app, firstn_all, Nat.sub_diag. cbn [firstn]. apply app_nil_r.
Qed.
Lemma slice_pre {A} (a b : list A) j : j = len a -> slice (a ++ b) 0 j = Ret a.
Proof. intros ->. exact (slice_mid [] a b 0 (len a) eq_refl eq_refl). Qed.
Lemma slice_suf {A} (a b : list A) i : i = len a -> slice_from (a ++ b) i = Ret b.
Proof. intros ->. unfold slice_from. pose proof (slice_mid a b [] (len a) (len (a ++ b)) eq_refl) as H. rewrite !app_nil_r in H. apply H. apply len_app. Qed.
Lemma slice_skip {A} (s : list A) i : 0 <= i <= len s -> slice_from s i = Ret (skipn (Z.to_nat i) s).
Proof.
  intros H. rewrite <- (firstn_skipn (Z.to_nat i) s) at 1. apply slice_suf. unfold len in *. rewrite firstn_length. lia.
Qed.
Lemma slice_first {A} (s : list A) i : 0 <= i <= len s -> slice s 0 i = Ret (firstn (Z.to_nat i) s).
Proof.
  intros H. rewrite <- (firstn_skipn (Z.to_nat i) s) at 1. apply slice_pre. unfold len in *. rewrite firstn_length. lia.
Qed.
Lemma slice_one {A} (x : A) s : slice_from (x :: s) 1 = Ret s.
Proof. exact (slice_suf [x] s 1 eq_refl). Qed.
Lemma put_app {A} (a : list A) x b y i : i = len a -> put (a ++ x :: b) i y = Ret (a ++ y :: b).
Proof.
  intros ->. unfold put. rewrite len_app, len_cons. pose proof (len_nonneg a). pose proof (len_nonneg b).
  replace ((0 <=? len a) && (len a <? len a + (1 + len b))) with true by lia. f_equal. unfold len. rewrite Nat2Z.id.
  induction a as [|z a IH]; [reflexivity|]. cbn [length app replace]. f_equal. apply IH; apply len_nonneg.
Qed.
Lemma at_zero {A} (x : A) s : at_ (x :: s) 0 = Ret x.
Proof. reflexivity. Qed.
Lemma at_byte (s : bytes) i : 0 <= i < len s -> exists x, at_ s i = Ret x /\ nth_error s (Z.to_nat i) = Some x.
Proof.
  intros H. destruct (at_ok s i H) as (a & x & b & -> & L & E). exists x. split; [exact E|].
  replace (Z.to_nat i) with (length a) by (unfold len in L; lia). rewrite nth_error_app2, Nat.sub_diag by lia. reflexivity.
Qed.
