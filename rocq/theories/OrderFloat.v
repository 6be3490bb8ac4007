(** The order of float values: the averages of two orders differ by rounding only. *)
From Coq Require Import Reals Lra.
From Flocq Require Import Core BinarySingleNaN.
From Verif Require Import Base TextSpec NumSpec Avg AvgSpec AvgProofs Floats FloatProofs Order.
Local Open Scope R_scope.

Lemma numbers_perm parse vs vs' : Permutation vs vs' -> Permutation (numbers parse vs) (numbers parse vs').
Proof. intros P. unfold numbers, somes. apply Permutation_flat_map. apply Permutation_map. exact P. Qed.

Lemma rsum_perm a b : Permutation a b -> rsum a = rsum b.
Proof. induction 1; unfold rsum in *; cbn [fold_right]; lra. Qed.

Lemma mean_perm a b : Permutation a b -> mean a = mean b.
Proof. intros P. unfold mean. rewrite (rsum_perm _ _ (Permutation_map B2R P)), (Permutation_length P). reflexivity. Qed.

Theorem float_reordered : forall parse format pts pts' k n t vs t' vs' (lo hi : f64) (M : R),
  Permutation pts pts' -> Forall (good_point (fo64 parse format)) pts ->
  values k n pts = FNum t :: vs -> values k n pts' = FNum t' :: vs' ->
  let xs := numbers parse (FNum t :: vs) in
  is_finite lo = true -> is_finite hi = true -> is_finite (f64_sub hi lo) = true ->
  Forall (within lo hi) xs -> - M <= B2R lo -> B2R hi <= M -> (Z.of_nat (length xs) < 2 ^ 53)%Z ->
  exists v y v' y', field_in (fo64 parse format) (bucket_of (fo64 parse format) pts) k n = Some v /\
    valueBytes (fo64 parse format) v = format y /\
    field_in (fo64 parse format) (bucket_of (fo64 parse format) pts') k n = Some v' /\
    valueBytes (fo64 parse format) v' = format y' /\
    Rabs (B2R y - B2R y') <= (IZR (Z.of_nat (length xs)) + 1) * (4 * bpow radix2 (-53) * M + bpow radix2 (-1075)).
Proof.
  intros parse format pts pts' k n t vs t' vs' lo hi M P G V V' xs Fl Fh Fs W Ml Mh L.
  pose proof (values_perm k n _ _ P) as Pv. rewrite V, V' in Pv. pose proof (numbers_perm parse _ _ Pv) as Px.
  destruct (float_average parse format pts k n t vs lo hi M G V Fl Fh Fs W Ml Mh L) as (v & y & F1 & F2 & _ & B).
  destruct (float_average parse format pts' k n t' vs' lo hi M) as (v' & y' & F1' & F2' & _ & B'); auto.
  - eapply Permutation_Forall; eauto.
  - eapply Permutation_Forall; [exact Px|exact W].
  - rewrite <- (Permutation_length Px). exact L.
  - exists v, y, v', y'. split; auto. split; auto. split; auto. split; auto.
    rewrite <- (Permutation_length Px), <- (mean_perm _ _ Px) in B'. fold xs in B, B'.
    replace (B2R y - B2R y') with ((B2R y - mean xs) - (B2R y' - mean xs)) by ring.
    eapply Rle_trans; [apply Rabs_triang|]. rewrite Rabs_Ropp. lra.
Qed.
