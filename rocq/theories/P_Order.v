(** C106: the order in which points arrive does not change a period's averages. *)
From Coq Require Import Reals Lra.
From Flocq Require Import Core BinarySingleNaN.
From Verif Require Import Base Text TextSpec Convert NumSpec RulesSpec RulesProofs Avg AvgSpec AvgProofs AvgPrint AssignerSpec DsMain Floats FloatProofs Order OrderFloat.
Local Open Scope Z_scope.

(** However the lines of different series are interleaved, the period's output has the same lines: for arbitrary,
    also malformed lines, any map iteration orders, any sorting function. *)
Theorem C106_interleaving : forall fo gosort, sorts gosort -> forall ls ls' ts order order', same_per_series ls ls' ->
  iteration_of fo (bucket_from fo ls) order -> iteration_of fo (bucket_from fo ls') order' ->
  same_lines (bucketBytes fo gosort ts order) (bucketBytes fo gosort ts order').
Proof. exact interleaving. Qed.
Print Assumptions C106_interleaving.

(** The same in terms of everything the downsampler accepted: only the order of each series' own lines matters. *)
Theorem C106_period : forall fo gosort p l l' e ts order order', sorts gosort -> same_log_per_series l l' ->
  iteration_of fo (contents (avgBucket fo) lerr (fun _ => []) (AddLine fo) p l e) order ->
  iteration_of fo (contents (avgBucket fo) lerr (fun _ => []) (AddLine fo) p l' e) order' ->
  same_lines (bucketBytes fo gosort ts order) (bucketBytes fo gosort ts order').
Proof. exact interleaving_period. Qed.
Print Assumptions C106_period.

Example C106_interleaving_case :
  let ls := [lit "a,h=1 x=1i"; lit "a,h=2 x=5i"; lit "a,h=1 x=2i"; lit "junk"] in
  let ls' := [lit "a,h=2 x=5i"; lit "junk"; lit "a,h=1 x=1i"; lit "a,h=1 x=2i"] in
  same_per_series ls ls' /\ of_series (lit "a,h=1") ls = [lit "a,h=1 x=1i"; lit "a,h=1 x=2i"] /\
  bucketBytes fo0 (@isort) 7 (map (fun e => (e, map fst (snd e))) (bucket_from fo0 ls)) =
    lit "a,h=1 x=1i 7" ++ [nl] ++ lit "a,h=2 x=5i 7" ++ [nl] ++ lit "junk 7" ++ [nl] /\
  bucketBytes fo0 (@isort) 7 (map (fun e => (e, map fst (snd e))) (bucket_from fo0 ls')) =
    lit "a,h=2 x=5i 7" ++ [nl] ++ lit "junk 7" ++ [nl] ++ lit "a,h=1 x=1i 7" ++ [nl].
Proof.
  split; [|split; [reflexivity|split; vm_compute; reflexivity]].
  intros k. unfold of_series. cbn [filter].
  change (fst (TokenEscaped (lit " ") (lit "a,h=1 x=1i"))) with (lit "a,h=1"). change (fst (TokenEscaped (lit " ") (lit "a,h=1 x=2i"))) with (lit "a,h=1").
  change (fst (TokenEscaped (lit " ") (lit "a,h=2 x=5i"))) with (lit "a,h=2"). change (fst (TokenEscaped (lit " ") (lit "junk"))) with (lit "junk").
  destruct (beqs (lit "a,h=1") k) eqn:E1; [apply beqs_eq in E1; subst k; reflexivity|].
  destruct (beqs (lit "a,h=2") k) eqn:E2; [apply beqs_eq in E2; subst k; reflexivity|].
  destruct (beqs (lit "junk") k); reflexivity.
Qed.

(** Whatever the order: the same series, and the same fields in each. *)
Theorem C106_same_fields : forall fo gosort pts pts' ts order order', sorts gosort ->
  Permutation pts pts' -> Forall (good_point fo) pts -> int64 ts ->
  iteration_of fo (bucket_of fo pts) order -> iteration_of fo (bucket_of fo pts') order' ->
  exists ls ls', bucketBytes fo gosort ts order = concat (map snd ls) /\ bucketBytes fo gosort ts order' = concat (map snd ls') /\
    NoDup (map fst ls) /\ Permutation (map fst ls) (map fst ls') /\
    Forall (fun kl => series_line fo pts ts (fst kl) (snd kl)) ls /\ Forall (fun kl => series_line fo pts' ts (fst kl) (snd kl)) ls' /\
    forall k n, values k n pts <> [] <-> values k n pts' <> [].
Proof.
  intros fo gosort pts pts' ts order order' Hs P G Ht O O'.
  assert (G' : Forall (good_point fo) pts') by (eapply Permutation_Forall; eauto).
  destruct (print_ok fo gosort Hs pts ts order G Ht O) as (ls & N & K & S & E).
  destruct (print_ok fo gosort Hs pts' ts order' G' Ht O') as (ls' & N' & K' & S' & E').
  exists ls, ls'. split; auto. split; auto. split; auto. split; [|split; auto; split; auto].
  - apply NoDup_Permutation; auto. intros k. rewrite K, K'. split; intros (pt & J & F); exists pt; split; auto.
    + eapply Permutation_in; eauto.
    + eapply Permutation_in; [apply Permutation_sym; eauto|auto].
  - intros k n. pose proof (values_perm k n _ _ P) as Pv. split; intros X Y; apply X; rewrite Y in Pv.
    + apply Permutation_sym, Permutation_nil in Pv. exact Pv.
    + apply Permutation_nil in Pv. exact Pv.
Qed.
Print Assumptions C106_same_fields.

(** An integer field of n points: what two orders print differs by at most n - 1. *)
Theorem C106_int_partial : forall fo vs vs' txt txt' lo hi, Permutation vs vs' -> Forall is_int vs ->
  summarises fo vs txt -> summarises fo vs' txt' ->
  int64 lo -> int64 hi -> hi - lo <= maxInt64 -> Forall (fun v => lo <= int_of v <= hi) vs -> Z.of_nat (length vs) <= maxInt64 ->
  exists a a' t t', dec_text a t /\ txt = t ++ lit "i" /\ dec_text a' t' /\ txt' = t' ++ lit "i" /\
    Z.abs (a - a') <= Z.of_nat (length vs) - 1.
Proof. exact int_reordered. Qed.
Print Assumptions C106_int_partial.

(** Attained: the points 0, 1, ..., n print 0, the same points backwards print n. *)
Theorem C106_int_refuted : forall fo n, Z.of_nat n < maxInt64 ->
  let up := map ramp_point (seq 0 (S n)) in let down := map ramp_point (rev (seq 0 (S n))) in
  Permutation up down /\ Forall (good_point fo) up /\
  exists v v', field_in fo (bucket_of fo up) (lit "m,t=1") (lit "f") = Some v /\ valueBytes fo v = lit "0i" /\
    field_in fo (bucket_of fo down) (lit "m,t=1") (lit "f") = Some v' /\ valueBytes fo v' = FormatInt (Z.of_nat n) ++ lit "i".
Proof. exact ramp_reversed. Qed.
Print Assumptions C106_int_refuted.

Example C106_int_case :
  let vs := [FInt (lit "1") 1; FInt (lit "2") 2; FInt (lit "9") 9] in let vs' := [FInt (lit "9") 9; FInt (lit "1") 1; FInt (lit "2") 2] in
  Permutation vs vs' /\ Forall (fun v => 1 <= int_of v <= 9) vs /\ int_running 1 1 [Some 2; Some 9] = 3 /\ int_running 9 1 [Some 1; Some 2] = 4.
Proof.
  split; [|split; [repeat constructor; vm_compute; congruence|split; reflexivity]].
  apply (Permutation_cons_app [FInt (lit "9") 9] [FInt (lit "2") 2]). apply (Permutation_cons_app [FInt (lit "9") 9] []). reflexivity.
Qed.

(** A float field of n points: rounding errors only. *)
Theorem C106_float_partial : forall parse format pts pts' k n t vs t' vs' (lo hi : f64) (M : R),
  Permutation pts pts' -> Forall (good_point (fo64 parse format)) pts ->
  values k n pts = FNum t :: vs -> values k n pts' = FNum t' :: vs' ->
  let xs := numbers parse (FNum t :: vs) in
  is_finite lo = true -> is_finite hi = true -> is_finite (f64_sub hi lo) = true ->
  Forall (within lo hi) xs -> (- M <= B2R lo)%R -> (B2R hi <= M)%R -> (Z.of_nat (length xs) < 2 ^ 53)%Z ->
  exists v y v' y', field_in (fo64 parse format) (bucket_of (fo64 parse format) pts) k n = Some v /\
    valueBytes (fo64 parse format) v = format y /\
    field_in (fo64 parse format) (bucket_of (fo64 parse format) pts') k n = Some v' /\
    valueBytes (fo64 parse format) v' = format y' /\
    (Rabs (B2R y - B2R y') <= (IZR (Z.of_nat (length xs)) + 1) * (4 * bpow radix2 (-53) * M + bpow radix2 (-1075)))%R.
Proof. exact float_reordered. Qed.
Print Assumptions C106_float_partial.

(** Which do occur: 0, 0, 1 and 1, 0, 0. *)
Theorem C106_float_refuted : forall parse format,
  B2SF (float_running (fo64 parse format) (f64_lit 0 0) 1 [Some (f64_lit 0 0); Some (f64_lit 1 0)]) <>
  B2SF (float_running (fo64 parse format) (f64_lit 1 0) 1 [Some (f64_lit 0 0); Some (f64_lit 0 0)]).
Proof. intros parse format. vm_compute. discriminate. Qed.
Print Assumptions C106_float_refuted.

Example C106_float_case :
  let pts := fpts ["1.5"; "8"; "2.5"]%string in let pts' := fpts ["8"; "2.5"; "1.5"]%string in
  Permutation pts pts' /\ values (lit "cpu,h=a") (lit "f") pts' = FNum (lit "8") :: [FNum (lit "2.5"); FNum (lit "1.5")] /\
  Forall (good_point (fo64 parse0 (fun _ => []))) pts.
Proof.
  split; [|split; [reflexivity|exact ex_fpts_good]].
  apply (Permutation_map (fun t => (lit "cpu,h=a", [(lit "f", FNum (lit t))])) (l := ["1.5"; "8"; "2.5"]%string) (l' := ["8"; "2.5"; "1.5"]%string)).
  apply (Permutation_cons_app ["8"; "2.5"]%string []). reflexivity.
Qed.

(** Strings show the value that came last, and a field that changes its type keeps the type that came first. *)
Theorem C106_strings_refuted : forall fo,
  let a := (lit "m", [(lit "f", FStr (lit "up"))]) in let b := (lit "m", [(lit "f", FStr (lit "down"))]) in let c := (lit "m", [(lit "f", FInt (lit "1") 1)]) in
  Forall (good_point fo) [a; b; c] /\
  field_in fo (bucket_of fo [a; b]) (lit "m") (lit "f") = Some (VString fo (lit "down")) /\
  field_in fo (bucket_of fo [b; a]) (lit "m") (lit "f") = Some (VString fo (lit "up")) /\
  field_in fo (bucket_of fo [a; c]) (lit "m") (lit "f") = Some (VString fo (lit "1i")) /\
  field_in fo (bucket_of fo [c; a]) (lit "m") (lit "f") = Some (VInt fo 1 1).
Proof.
  intros fo a b c. assert (Fr : forall s : bytes, ~ In dq s -> ~ ends_in bsl s -> s <> [] -> (forall t z, s = t ++ lit "i" -> int_text t z -> Z.abs z < 2 ^ 64) -> good_val fo (FStr s)).
  { intros s H1 H2 H3 H4. split; auto. }
  assert (NI : forall s, last s "000"%char <> "i"%char -> forall t z, s = t ++ lit "i" -> int_text t z -> Z.abs z < 2 ^ 64).
  { intros s L t z -> _. exfalso. apply L. apply last_last. }
  split.
  - constructor; [|constructor; [|constructor; [|constructor]]]; (split; [free|split; [discriminate|split; [repeat constructor; intros []|constructor; [split; [free|]|constructor]]]]).
    + apply Fr; [apply memb_false; reflexivity|apply not_ends_bsl; apply memb_false; reflexivity|discriminate|apply NI; discriminate].
    + apply Fr; [apply memb_false; reflexivity|apply not_ends_bsl; apply memb_false; reflexivity|discriminate|apply NI; discriminate].
    + split; [|unfold int64, minInt64, maxInt64, two63; lia]. apply (it_pos (lit "1")). split; [discriminate|]. repeat constructor; vm_compute; discriminate.
  - split; [|split; [|split]]; vm_compute; reflexivity.
Qed.
Print Assumptions C106_strings_refuted.
