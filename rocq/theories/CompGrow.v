(** The reports of any component grow: counters read by the statistics goroutine, and one counter per item. *)
From Verif Require Import Base Convert NumSpec Prom RulesSpec RulesProofs PromSpec PromParse PromProofs PromMonitor PromTop PromStats
  Stats StatsSpec StatsProofs MetricsGrow.
Local Open Scope Z_scope.

(** Some goroutine read [v] from counter [n]. *)
Definition reads (during : slog) (n : bytes) (v : Z) : Prop := exists t, In (t, SGet n, v) during.
(** No counter has overflowed. *)
Definition in_range (log : slog) : Prop := forall n, largest (maxes n log) + Z.of_nat (incs n log) < 2 ^ 64.

Lemma largest_nonneg l : 0 <= largest l.
Proof. induction l; simpl; lia. Qed.
Lemma sequential_nonneg n : forall log st st', sequential st log st' -> 0 <= st n -> 0 <= st' n.
Proof.
  induction 1 as [st|st t o r log st' st'' Hr Hst Hs IH]; intros H0; [exact H0|]. apply IH. rewrite Hst. destruct (beqs n (sop_name o)) eqn:B; [|exact H0].
  apply beqs_eq in B. subst r. rewrite <- B. destruct o; cbn [call_result]; [exact H0|apply Z.mod_pos_bound; lia|lia].
Qed.

Lemma reads_grow names progs sched s l0 l1 l2 l3 l4 n v v' : uint64_args progs ->
  run names progs sched = Some (s, l0 ++ l1 ++ l2 ++ l3 ++ l4) -> in_range (l0 ++ l1 ++ l2 ++ l3 ++ l4) ->
  reads l1 n v -> reads l3 n v' -> v <= v'.
Proof.
  intros U H B (t & S1) (t' & S3). destruct (run_linear _ _ _ _ _ U H) as [(st & Sq & _) _].
  specialize (B n). apply in_split in S1 as (a & b & ->). apply in_split in S3 as (d & e & ->).
  set (x := (t, SGet n, v)) in *. set (y := (t', SGet n, v')) in *.
  assert (E : l0 ++ (a ++ x :: b) ++ l2 ++ (d ++ y :: e) ++ l4 = (l0 ++ a) ++ ((x :: b ++ l2 ++ d) ++ (y :: e ++ l4))).
  { rewrite <- !app_assoc. cbn [app]. rewrite <- !app_assoc. reflexivity. }
  rewrite E in B, Sq. destruct (sequential_app _ _ _ Sq _ _ eq_refl) as (m1 & Q1 & Q2). destruct (sequential_app _ _ _ Q2 _ _ eq_refl) as (m2 & Q3 & Q4).
  assert (V : v = m1 n) by (inversion Q3; subst; reflexivity). assert (V' : v' = m2 n) by (inversion Q4; subst; reflexivity).
  rewrite (incs_app n (l0 ++ a)), (maxes_app n (l0 ++ a)), largest_app in B.
  rewrite (incs_app n (x :: b ++ l2 ++ d)), (maxes_app n (x :: b ++ l2 ++ d)), largest_app in B.
  pose proof (sequential_bound n _ _ _ Q1 ltac:(lia)) as Bd. cbv beta in Bd.
  pose proof (largest_nonneg (maxes n (l0 ++ a))). pose proof (sequential_nonneg n _ _ _ Q1 ltac:(lia)).
  rewrite V, V'. apply (sequential_mono n _ _ _ Q3); lia.
Qed.

(** ** Rounds *)

(** listener/listener.go:417-425, writer/writer.go:247-279, filter/filter.go:167-187, downsampler/downsampler.go:184-205:
    the reports of one round: a snapshot with the component's labels, and per item (rule or subject) one
    counter with a further label that tells the items apart. *)
Record cround := mkCround { cr_log : slog; cr_nanos : Z; cr_snap : list (bytes * Z); cr_items : list (bytes * Z) }.
Definition comp_reports (labels : list (bytes * bytes)) (cname lname : bytes) (d : cround) : list report :=
  RSnapshot (cr_snap d) (cr_nanos d) labels ::
  map (fun it : bytes * Z => RCounter cname (wrap64 (snd it)) (cr_nanos d) (labels ++ [(lname, fst it)])) (cr_items d).

(** The snapshot was read from the counters in this round. *)
Definition snap_read (d : cround) : Prop := NoDup (map fst (cr_snap d)) /\ Forall (fun nv : bytes * Z => reads (cr_log d) (fst nv) (snd nv)) (cr_snap d).
(** The items are told apart, and their numbers do not decrease from round to round. *)
Definition items_grow (ds : list cround) : Prop :=
  Forall (fun d => NoDup (map fst (cr_items d))) ds /\
  forall k k' d d' tag v v', (k < k')%nat -> nth_error ds k = Some d -> nth_error ds k' = Some d' ->
    In (tag, v) (cr_items d) -> In (tag, v') (cr_items d') -> v <= v'.
(** All numbers fit in an int64. *)
Definition fit63 (ds : list cround) : Prop := forall d n v, In d ds -> In (n, v) (cr_snap d) \/ In (n, v) (cr_items d) -> 0 <= v < 2 ^ 63.

Lemma comp_states labels cname lname d r name ls v : (forall n x, In (n, x) (cr_snap d) \/ In (n, x) (cr_items d) -> 0 <= x < 2 ^ 63) ->
  In r (comp_reports labels cname lname d) -> states r name ls v ->
  0 <= v < 2 ^ 63 /\
  ((In (name, v) (cr_snap d) /\ Permutation labels ls) \/
   (exists tag, In (tag, v) (cr_items d) /\ Permutation (labels ++ [(lname, tag)]) ls)).
Proof.
  intros Bd [<-|Hr] St.
  - cbn [states] in St. destruct St as (Hi & P). split; [apply (Bd name); left; exact Hi|]. left. auto.
  - apply in_map_iff in Hr as ((tag & x) & <- & Hi). cbn [states fst snd] in St. destruct St as (_ & <- & P).
    assert (R := Bd tag x (or_intror Hi)). rewrite (wrap_small x R). split; [exact R|]. right. exists tag. auto.
Qed.
Lemma perm_longer {A} (l l' : list A) x : Permutation l l' -> Permutation (l ++ [x]) l' -> False.
Proof. intros P Q. apply Permutation_length in P, Q. rewrite app_length in Q. cbn in Q. lia. Qed.
Lemma nth_NoDup_fst {A B} : forall (l : list (A * B)) i j x y, NoDup (map fst l) -> nth_error l i = Some x -> nth_error l j = Some y -> fst x = fst y -> i = j.
Proof.
  intros l i j x y N Hi Hj E. apply (proj1 (NoDup_nth_error (map fst l)) N).
  - rewrite map_length. apply nth_error_Some. congruence.
  - rewrite !nth_error_map, Hi, Hj. cbn. congruence.
Qed.
Lemma comp_once labels cname lname d i j r r' name ls v v' : NoDup (map fst (cr_items d)) ->
  nth_error (comp_reports labels cname lname d) i = Some r -> nth_error (comp_reports labels cname lname d) j = Some r' ->
  states r name ls v -> states r' name ls v' -> i = j.
Proof.
  intros Nd. unfold comp_reports. destruct i as [|i], j as [|j]; cbn [nth_error]; intros Hi Hj S1 S2.
  - reflexivity.
  - exfalso. inversion Hi; subst r. rewrite nth_error_map in Hj. destruct (nth_error (cr_items d) j) as [[tag x]|]; [|discriminate]. inversion Hj; subst r'.
    cbn [states fst snd] in *. exact (perm_longer _ _ _ (proj2 S1) (proj2 (proj2 S2))).
  - exfalso. inversion Hj; subst r'. rewrite nth_error_map in Hi. destruct (nth_error (cr_items d) i) as [[tag x]|]; [|discriminate]. inversion Hi; subst r.
    cbn [states fst snd] in *. exact (perm_longer _ _ _ (proj2 S2) (proj2 (proj2 S1))).
  - f_equal. rewrite nth_error_map in Hi, Hj. destruct (nth_error (cr_items d) i) as [[tag x]|] eqn:Ei; [|discriminate]. destruct (nth_error (cr_items d) j) as [[tag' x']|] eqn:Ej; [|discriminate].
    inversion Hi; subst r. inversion Hj; subst r'. cbn [states fst snd] in *. destruct S1 as (_ & _ & P), S2 as (_ & _ & P').
    assert (X := perm_last _ _ _ _ P P'). inversion X; subst tag'. exact (nth_NoDup_fst _ _ _ _ _ Nd Ei Ej eq_refl).
Qed.

Lemma component_growing names progs sched s labels cname lname ds : uint64_args progs ->
  run names progs sched = Some (s, concat (map cr_log ds)) -> in_range (concat (map cr_log ds)) ->
  Forall snap_read ds -> items_grow ds -> fit63 ds ->
  growing (concat (map (comp_reports labels cname lname) ds)) /\ small (concat (map (comp_reports labels cname lname) ds)).
Proof.
  intros U H B Rd (Nd & Ig) Bd. rewrite Forall_forall in Rd, Nd. split.
  - intros i j r r' name ls v v' Lt Hi Hj S1 S2.
    destruct (concat_two _ _ _ _ _ Lt Hi Hj) as (k & lk & Hk & [(i' & j' & Lt' & Hi' & Hj')|(k' & lk' & Lk & Hk' & Ix & Iy)]).
    + exfalso. rewrite nth_error_map in Hk. destruct (nth_error ds k) as [d|] eqn:Ed; [|discriminate]. inversion Hk; subst lk. apply nth_error_In in Ed.
      pose proof (comp_once labels cname lname d i' j' r r' name ls v v' (Nd d Ed) Hi' Hj' S1 S2). lia.
    + rewrite nth_error_map in Hk, Hk'. destruct (nth_error ds k) as [d|] eqn:Ed; [|discriminate]. destruct (nth_error ds k') as [d'|] eqn:Ed'; [|discriminate].
      inversion Hk; subst lk. inversion Hk'; subst lk'.
      assert (L1 : nth_error (map cr_log ds) k = Some (cr_log d)) by (rewrite nth_error_map, Ed; reflexivity).
      assert (L2 : nth_error (map cr_log ds) k' = Some (cr_log d')) by (rewrite nth_error_map, Ed'; reflexivity).
      destruct (concat_split2 _ _ _ _ _ Lk L1 L2) as (a & m & b & E).
      assert (Id := nth_error_In _ _ Ed). assert (Id' := nth_error_In _ _ Ed').
      destruct (comp_states labels cname lname d r name ls v (fun n x => Bd d n x Id) Ix S1) as (_ & W1).
      destruct (comp_states labels cname lname d' r' name ls v' (fun n x => Bd d' n x Id') Iy S2) as (_ & W2).
      rewrite E in H, B.
      destruct W1 as [(N1 & P1)|(t1 & N1 & P1)], W2 as [(N2 & P2)|(t2 & N2 & P2)].
      * destruct (Rd d Id) as (_ & F1), (Rd d' Id') as (_ & F2). rewrite Forall_forall in F1, F2. apply F1 in N1. apply F2 in N2. cbn [fst snd] in *.
        exact (reads_grow _ _ _ _ _ _ _ _ _ name v v' U H B N1 N2).
      * exfalso. exact (perm_longer _ _ _ P1 P2).
      * exfalso. exact (perm_longer _ _ _ P2 P1).
      * assert (X := perm_last _ _ _ _ P1 P2). inversion X; subst t2. exact (Ig k k' d d' t1 v v' Lk Ed Ed' N1 N2).
  - intros r name ls v Hr St. apply in_concat in Hr as (l & Hl & Hr). apply in_map_iff in Hl as (d & <- & Hd).
    exact (proj1 (comp_states labels cname lname d r name ls v (fun n x => Bd d n x Hd) Hr St)).
Qed.

Lemma component_answers gs names progs sched s labels cname lname ds e1 e2 : sorts gs -> uint64_args progs ->
  run names progs sched = Some (s, concat (map cr_log ds)) -> in_range (concat (map cr_log ds)) ->
  Forall snap_read ds -> items_grow ds -> fit63 ds ->
  events_ok (e1 ++ e2) -> some_of (reports (e1 ++ e2)) (concat (map (comp_reports labels cname lname) ds)) ->
  exists set1 outs a1 set2 mid a2 s1 s2,
    mon_run gs [] (map (devent_event gs) (e1 ++ [inr tt])) = Some (set1, outs ++ [a1]) /\
    mon_run gs [] (map (devent_event gs) ((e1 ++ [inr tt]) ++ e2 ++ [inr tt])) = Some (set2, (outs ++ [a1]) ++ mid ++ [a2]) /\
    a1 = page s1 /\ a2 = page s2 /\
    forall name ls v ms, In (Entry name ls v ms) s1 -> exists v' ms', In (Entry name ls v' ms') s2 /\ v <= v'.
Proof.
  intros Hs U H B Rd Ig Bd Ok So. destruct (component_growing names progs sched s labels cname lname ds U H B Rd Ig Bd) as (G & Sm).
  apply two_answers; [exact Hs|exact Ok|exact (growing_some _ _ So G)|exact (small_some _ _ So Sm)].
Qed.

(** ** Several components *)

(** [whole] is put together from the two lists, each in its order. *)
Inductive merge {A} : list A -> list A -> list A -> Prop :=
| mg_nil : merge [] [] []
| mg_left x a b w : merge a b w -> merge (x :: a) b (x :: w)
| mg_right x a b w : merge a b w -> merge a (x :: b) (x :: w).
(** No metric is reported by both. *)
Definition apart (a b : list report) : Prop :=
  forall r r' name ls v v', In r a -> In r' b -> states r name ls v -> states r' name ls v' -> False.

Lemma merge_In {A} (a b w : list A) x : merge a b w -> In x w -> In x a \/ In x b.
Proof. induction 1; cbn; intuition. Qed.
Lemma growing_cons r rs : growing rs -> (forall r' name ls v v', In r' rs -> states r name ls v -> states r' name ls v' -> v <= v') -> growing (r :: rs).
Proof.
  intros G F [|i] [|j] q q' name ls v v' Lt Hi Hj S1 S2; cbn in Hi, Hj; try lia.
  - inversion Hi; subst. apply nth_error_In in Hj. exact (F q' name ls v v' Hj S1 S2).
  - apply (G i j q q' name ls v v'); auto. lia.
Qed.
Lemma growing_uncons r rs : growing (r :: rs) -> forall r' name ls v v', In r' rs -> states r name ls v -> states r' name ls v' -> v <= v'.
Proof.
  intros G r' name ls v v' Hr S1 S2. apply In_nth_error in Hr as (k & Hk). apply (G O (S k) r r' name ls v v'); auto. lia.
Qed.
Lemma merge_growing a b w : merge a b w -> growing a -> growing b -> apart a b -> growing w.
Proof.
  induction 1 as [|x a b w M IH|x a b w M IH]; intros Ga Gb Ap; [exact Ga| |].
  - apply growing_cons.
    + apply IH; [exact (growing_tail _ _ Ga)|exact Gb|]. intros r r' n l v v' Hr. apply Ap. right. exact Hr.
    + intros r' n l v v' Hr S1 S2. destruct (merge_In _ _ _ _ M Hr) as [Ha|Hb].
      * exact (growing_uncons _ _ Ga r' n l v v' Ha S1 S2).
      * exfalso. exact (Ap x r' n l v v' (or_introl eq_refl) Hb S1 S2).
  - apply growing_cons.
    + apply IH; [exact Ga|exact (growing_tail _ _ Gb)|]. intros r r' n l v v' Ha Hb. apply (Ap r r' n l v v' Ha (or_intror Hb)).
    + intros r' n l v v' Hr S1 S2. destruct (merge_In _ _ _ _ M Hr) as [Ha|Hb].
      * exfalso. exact (Ap r' x n l v' v Ha (or_introl eq_refl) S2 S1).
      * exact (growing_uncons _ _ Gb r' n l v v' Hb S1 S2).
Qed.

(** Components that differ in one label. *)
Lemma comp_labels labels cname lname d r name ls v : In r (comp_reports labels cname lname d) -> states r name ls v ->
  Permutation labels ls \/ exists tag, Permutation (labels ++ [(lname, tag)]) ls.
Proof.
  intros [<-|Hr] St; [left; exact (proj2 St)|]. apply in_map_iff in Hr as ((tag & x) & <- & _). cbn [states fst snd] in St. right. exists tag. exact (proj2 (proj2 St)).
Qed.
Lemma comp_apart labels cname lname ds labels' cname' lname' ds' key x y : In (key, x) labels -> In (key, y) labels' -> x <> y ->
  (forall z, In (key, z) labels -> z = x) -> lname <> key ->
  apart (concat (map (comp_reports labels cname lname) ds)) (concat (map (comp_reports labels' cname' lname') ds')).
Proof.
  intros Hx Hy Ne Un Nk r r' name ls v v' Hr Hr' S1 S2.
  apply in_concat in Hr as (l & Hl & Hr). apply in_map_iff in Hl as (d & <- & _).
  apply in_concat in Hr' as (l' & Hl' & Hr'). apply in_map_iff in Hl' as (d' & <- & _).
  assert (Iy : In (key, y) ls).
  { destruct (comp_labels _ _ _ _ _ _ _ _ Hr' S2) as [P|(tag & P)]; apply (Permutation_in _ P); [exact Hy|apply in_app_iff; left; exact Hy]. }
  apply Ne. symmetry. destruct (comp_labels _ _ _ _ _ _ _ _ Hr S1) as [P|(tag & P)]; apply (Permutation_in _ (Permutation_sym P)) in Iy; [exact (Un y Iy)|].
  apply in_app_iff in Iy as [Iy|[Iy|[]]]; [exact (Un y Iy)|]. inversion Iy. contradiction.
Qed.
Lemma merge_small a b w : merge a b w -> small a -> small b -> small w.
Proof. intros M Sa Sb r n l v Hr. destruct (merge_In _ _ _ _ M Hr) as [H|H]; [exact (Sa r n l v H)|exact (Sb r n l v H)]. Qed.

(** Any number of sources of reports. *)
Inductive merges {A} : list (list A) -> list A -> Prop :=
| ms_nil : merges [] []
| ms_cons a ls w w' : merges ls w -> merge a w w' -> merges (a :: ls) w'.
Lemma merges_In {A} (ls : list (list A)) w x : merges ls w -> In x w -> exists l, In l ls /\ In x l.
Proof.
  induction 1 as [|a ls w w' M IH Mg]; intros Hx; [destruct Hx|]. destruct (merge_In _ _ _ _ Mg Hx) as [H|H].
  - exists a. split; [left; reflexivity|exact H].
  - destruct (IH H) as (l & Hl & Hx'). exists l. split; [right; exact Hl|exact Hx'].
Qed.
Lemma merges_growing (ls : list (list report)) w : merges ls w -> Forall growing ls -> ForallOrdPairs apart ls -> growing w.
Proof.
  induction 1 as [|a ls w w' M IH Mg]; intros G Ap.
  - intros i j r r' name l v v' _ Hi. destruct i; discriminate.
  - inversion G as [|? ? Ga Gs]; subst. inversion Ap as [|? ? Aa As]; subst. apply (merge_growing a w w' Mg Ga (IH Gs As)).
    intros r r' name l v v' Hr Hr' S1 S2. destruct (merges_In _ _ _ M Hr') as (b & Hb & Hr2). rewrite Forall_forall in Aa. exact (Aa b Hb r r' name l v v' Hr Hr2 S1 S2).
Qed.
Lemma merges_small (ls : list (list report)) w : merges ls w -> Forall small ls -> small w.
Proof. intros M F r n l v Hr. destruct (merges_In _ _ _ M Hr) as (b & Hb & Hr2). rewrite Forall_forall in F. exact (F b Hb r n l v Hr2). Qed.
Lemma deployment_answers gs sources all e1 e2 : sorts gs -> Forall growing sources -> Forall small sources -> ForallOrdPairs apart sources -> merges sources all ->
  events_ok (e1 ++ e2) -> some_of (reports (e1 ++ e2)) all ->
  exists set1 outs a1 set2 mid a2 s1 s2,
    mon_run gs [] (map (devent_event gs) (e1 ++ [inr tt])) = Some (set1, outs ++ [a1]) /\
    mon_run gs [] (map (devent_event gs) ((e1 ++ [inr tt]) ++ e2 ++ [inr tt])) = Some (set2, (outs ++ [a1]) ++ mid ++ [a2]) /\
    a1 = page s1 /\ a2 = page s2 /\
    forall name ls v ms, In (Entry name ls v ms) s1 -> exists v' ms', In (Entry name ls v' ms') s2 /\ v <= v'.
Proof.
  intros Hs G Sm Ap M Ok So. apply two_answers; [exact Hs|exact Ok|exact (growing_some _ _ So (merges_growing _ _ M G Ap))|exact (small_some _ _ So (merges_small _ _ M Sm))].
Qed.
