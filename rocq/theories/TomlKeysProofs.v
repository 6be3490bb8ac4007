(** Proofs for C116: the keys of a configuration file. *)
From Verif Require Import Base Text Convert Rules Config ConfigSpec NumSpec NumProofs Units TomlKeys.
Local Open Scope Z_scope.

(** ** Names and keys *)
Definition plain_char (c : ascii) : Prop := lowerc c = c /\ (bval c < 128)%N.
Lemma lower_cases c n : plain_char n -> lowerc c = n <-> c = n \/ ((97 <= bval n <= 122)%N /\ (bval c = bval n - 32)%N).
Proof.
  intros [Ln An]. unfold lowerc in *. destruct ((65 <=? bval c)%N && (bval c <=? 90)%N) eqn:E.
  - apply andb_true_iff in E. destruct E as [E1 E2]. apply N.leb_le in E1, E2. split.
    + intros <-. right. unfold bval in *. rewrite N_ascii_embedding by lia. lia.
    + intros [->|[H1 H2]].
      * rewrite <- Ln at 2. destruct ((65 <=? bval n)%N && (bval n <=? 90)%N) eqn:X; [reflexivity|].
        apply andb_false_iff in X. destruct X as [X|X]; apply N.leb_gt in X; lia.
      * rewrite H2. replace (bval n - 32 + 32)%N with (bval n) by lia. apply ascii_N_embedding.
  - split; [auto|]. intros [->|[H1 H2]]; [reflexivity|]. apply andb_false_iff in E. destruct E as [E|E]; apply N.leb_gt in E; lia.
Qed.

Lemma EqualFold_iff name : Forall plain_char name -> forall key, EqualFold name key = true <-> same_but_case name key.
Proof.
  induction name as [|n name IH]; intros F key.
  - destruct key; cbn; split; intros H; try discriminate; try constructor. inversion H.
  - inversion F as [|? ? Fn Fr]; subst. specialize (IH Fr). destruct key as [|c key]; [cbn; split; [discriminate|intros H; inversion H]|].
    cbn [EqualFold]. rewrite !orb_true_iff, !andb_true_iff. split.
    + intros [[[A B]|[[A B] D]]|[[A B] D]].
      * apply Ascii.eqb_eq in A. apply (lower_cases c n Fn) in A. apply IH in B. destruct A as [->|[A1 A2]]; [apply sc_same; exact B|apply sc_upper; assumption].
      * apply Ascii.eqb_eq in A, B. subst. destruct key as [|d key]; [discriminate D|]. apply andb_true_iff in D. destruct D as [D1 D2]. apply Ascii.eqb_eq in D1. subst.
        apply sc_long_s, IH. exact D2.
      * apply Ascii.eqb_eq in A, B. subst. destruct key as [|d [|e key]]; try discriminate D. apply andb_true_iff in D. destruct D as [D1 D2]. apply andb_true_iff in D1. destruct D1 as [D0 D1].
        apply Ascii.eqb_eq in D0, D1. subst. apply sc_kelvin, IH. exact D2.
    + intros H. inversion H as [|? ? ? B|? ? ? ? A1 A2 B|? ? B|? ? B]; subst.
      * left. left. split; [|apply IH; exact B]. apply Ascii.eqb_eq. apply (lower_cases c c Fn). left. reflexivity.
      * left. left. split; [|apply IH; exact B]. apply Ascii.eqb_eq. apply (lower_cases c n Fn). right. split; assumption.
      * left. right. split; [split; reflexivity|]. apply andb_true_iff. split; [reflexivity|apply IH; exact B].
      * right. split; [split; reflexivity|]. apply andb_true_iff. split; [reflexivity|apply IH; exact B].
Qed.
Lemma same_refl name : same_but_case name name.
Proof. induction name; [constructor|apply sc_same; assumption]. Qed.
Lemma same_inj n1 k : same_but_case n1 k -> forall n2, Forall plain_char n1 -> Forall plain_char n2 -> same_but_case n2 k -> n1 = n2.
Proof.
  assert (Hi : forall c, plain_char c -> c = "197"%char \/ c = "226"%char -> False).
  { intros c [_ A] [->| ->]; vm_compute in A; discriminate A. }
  assert (Up : forall c d, plain_char d -> (97 <= bval c <= 122)%N -> (bval d = bval c - 32)%N -> False).
  { intros c d [L A] R E. unfold lowerc in L. replace ((65 <=? bval d)%N && (bval d <=? 90)%N) with true in L by (symmetry; apply andb_true_iff; split; apply N.leb_le; lia).
    apply (f_equal bval) in L. unfold bval at 1 in L. rewrite N_ascii_embedding in L by lia. lia. }
  assert (Fix : forall c, (97 <= bval c <= 122)%N -> forall d, (bval d = bval c - 32)%N -> d = "197"%char \/ d = "226"%char -> False).
  { intros c R d E [->| ->]; [change (bval "197"%char) with 197%N in E|change (bval "226"%char) with 226%N in E]; lia. }
  induction 1 as [|c n k H IH|c d n k R E H IH|n k H IH|n k H IH]; intros n2 F1 F2 H2; [inversion H2; reflexivity|..];
    inversion F1 as [|? ? P1 Q1]; subst; inversion H2 as [|c2 m2 k2 H2'|c2 d2 m2 k2 R2 E2 H2'|m2 k2 H2'|m2 k2 H2']; subst; inversion F2 as [|? ? P2 Q2]; subst;
    try (exfalso; first [exact (Hi _ P1 (or_introl eq_refl))|exact (Hi _ P1 (or_intror eq_refl))|exact (Hi _ P2 (or_introl eq_refl))|exact (Hi _ P2 (or_intror eq_refl))]);
    try (exfalso; first [exact (Up _ _ P1 R2 E2)|exact (Up _ _ P2 R E)]);
    try (exfalso; first [exact (Fix _ R _ E (or_introl eq_refl))|exact (Fix _ R _ E (or_intror eq_refl))|exact (Fix _ R2 _ E2 (or_introl eq_refl))|exact (Fix _ R2 _ E2 (or_intror eq_refl))]);
    try discriminate; try (f_equal; apply IH; assumption).
  - f_equal; [|apply IH; assumption]. assert (X : bval c = bval c2) by lia. rewrite <- (ascii_N_embedding c), <- (ascii_N_embedding c2). unfold bval in X. rewrite X. reflexivity.
Qed.

Lemma find_some_iff {A} (names : list (bytes * A)) (P : bytes -> bytes -> bool) key a :
  (forall n a1, In (n, a1) names -> forall n' a2, In (n', a2) names -> P n key = true -> P n' key = true -> a1 = a2) ->
  option_map snd (find (fun f => P (fst f) key) names) = Some a <-> exists n, In (n, a) names /\ P n key = true.
Proof.
  intros U. destruct (find (fun f => P (fst f) key) names) as [[n b]|] eqn:E; cbn [option_map snd].
  - apply find_some in E. destruct E as [E1 E2]. cbn [fst] in E2. split.
    + intros H. inversion H; subst. exists n. auto.
    + intros (n' & H1 & H2). rewrite (U n b E1 n' a H1 E2 H2). reflexivity.
  - split; [discriminate|]. intros (n & H1 & H2). apply (find_none _ _ E) in H1. cbn [fst] in H1. congruence.
Qed.
Lemma field_iff {A} (names : list (bytes * A)) key a : Forall (fun f => Forall plain_char (fst f)) names -> NoDup (map fst names) ->
  field names key = Some a <-> exists n, In (n, a) names /\ same_but_case n key.
Proof.
  intros Pl Nd. rewrite Forall_forall in Pl.
  assert (Pn : forall n b, In (n, b) names -> Forall plain_char n) by (intros n b J; exact (Pl (n, b) J)).
  assert (Fu : forall n b1 b2, In (n, b1) names -> In (n, b2) names -> b1 = b2).
  { clear Pl Pn. induction names as [|[m b] names IH]; intros n b1 b2 J1 J2; [destruct J1|]. cbn [map fst] in Nd. inversion Nd as [|? ? Ni Nd']; subst.
    destruct J1 as [J1|J1], J2 as [J2|J2]; try (inversion J1; subst); try (inversion J2; subst); try reflexivity.
    - exfalso. apply Ni. apply in_map_iff. exists (n, b2). auto.
    - exfalso. apply Ni. apply in_map_iff. exists (n, b1). auto.
    - exact (IH Nd' n b1 b2 J1 J2). }
  assert (Uf : forall n a1, In (n, a1) names -> forall n' a2, In (n', a2) names -> same_but_case n key -> same_but_case n' key -> a1 = a2).
  { intros n a1 J1 n' a2 J2 H1 H2. pose proof (same_inj n key H1 n' (Pn _ _ J1) (Pn _ _ J2) H2). subst n'. exact (Fu n a1 a2 J1 J2). }
  assert (X : field names key = match option_map snd (find (fun f => beqs (fst f) key) names) with Some b => Some b
    | None => option_map snd (find (fun f => EqualFold (fst f) key) names) end).
  { unfold field. destruct (find (fun f => beqs (fst f) key) names) as [[? ?]|]; [reflexivity|]. destruct (find _ names) as [[? ?]|]; reflexivity. }
  rewrite X. clear X.
  pose proof (find_some_iff names beqs key) as E1. pose proof (find_some_iff names EqualFold key) as E2.
  assert (H1 : forall b, option_map snd (find (fun f => beqs (fst f) key) names) = Some b <-> exists n, In (n, b) names /\ beqs n key = true).
  { intros b. apply E1. intros n a1 J1 n' a2 J2 B1 B2. apply beqs_eq in B1, B2. subst. exact (Fu _ _ _ J1 J2). }
  assert (H2 : forall b, option_map snd (find (fun f => EqualFold (fst f) key) names) = Some b <-> exists n, In (n, b) names /\ EqualFold n key = true).
  { intros b. apply E2. intros n a1 J1 n' a2 J2 B1 B2. apply (EqualFold_iff n (Pn _ _ J1)) in B1. apply (EqualFold_iff n' (Pn _ _ J2)) in B2. exact (Uf n a1 J1 n' a2 J2 B1 B2). }
  clear E1 E2. destruct (option_map snd (find (fun f => beqs (fst f) key) names)) as [b|].
  - destruct (proj1 (H1 b) eq_refl) as (n & J & E). apply beqs_eq in E. subst n. split.
    + intros X. inversion X; subst. exists key. split; [exact J|apply same_refl].
    + intros (n & J' & Sc). rewrite (Uf key b J n a J' (same_refl key) Sc). reflexivity.
  - rewrite H2. split; intros (n & J & Sc); exists n; (split; [exact J|]); apply (EqualFold_iff n (Pn _ _ J)); exact Sc.
Qed.
Lemma plain_names : Forall (fun f : bytes * opt => Forall plain_char (fst f)) option_names /\ Forall (fun f : bytes * ropt => Forall plain_char (fst f)) rule_names.
Proof. split; repeat constructor. Qed.
Fixpoint distinctb (l : list bytes) : bool := match l with [] => true | x :: r => negb (existsb (beqs x) r) && distinctb r end.
Lemma distinctb_nodup l : distinctb l = true -> NoDup l.
Proof.
  induction l as [|x l IH]; intros H; [constructor|]. cbn [distinctb] in H. apply andb_true_iff in H. destruct H as [H1 H2]. constructor; [|exact (IH H2)].
  intros J. apply negb_true_iff in H1. rewrite <- not_true_iff_false in H1. apply H1. apply existsb_exists. exists x. split; [exact J|apply beqs_refl].
Qed.
Lemma distinct_names : NoDup (map fst option_names) /\ NoDup (map fst rule_names).
Proof. split; apply distinctb_nodup; vm_compute; reflexivity. Qed.
Lemma means_iff key o : field option_names key = Some o <-> means key o.
Proof. apply field_iff; [apply plain_names|apply distinct_names]. Qed.
Lemma means_one key o o' : means key o -> means key o' -> o = o'.
Proof. intros H H'. apply means_iff in H, H'. congruence. Qed.
Lemma means_none key : field option_names key = None <-> forall o, ~ means key o.
Proof.
  split.
  - intros E o H. apply means_iff in H. congruence.
  - intros N. destruct (field option_names key) as [o|] eqn:E; [|reflexivity]. apply means_iff in E. destruct (N o E).
Qed.

(** ** The types of the options *)
Lemma all_iff {A B} (f : A -> option B) l ys : all f l = Some ys <-> Forall2 (fun x y => f x = Some y) l ys.
Proof.
  revert ys. induction l as [|x l IH]; intros ys; cbn [all].
  - split; [intros E; inversion E; constructor|intros H; inversion H; reflexivity].
  - destruct (f x) as [y|] eqn:E; [|split; [discriminate|intros H; inversion H; congruence]].
    destruct (all f l) as [zs|].
    + split.
      * intros X. inversion X; subst. constructor; [exact E|]. apply IH. reflexivity.
      * intros H. inversion H as [|? ? ? w ? H1]; subst. apply IH in H1. congruence.
    + split; [discriminate|]. intros H. inversion H as [|? ? ? w ? H1]; subst. apply IH in H1. discriminate H1.
Qed.
Lemma uStrings_iff v l : uStrings v = Some l <-> v = TArr (map TStr l).
Proof.
  unfold uStrings, uSlice. destruct v; try (split; [discriminate|intros H; inversion H]; fail). rewrite all_iff. split.
  - intros H. f_equal. induction H as [|x y l0 l' E H IH]; [reflexivity|]. cbn [map]. rewrite IH. f_equal. destruct x; inversion E; reflexivity.
  - intros H. inversion H; subst. induction l as [|x l IH]; constructor; [reflexivity|]. apply IH. reflexivity.
Qed.
Lemma uRules_iff v ps : uRules v = Some ps <-> exists l, v = TArr (map TTab l) /\ Forall2 (fun t p => uRule (TTab t) = Some p) l ps.
Proof.
  unfold uRules, uSlice. destruct v as [| | | |l0|]; try (split; [discriminate|intros (? & H & ?); inversion H]; fail). rewrite all_iff. split.
  - intros H. induction H as [|x y l l' E H (m & IH1 & IH2)]; [exists []; split; [reflexivity|constructor]|].
    destruct x as [| | | | |t]; try discriminate E. exists (t :: m). split; [cbn [map]; inversion IH1; reflexivity|constructor; [exact E|exact IH2]].
  - intros (l & H & F). inversion H; subst. clear H. induction F as [|t p l ps E F IH]; constructor; assumption.
Qed.
Lemma types frac o v : valueFor frac o v = true <-> is_a frac (kind_of o) v.
Proof.
  assert (St : some_of_type (uString v) = true <-> exists s, v = TStr s) by (destruct v; cbn; split; try discriminate; try (intros (? & E); inversion E); eauto).
  assert (It : some_of_type (uInt v) = true <-> exists n, v = TInt n) by (destruct v; cbn; split; try discriminate; try (intros (? & E); inversion E); eauto).
  assert (Bo : some_of_type (uBool v) = true <-> exists b, v = TBool b) by (destruct v; cbn; split; try discriminate; try (intros (? & E); inversion E); eauto).
  assert (Sl : some_of_type (uStrings v) = true <-> exists l, v = TArr (map TStr l)).
  { destruct (uStrings v) as [l|] eqn:E; cbn [some_of_type].
    - apply uStrings_iff in E. split; eauto.
    - split; [discriminate|]. intros (l & H). apply uStrings_iff in H. congruence. }
  assert (Sz : some_of_type (uSize v) = true <-> exists s n, textOf v = Some s /\ UnmarshalSize s = Some n).
  { unfold uSize. destruct (textOf v) as [s|]; [|split; [discriminate|intros (? & ? & E & ?); discriminate]].
    destruct (UnmarshalSize s) as [n|] eqn:E; cbn [some_of_type].
    - split; [eauto|reflexivity].
    - split; [discriminate|]. intros (s' & n & X & Y). inversion X; subst. congruence. }
  assert (Du : some_of_type (uDuration frac v) = true <-> exists s d, textOf v = Some s /\ ParseDuration frac s = Some d).
  { unfold uDuration. destruct (textOf v) as [s|]; [|split; [discriminate|intros (? & ? & E & ?); discriminate]].
    destruct (ParseDuration frac s) as [n|] eqn:E; cbn [some_of_type].
    - split; [eauto|reflexivity].
    - split; [discriminate|]. intros (s' & n & X & Y). inversion X; subst. congruence. }
  assert (Ru : some_of_type (uRules v) = true <-> exists l, v = TArr (map TTab l) /\ Forall (fun t => uRule (TTab t) <> None) l).
  { destruct (uRules v) as [ps|] eqn:E; cbn [some_of_type].
    - apply uRules_iff in E. destruct E as (l & -> & F). split; [intros _; exists l; split; [reflexivity|]|reflexivity].
      clear -F. induction F as [|t p l ps E F IH]; [constructor|]. refine (Forall_cons _ _ IH). congruence.
    - split; [discriminate|]. intros (l & -> & F). exfalso. revert E. clear -F. intros E.
      assert (X : exists ps, Forall2 (fun t p => uRule (TTab t) = Some p) l ps).
      { clear E. induction F as [|t l N F IH]; [exists []; constructor|]. destruct IH as (ps & IH).
        destruct (uRule (TTab t)) as [p|] eqn:P; [|congruence]. exists (p :: ps). constructor; assumption. }
      destruct X as (ps & X). assert (Y : uRules (TArr (map TTab l)) = Some ps) by (apply uRules_iff; eauto). congruence. }
  destruct o; cbn [valueFor kind_of is_a]; assumption.
Qed.

(** ** Tables *)
Section Decode.
  Variable frac : Z -> nat -> Z -> Z.
  Notation opts := (options frac).
  Notation dkey := (decode_key frac).
  Notation dtab := (decode_table frac).

  Lemma options_ext g g' : (forall o, g o = g' o) -> opts g = opts g'.
  Proof. intros E. unfold options, at_option. rewrite !E. reflexivity. Qed.
  Definition add (g : opt -> option tval) (o : opt) (v : tval) : opt -> option tval := fun o' => if opt_eq_dec o o' then Some v else g o'.
  Definition or {A} (a b : option A) : option A := match a with Some _ => a | None => b end.
  Lemma override_or {A} (a b : option A) d : override a (override b d) = override (or a b) d.
  Proof. destruct a, b; reflexivity. Qed.
  Definition join (p q : pfile) : pfile := {| p_name := or (p_name p) (p_name q); p_mode := or (p_mode p) (p_mode q); p_nats_address := or (p_nats_address p) (p_nats_address q); p_subjects := or (p_subjects p) (p_subjects q); p_subject_monitor := or (p_subject_monitor p) (p_subject_monitor q); p_subject_junk := or (p_subject_junk p) (p_subject_junk q); p_db_address := or (p_db_address p) (p_db_address q); p_db_protocol := or (p_db_protocol p) (p_db_protocol q); p_db_port := or (p_db_port p) (p_db_port q); p_db_name := or (p_db_name p) (p_db_name q); p_batch_count := or (p_batch_count p) (p_batch_count q); p_batch_size := or (p_batch_size p) (p_batch_size q); p_batch_age := or (p_batch_age p) (p_batch_age q); p_port := or (p_port p) (p_port q); p_workers := or (p_workers p) (p_workers q); p_write_timeout := or (p_write_timeout p) (p_write_timeout q); p_retry_batches := or (p_retry_batches p) (p_retry_batches q); p_retry_interval := or (p_retry_interval p) (p_retry_interval q); p_retry_timeout := or (p_retry_timeout p) (p_retry_timeout q); p_read_buffer := or (p_read_buffer p) (p_read_buffer q); p_max_pending := or (p_max_pending p) (p_max_pending q); p_rules := or (p_rules p) (p_rules q); p_max_time_delta := or (p_max_time_delta p) (p_max_time_delta q); p_stats_interval := or (p_stats_interval p) (p_stats_interval q); p_probe_port := or (p_probe_port p) (p_probe_port q); p_pprof_port := or (p_pprof_port p) (p_pprof_port q); p_debug := or (p_debug p) (p_debug q); p_period := or (p_period p) (p_period q); p_suffix := or (p_suffix p) (p_suffix q); p_queue_group := or (p_queue_group p) (p_queue_group q) |}.
  Lemma decode_join p q c : p_rules p = None \/ p_rules q = None -> decode toml_rules p (decode toml_rules q c) = decode toml_rules (join p q) c.
  Proof.
    intros E. unfold decode, join.
    cbn [p_name p_mode p_nats_address p_subjects p_subject_monitor p_subject_junk p_db_address p_db_protocol p_db_port p_db_name p_batch_count p_batch_size p_batch_age p_port p_workers p_write_timeout p_retry_batches p_retry_interval p_retry_timeout p_read_buffer p_max_pending p_rules p_max_time_delta p_stats_interval p_probe_port p_pprof_port p_debug p_period p_suffix p_queue_group
        c_name c_mode c_nats_address c_subjects c_subject_monitor c_subject_junk c_db_address c_db_protocol c_db_port c_db_user c_db_pass c_db_name c_batch_count c_batch_size c_batch_age c_port c_workers c_write_timeout
        c_retry_batches c_retry_interval c_retry_timeout c_read_buffer c_max_pending c_rules c_max_time_delta c_stats_interval c_probe_port c_pprof_port c_debug c_period c_suffix c_queue_group].
    rewrite !override_or. destruct E as [E|E]; rewrite E; [reflexivity|]. destruct (p_rules p); reflexivity.
  Qed.
  Lemma at_add {A} (u : tval -> option A) g o v o' : g o = None -> or (at_option u (only o v) o') (at_option u g o') = at_option u (add g o v) o'.
  Proof. intros E. unfold at_option, only, add, or. destruct (opt_eq_dec o o') as [<-|N]; [rewrite E|]; [destruct (u v)|]; reflexivity. Qed.
  Lemma one_more g o v c : g o = None -> decode toml_rules (opts (only o v)) (decode toml_rules (opts g) c) = decode toml_rules (opts (add g o v)) c.
  Proof.
    intros E. rewrite decode_join.
    - f_equal. unfold join, options. cbn [p_name p_mode p_nats_address p_subjects p_subject_monitor p_subject_junk p_db_address p_db_protocol p_db_port p_db_name p_batch_count p_batch_size p_batch_age p_port p_workers p_write_timeout p_retry_batches p_retry_interval p_retry_timeout p_read_buffer p_max_pending p_rules p_max_time_delta p_stats_interval p_probe_port p_pprof_port p_debug p_period p_suffix p_queue_group]. rewrite !(fun A u o' => @at_add A u g o v o' E). reflexivity.
    - unfold options, at_option, only. cbn [p_rules]. destruct (opt_eq_dec o ORule) as [->|N]; [right; rewrite E; reflexivity|left; reflexivity].
  Qed.

  (** The value a table has for an option. *)
  Fixpoint value_of (t : table) (o : opt) : option tval :=
    match t with
    | [] => None
    | (k, v) :: r => match field option_names k with
                     | Some o' => if opt_eq_dec o' o then Some v else value_of r o
                     | None => value_of r o
                     end
    end.

  Definition typed_here (t : table) : Prop := forall k v o, In (k, v) t -> means k o -> valueFor frac o v = true.
  Lemma unambiguous_tail kv t : unambiguous (kv :: t) -> unambiguous t.
  Proof. intros U a k v b k' v' c o E. apply (U (kv :: a) k v b k' v' c o). rewrite E. reflexivity. Qed.
  Lemma unambiguous_head k v t o : unambiguous ((k, v) :: t) -> means k o -> forall w, ~ sets t o w.
  Proof. intros U M w (k' & J & M'). apply in_split in J. destruct J as (b & c & ->). exact (U [] k v b k' w c o eq_refl M M'). Qed.
  Lemma value_of_iff t o v : unambiguous t -> value_of t o = Some v <-> sets t o v.
  Proof.
    induction t as [|[k w] t IH]; intros U.
    - cbn. split; [discriminate|intros (k & [] & _)].
    - specialize (IH (unambiguous_tail _ _ U)). cbn [value_of]. destruct (field option_names k) as [o'|] eqn:F.
      + apply means_iff in F. destruct (opt_eq_dec o' o) as [->|N].
        * split; [intros E; inversion E; subst; exists k; split; [left; reflexivity|exact F]|].
          intros (k' & [J|J] & M); [inversion J; reflexivity|]. destruct (unambiguous_head k w t o U F v). exists k'. auto.
        * rewrite IH. split; intros (k' & J & M); exists k'; (split; [|exact M]); [right; exact J|]. destruct J as [J|J]; [|exact J].
          inversion J; subst. destruct (N (means_one _ _ _ F M)).
      + rewrite IH. split; intros (k' & J & M); exists k'; (split; [|exact M]); [right; exact J|]. destruct J as [J|J]; [|exact J].
        inversion J; subst. apply means_iff in M. congruence.
  Qed.
  Lemma value_of_none t o : unambiguous t -> (forall v, ~ sets t o v) -> value_of t o = None.
  Proof. intros U N. destruct (value_of t o) as [v|] eqn:E; [|reflexivity]. apply (value_of_iff t o v U) in E. destruct (N v E). Qed.

  Definition over (g h : opt -> option tval) : opt -> option tval := fun o => or (h o) (g o).
  Lemma decode_from t : unambiguous t -> forall g c, (forall o v, sets t o v -> g o = None) ->
    (typed_here t -> dtab t (decode toml_rules (opts g) c) = Some (decode toml_rules (opts (over g (value_of t))) c)) /\
    (~ typed_here t -> dtab t (decode toml_rules (opts g) c) = None).
  Proof.
    induction t as [|[k v] t IH]; intros U g c G.
    - cbn [decode_table]. split; [intros _; f_equal; f_equal; apply options_ext; intros o; reflexivity|]. intros N. destruct N. intros ? ? ? [].
    - pose proof (unambiguous_tail _ _ U) as U'. cbn [decode_table]. unfold decode_key. cbn [fst snd].
      destruct (field option_names k) as [o|] eqn:F.
      + apply means_iff in F. assert (Go : g o = None) by (apply (G o v); exists k; split; [left; reflexivity|exact F]).
        assert (Nt : forall w, ~ sets t o w) by exact (unambiguous_head k v t o U F).
        assert (W : typed_here ((k, v) :: t) <-> valueFor frac o v = true /\ typed_here t).
        { split.
          - intros W. split; [exact (W k v o (or_introl eq_refl) F)|]. intros k' v' o' J. exact (W k' v' o' (or_intror J)).
          - intros [V W] k' v' o' [J|J] M; [|exact (W k' v' o' J M)]. inversion J; subst. rewrite (means_one _ _ _ M F). exact V. }
        destruct (valueFor frac o v) eqn:V; [|split; [intros X; apply W in X; destruct X; discriminate|reflexivity]].
        rewrite (one_more g o v c Go). destruct (IH U' (add g o v) c) as [IH1 IH2].
        { intros o' w S. unfold add. destruct (opt_eq_dec o o') as [<-|N]; [destruct (Nt w S)|]. apply (G o' w). destruct S as (k' & J & M). exists k'. split; [right; exact J|exact M]. }
        split.
        * intros X. apply W in X. rewrite (IH1 (proj2 X)). f_equal. f_equal. apply options_ext. intros o'. unfold over, add. cbn [value_of].
          apply means_iff in F. rewrite F. destruct (opt_eq_dec o o') as [<-|N]; [|reflexivity]. rewrite (value_of_none t o U' Nt). reflexivity.
        * intros X. apply IH2. intros Y. apply X, W. auto.
      + assert (W : typed_here ((k, v) :: t) <-> typed_here t).
        { split.
          - intros W k' v' o' J. exact (W k' v' o' (or_intror J)).
          - intros W k' v' o' [J|J] M; [|exact (W k' v' o' J M)]. inversion J; subst. apply means_iff in M. congruence. }
        destruct (IH U' g c) as [IH1 IH2].
        { intros o w (k' & J & M). apply (G o w). exists k'. split; [right; exact J|exact M]. }
        split.
        * intros X. rewrite (IH1 (proj1 W X)). f_equal. f_equal. apply options_ext. intros o'. unfold over. cbn [value_of]. rewrite F. reflexivity.
        * intros X. apply IH2. intros Y. apply X, W, Y.
  Qed.
  Lemma decode_none c : decode toml_rules (opts (fun _ => None)) c = c.
  Proof. destruct c. reflexivity. Qed.
  Lemma decode_iff t c c' : unambiguous t ->
    dtab t c = Some c' <-> typed_here t /\ c' = decode toml_rules (opts (value_of t)) c.
  Proof.
    intros U. destruct (decode_from t U (fun _ => None) c) as [D1 D2]; [reflexivity|]. rewrite decode_none in D1, D2.
    assert (E : opts (over (fun _ => None) (value_of t)) = opts (value_of t)).
    { apply options_ext. intros o. unfold over, or. destruct (value_of t o); reflexivity. }
    rewrite E in D1. destruct (dtab t c) as [c1|] eqn:X.
    - assert (W' : typed_here t).
      { intros k v o J M. destruct (valueFor frac o v) eqn:V; [reflexivity|]. exfalso.
        assert (N : ~ typed_here t) by (intros Y; rewrite (Y k v o J M) in V; discriminate). specialize (D2 N). discriminate D2. }
      specialize (D1 W'). split.
      + intros Z. split; [exact W'|]. congruence.
      + intros [_ ->]. exact D1.
    - split; [discriminate|]. intros [W ->]. specialize (D1 W). discriminate D1.
  Qed.

  (** Order and unknown keys. *)
  Lemma sets_perm t t' o v : Permutation t t' -> sets t o v -> sets t' o v.
  Proof. intros P (k & J & M). exists k. split; [exact (Permutation_in _ P J)|exact M]. Qed.
  Definition meaning (t : table) : list opt := flat_map (fun kv : bytes * tval => match field option_names (fst kv) with Some o => [o] | None => [] end) t.
  Lemma unambiguous_nodup t : unambiguous t <-> NoDup (meaning t).
  Proof.
    induction t as [|[k v] t IH].
    - split; [intros _; constructor|]. intros _ a k v b k' v' c o E. destruct a; discriminate E.
    - unfold meaning. cbn [flat_map fst]. fold (meaning t). destruct (field option_names k) as [o|] eqn:F; cbn [app].
      + split.
        * intros U. constructor; [|apply IH; exact (unambiguous_tail _ _ U)]. intros J. apply in_flat_map in J. destruct J as ([k' v'] & J & M). cbn [fst] in M.
          destruct (field option_names k') as [o'|] eqn:F'; [|destruct M]. destruct M as [->|[]]. apply means_iff in F, F'. apply (unambiguous_head k v t o U F v'). exists k'. auto.
        * intros Nd. inversion Nd as [|? ? Ni Nd']; subst. apply IH in Nd'. intros a k1 v1 b k2 v2 c o1 E M1 M2. destruct a as [|kv a]; cbn [app] in E; inversion E; subst; [|exact (Nd' a k1 v1 b k2 v2 c o1 eq_refl M1 M2)].
          apply means_iff in M1, M2. rewrite F in M1. inversion M1; subst. apply Ni. apply in_flat_map. exists (k2, v2). split; [apply in_or_app; right; left; reflexivity|]. cbn [fst]. rewrite M2. left. reflexivity.
      + rewrite <- IH. split; [apply unambiguous_tail|]. intros U a k1 v1 b k2 v2 c o1 E M1 M2. destruct a as [|kv a]; cbn [app] in E; inversion E; subst.
        * apply means_iff in M1. congruence.
        * exact (U a k1 v1 b k2 v2 c o1 eq_refl M1 M2).
  Qed.
  Lemma unambiguous_perm t t' : Permutation t t' -> unambiguous t -> unambiguous t'.
  Proof.
    intros P U. apply unambiguous_nodup in U. apply unambiguous_nodup. refine (Permutation_NoDup _ U). unfold meaning. apply Permutation_flat_map. exact P.
  Qed.
  Lemma any_order t t' c : unambiguous t -> Permutation t t' -> dtab t c = dtab t' c.
  Proof.
    intros U P. pose proof (unambiguous_perm t t' P U) as U'.
    assert (W : typed_here t <-> typed_here t').
    { split; intros W k v o J M; apply (W k v o); try exact M; [exact (Permutation_in _ (Permutation_sym P) J)|exact (Permutation_in _ P J)]. }
    assert (V : opts (value_of t) = opts (value_of t')).
    { apply options_ext. intros o. destruct (value_of t o) as [v|] eqn:E.
      - symmetry. apply (value_of_iff t' o v U'). apply (sets_perm t t' o v P). apply (value_of_iff t o v U). exact E.
      - symmetry. apply (value_of_none t' o U'). intros v S. apply (sets_perm t' t o v (Permutation_sym P)) in S. apply (value_of_iff t o v U) in S. congruence. }
    destruct (dtab t c) as [c1|] eqn:E.
    - apply (decode_iff t c c1 U) in E. destruct E as [E1 E2]. symmetry. apply (decode_iff t' c c1 U'). rewrite <- V. split; [apply W; exact E1|exact E2].
    - destruct (dtab t' c) as [c1|] eqn:E'; [|reflexivity]. apply (decode_iff t' c c1 U') in E'. destruct E' as [E1 E2]. rewrite <- V in E2.
      assert (X : dtab t c = Some c1) by (apply (decode_iff t c c1 U); split; [apply W; exact E1|exact E2]). congruence.
  Qed.
  Lemma table_app a b : forall c, dtab (a ++ b) c = match dtab a c with Some c1 => dtab b c1 | None => None end.
  Proof. induction a as [|kv a IH]; intros c; cbn [app decode_table]; [reflexivity|]. destruct (dkey c kv); [apply IH|reflexivity]. Qed.
  Lemma ignored a k v b c : (forall o, ~ means k o) -> dtab (a ++ (k, v) :: b) c = dtab (a ++ b) c.
  Proof.
    intros N. apply means_none in N. rewrite !table_app. destruct (dtab a c) as [c1|]; [|reflexivity]. cbn [decode_table]. unfold decode_key. cbn [fst]. rewrite N. reflexivity.
  Qed.
  Lemma wrong_type t c k v o : In (k, v) t -> means k o -> valueFor frac o v = false -> dtab t c = None.
  Proof.
    intros J M V. apply in_split in J. destruct J as (a & b & ->). rewrite table_app. destruct (dtab a c) as [c1|]; [|reflexivity].
    cbn [decode_table]. unfold decode_key. cbn [fst snd]. apply means_iff in M. rewrite M, V. reflexivity.
  Qed.

  (** Loading. *)
  Lemma load_tables common t fn u p : (match common with Some g => unambiguous g /\ typed_here g | None => True end) -> unambiguous t -> typed_here t ->
    LoadTables frac common t fn u p =
    NewConfigFromFile toml_rules (match common with Some g => FOk (opts (value_of g)) | None => FAbsent end) (FOk (opts (value_of t))) fn u p.
  Proof.
    intros G U W. unfold LoadTables, NewConfigFromFile.
    assert (D : forall c, dtab t c = Some (decode toml_rules (opts (value_of t)) c)) by (intros c; apply decode_iff; auto).
    destruct common as [g|].
    - destruct G as [Ug Wg]. replace (dtab g newDefaultConfig) with (Some (decode toml_rules (opts (value_of g)) newDefaultConfig)) by (symmetry; apply decode_iff; auto).
      rewrite D. reflexivity.
    - rewrite D. reflexivity.
  Qed.
  Lemma load_refused common t fn u p : (match common with Some g => ~ typed_here g /\ unambiguous g | None => False end) \/ unambiguous t /\ ~ typed_here t ->
    LoadTables frac common t fn u p = LoadErr.
  Proof.
    intros H. unfold LoadTables.
    assert (N : forall t' c, unambiguous t' -> ~ typed_here t' -> dtab t' c = None).
    { intros t' c U W. destruct (dtab t' c) as [c1|] eqn:E; [|reflexivity]. apply (decode_iff t' c c1 U) in E. destruct (W (proj1 E)). }
    destruct H as [H|[U W]].
    - destruct common as [g|]; [|destruct H]. rewrite N by apply H. reflexivity.
    - destruct (match common with Some t0 => dtab t0 newDefaultConfig | None => Some newDefaultConfig end) as [c|]; [|reflexivity]. rewrite N by assumption. reflexivity.
  Qed.
End Decode.

(** A number without unit. *)
Lemma bare_number frac n : int64 n -> (is_a frac KSize (TInt n) <-> 0 <= n) /\ (is_a frac KDuration (TInt n) <-> n = 0).
Proof.
  intros R. destruct (FormatInt_spec n R) as [D _]. cbn [is_a textOf]. assert (L : n <= two64 - 1) by (unfold int64, maxInt64, two63, two64 in *; lia). split; split.
  - intros (s & v & E & U). inversion E; subst. destruct (Z_lt_le_dec n 0) as [H|H]; [|exact H]. rewrite (size_bare_negative _ _ H D) in U. discriminate U.
  - intros H. exists (FormatInt n), n. split; [reflexivity|]. apply (size_bare _ _ n (conj H L) D). reflexivity.
  - intros (s & v & E & U). inversion E; subst. apply (duration_bare frac _ _ v D) in U. apply U.
  - intros ->. exists (FormatInt 0), 0. split; [reflexivity|]. apply (duration_bare frac _ _ 0 D). auto.
Qed.

(** ** Rules *)
Definition ropt_eq_dec (a b : ropt) : {a = b} + {a <> b}. Proof. decide equality. Defined.
(** The last value a rule's table has for an option. *)
Fixpoint last_of (t : table) (r : ropt) : option tval :=
  match t with
  | [] => None
  | (k, v) :: t' => or (last_of t' r) (match field rule_names k with Some r' => if ropt_eq_dec r' r then Some v else None | None => None end)
  end.
Lemma rmeans_iff key r : field rule_names key = Some r <-> rmeans key r.
Proof. apply field_iff; [apply plain_names|apply distinct_names]. Qed.
Lemma rmeans_one key r r' : rmeans key r -> rmeans key r' -> r = r'.
Proof. intros H H'. apply rmeans_iff in H, H'. congruence. Qed.
Lemma last_of_in t r v : last_of t r = Some v -> exists k, In (k, v) t /\ rmeans k r.
Proof.
  induction t as [|[k w] t IH]; cbn [last_of]; [discriminate|]. destruct (last_of t r) as [x|]; cbn [or].
  - intros E. destruct (IH E) as (k' & J & M). exists k'. split; [right; exact J|exact M].
  - destruct (field rule_names k) as [r'|] eqn:F; [|discriminate]. destruct (ropt_eq_dec r' r) as [->|]; [|discriminate].
    intros E. inversion E; subst. exists k. split; [left; reflexivity|apply rmeans_iff; exact F].
Qed.
Lemma last_of_some t r k v : In (k, v) t -> rmeans k r -> last_of t r <> None.
Proof.
  induction t as [|[k' w] t IH]; intros J M; [destruct J|]. cbn [last_of]. destruct (last_of t r) as [x|] eqn:E; [discriminate|]. destruct J as [J|J].
  - inversion J; subst. apply rmeans_iff in M. rewrite M. destruct (ropt_eq_dec r r); [discriminate|congruence].
  - destruct (IH J M eq_refl).
Qed.
Lemma last_of_iff t r v : unambiguous_rule t -> last_of t r = Some v <-> exists k, In (k, v) t /\ rmeans k r.
Proof.
  intros U. split; [apply last_of_in|]. intros (k & J & M). destruct (last_of t r) as [w|] eqn:E; [|destruct (last_of_some t r k v J M E)].
  apply last_of_in in E. destruct E as (k' & J' & M'). apply in_split in J. destruct J as (a & b & ->). apply in_app_iff in J'. destruct J' as [J'|[J'|J']].
  - apply in_split in J'. destruct J' as (a1 & a2 & ->). exfalso. apply (U a1 k' w a2 k v b r); [rewrite <- app_assoc; reflexivity|exact M'|exact M].
  - inversion J'; reflexivity.
  - apply in_split in J'. destruct J' as (b1 & b2 & ->). exfalso. exact (U a k v b1 k' w b2 r eq_refl M M').
Qed.

Definition as_text (o : option tval) : option bytes := match o with Some v => uString v | None => None end.
Definition as_tags (o : option tval) : option (list (list bytes)) := match o with Some v => uSlice uStrings v | None => None end.
Definition rule_of_table (p : prule) (t : table) : prule :=
  PRule (or (as_text (last_of t RType)) (pr_type p)) (or (as_text (last_of t RMatch)) (pr_match p)) (or (as_tags (last_of t RTags)) (pr_tags p)) (or (as_text (last_of t RSubject)) (pr_subject p)).
Lemma tags_iff v l : uSlice uStrings v = Some l <-> v = TArr (map (fun set => TArr (map TStr set)) l).
Proof.
  unfold uSlice. destruct v as [| | | |l0|]; try (split; [discriminate|intros H; inversion H]; fail). rewrite all_iff. split.
  - intros H. f_equal. induction H as [|x y l0 l' E H IH]; [reflexivity|]. cbn [map]. rewrite IH. f_equal. apply uStrings_iff. exact E.
  - intros H. inversion H; subst. clear H. induction l as [|x l IH]; constructor; [|exact IH]. apply uStrings_iff. reflexivity.
Qed.
Lemma text_iff v : (exists s, v = TStr s) <-> uString v <> None.
Proof. destruct v; cbn; split; try (intros (? & E); discriminate); try congruence; intros; eauto; discriminate. Qed.
Lemma last_typed t : rule_typed t -> forall r v, last_of t r = Some v -> rule_text r v.
Proof. intros W r v E. apply last_of_in in E. destruct E as (k & J & M). exact (W k v r J M). Qed.
Lemma or_text a b : (forall v, a = Some v -> exists s, v = TStr s) -> as_text (or a b) = or (as_text a) (as_text b).
Proof. intros T. destruct a as [v|]; [|reflexivity]. destruct (T v eq_refl) as (s & ->). reflexivity. Qed.
Lemma or_tags a b : (forall v, a = Some v -> exists l, v = TArr (map (fun set => TArr (map TStr set)) l)) -> as_tags (or a b) = or (as_tags a) (as_tags b).
Proof. intros T. destruct a as [v|]; [|reflexivity]. destruct (T v eq_refl) as (l & ->). cbn [or as_tags]. rewrite (proj2 (tags_iff _ l) eq_refl). reflexivity. Qed.
Lemma or_or {A} (a b c : option A) : or (or a b) c = or a (or b c).
Proof. destruct a; reflexivity. Qed.
Lemma rule_key_typed p k v : rule_key p (k, v) <> None <-> forall r, rmeans k r -> rule_text r v.
Proof.
  unfold rule_key. cbn [fst snd]. destruct (field rule_names k) as [r|] eqn:F.
  - pose proof (proj1 (rmeans_iff k r) F) as M.
    assert (X : (forall r0, rmeans k r0 -> rule_text r0 v) <-> rule_text r v).
    { split; [intros H; exact (H r M)|]. intros H r0 M0. rewrite (rmeans_one k r0 r M0 M). exact H. }
    rewrite X. destruct r; cbn [rule_text].
    1, 2, 4: rewrite text_iff; destruct (uString v); split; congruence.
    destruct (uSlice uStrings v) as [l|] eqn:E.
    + apply tags_iff in E. split; [intros _; exists l; exact E|discriminate].
    + split; [congruence|]. intros (l & H). apply tags_iff in H. congruence.
  - split; [|discriminate]. intros _ r M. apply rmeans_iff in M. congruence.
Qed.
Lemma rule_key_step p k v t p' : rule_typed t -> rule_key p (k, v) = Some p' -> rule_of_table p' t = rule_of_table p ((k, v) :: t).
Proof.
  intros W E. pose proof (last_typed t W) as T. unfold rule_of_table. cbn [last_of].
  rewrite (or_text (last_of t RType)) by exact (T RType). rewrite (or_text (last_of t RMatch)) by exact (T RMatch). rewrite (or_text (last_of t RSubject)) by exact (T RSubject).
  rewrite (or_tags (last_of t RTags)) by exact (T RTags). rewrite !or_or. clear T W. unfold rule_key in E. cbn [fst snd] in E.
  destruct (field rule_names k) as [r|].
  - destruct r.
    1, 2, 4: destruct (uString v) as [s|] eqn:V; [|discriminate E]; inversion E; subst; cbn [pr_type pr_match pr_tags pr_subject];
      repeat match goal with |- context [ropt_eq_dec ?a ?b] => destruct (ropt_eq_dec a b); try congruence end; cbn [as_text as_tags or]; rewrite V; reflexivity.
    destruct (uSlice uStrings v) as [l|] eqn:V; [|discriminate E]; inversion E; subst; cbn [pr_type pr_match pr_tags pr_subject];
      repeat match goal with |- context [ropt_eq_dec ?a ?b] => destruct (ropt_eq_dec a b); try congruence end; cbn [as_text as_tags or]; rewrite V; reflexivity.
  - inversion E; subst. reflexivity.
Qed.
Lemma rule_keys_iff t : forall p q, rule_keys p t = Some q <-> rule_typed t /\ q = rule_of_table p t.
Proof.
  induction t as [|[k v] t IH]; intros p q.
  - cbn [rule_keys]. unfold rule_of_table. cbn [last_of as_text as_tags or]. split.
    + intros E. inversion E; subst. split; [intros ? ? ? []|]. destruct q; reflexivity.
    + intros [_ ->]. destruct p; reflexivity.
  - assert (W : rule_typed ((k, v) :: t) <-> (forall r, rmeans k r -> rule_text r v) /\ rule_typed t).
    { split.
      - intros W. split; [intros r M; exact (W k v r (or_introl eq_refl) M)|]. intros k' v' r J. exact (W k' v' r (or_intror J)).
      - intros [W1 W2] k' v' r [J|J] M; [inversion J; subst; exact (W1 r M)|exact (W2 k' v' r J M)]. }
    rewrite W, <- (rule_key_typed p k v). cbn [rule_keys]. destruct (rule_key p (k, v)) as [p'|] eqn:E.
    + rewrite IH. split.
      * intros [Y ->]. split; [split; [discriminate|exact Y]|]. exact (rule_key_step p k v t p' Y E).
      * intros [[_ Y] ->]. split; [exact Y|]. symmetry. exact (rule_key_step p k v t p' Y E).
    + split; [discriminate|]. intros [[H _] _]. congruence.
Qed.
Lemma rule_iff t : unambiguous_rule t -> forall q, uRule (TTab t) = Some q <->
  rule_typed t /\
  (forall s, pr_type q = Some s <-> exists k, In (k, TStr s) t /\ rmeans k RType) /\
  (forall s, pr_match q = Some s <-> exists k, In (k, TStr s) t /\ rmeans k RMatch) /\
  (forall l, pr_tags q = Some l <-> exists k, In (k, TArr (map (fun set => TArr (map TStr set)) l)) t /\ rmeans k RTags) /\
  (forall s, pr_subject q = Some s <-> exists k, In (k, TStr s) t /\ rmeans k RSubject).
Proof.
  intros U.
  assert (Tx : forall r s, as_text (last_of t r) = Some s <-> exists k, In (k, TStr s) t /\ rmeans k r).
  { intros r s. rewrite <- (last_of_iff t r (TStr s) U). unfold as_text. destruct (last_of t r) as [v|]; [|split; discriminate]. destruct v; cbn; split; congruence. }
  assert (Tg : forall l, as_tags (last_of t RTags) = Some l <-> exists k, In (k, TArr (map (fun set => TArr (map TStr set)) l)) t /\ rmeans k RTags).
  { intros l. rewrite <- (last_of_iff t RTags _ U). unfold as_tags. destruct (last_of t RTags) as [v|]; [|split; discriminate]. rewrite tags_iff. split; congruence. }
  assert (Eq : forall A (a b : option A), (forall s, a = Some s <-> b = Some s) -> a = b).
  { intros A a b H. destruct a as [x|]; [symmetry; apply H; reflexivity|]. destruct b as [x|]; [apply H; reflexivity|reflexivity]. }
  assert (N : forall A (a : option A), or a None = a) by (intros A []; reflexivity).
  intros q. cbn [uRule]. rewrite rule_keys_iff. unfold rule_of_table. cbn [pr_type pr_match pr_tags pr_subject]. rewrite !N. split.
  - intros [W ->]. cbn [pr_type pr_match pr_tags pr_subject]. split; [exact W|]. repeat split; try (apply Tx); apply Tg.
  - intros (W & H1 & H2 & H3 & H4). split; [exact W|]. destruct q as [a b c d]. cbn [pr_type pr_match pr_tags pr_subject] in *. f_equal; apply Eq; intros s; rewrite ?Tx, ?Tg; auto.
Qed.

(** ** What a readable file does *)
Lemma typed_iff frac t : typed_here frac t <-> well_typed frac t.
Proof.
  split.
  - intros W o v (k & J & M). apply types. exact (W k v o J M).
  - intros W k v o J M. apply types. apply W. exists k. auto.
Qed.
Lemma readable frac t c : unambiguous t -> decode_table frac t c <> None <-> well_typed frac t.
Proof.
  intros U. rewrite <- typed_iff. split.
  - intros N. destruct (decode_table frac t c) as [c'|] eqn:E; [|congruence]. apply (decode_iff frac t c c' U) in E. apply E.
  - intros W E. assert (X : decode_table frac t c = Some (decode toml_rules (options frac (value_of t)) c)) by (apply decode_iff; auto). congruence.
Qed.
Section Effect.
  Variables (frac : Z -> nat -> Z -> Z) (t : table) (c c' : cfg).
  Hypotheses (U : unambiguous t) (E : decode_table frac t c = Some c').
  Let D : c' = decode toml_rules (options frac (value_of t)) c := proj2 (proj1 (decode_iff frac t c c' U) E).

  Ltac field_of := rewrite D; unfold decode, options, at_option;
    cbn [c_name c_mode c_nats_address c_subjects c_subject_monitor c_subject_junk c_db_address c_db_protocol c_db_port c_db_user c_db_pass c_db_name c_batch_count c_batch_size c_batch_age c_port c_workers c_write_timeout
         c_retry_batches c_retry_interval c_retry_timeout c_read_buffer c_max_pending c_rules c_max_time_delta c_stats_interval c_probe_port c_pprof_port c_debug c_period c_suffix c_queue_group
         p_name p_mode p_nats_address p_subjects p_subject_monitor p_subject_junk p_db_address p_db_protocol p_db_port p_db_name p_batch_count p_batch_size p_batch_age p_port p_workers p_write_timeout p_retry_batches p_retry_interval p_retry_timeout p_read_buffer p_max_pending p_rules p_max_time_delta p_stats_interval p_probe_port p_pprof_port p_debug p_period p_suffix p_queue_group].
  Ltac each H := repeat (destruct H as [H|H]; [injection H as <- <-|]); [..|destruct H].

  Lemma set_text o get s : In (o, get) text_options -> sets t o (TStr s) -> get c' = s.
  Proof. intros J S. apply (value_of_iff t o _ U) in S. unfold text_options in J. each J; field_of; rewrite S; reflexivity. Qed.
  Lemma set_int o get n : In (o, get) int_options -> sets t o (TInt n) -> get c' = n.
  Proof. intros J S. apply (value_of_iff t o _ U) in S. unfold int_options in J. each J; field_of; rewrite S; reflexivity. Qed.
  Lemma set_size o get v s n : In (o, get) size_options -> sets t o v -> textOf v = Some s -> UnmarshalSize s = Some n -> get c' = n.
  Proof. intros J S T Z. apply (value_of_iff t o _ U) in S. unfold size_options in J. each J; field_of; rewrite S; unfold uSize; rewrite T, Z; reflexivity. Qed.
  Lemma set_duration o get v s n : In (o, get) duration_options -> sets t o v -> textOf v = Some s -> ParseDuration frac s = Some n -> get c' = n.
  Proof. intros J S T Z. apply (value_of_iff t o _ U) in S. unfold duration_options in J. each J; field_of; rewrite S; unfold uDuration; rewrite T, Z; reflexivity. Qed.
  Lemma set_debug b : sets t ODebug (TBool b) -> c_debug c' = b.
  Proof. intros S. apply (value_of_iff t _ _ U) in S. field_of. rewrite S. reflexivity. Qed.
  Lemma set_subjects l : sets t OSubjects (TArr (map TStr l)) -> c_subjects c' = l.
  Proof. intros S. apply (value_of_iff t _ _ U) in S. field_of. rewrite S, (proj2 (uStrings_iff _ l) eq_refl). reflexivity. Qed.
  Lemma set_rules l ps : sets t ORule (TArr (map TTab l)) -> Forall2 (fun r p => uRule (TTab r) = Some p) l ps -> c_rules c' = toml_rules (c_rules c) ps.
  Proof.
    intros S F. apply (value_of_iff t _ _ U) in S. field_of. rewrite S.
    replace (uRules (TArr (map TTab l))) with (Some ps) by (symmetry; apply uRules_iff; eauto). reflexivity.
  Qed.
  Lemma unset_keeps :
    (forall o get, In (o, get) text_options -> (forall v, ~ sets t o v) -> get c' = get c) /\
    (forall o get, In (o, get) (int_options ++ size_options ++ duration_options) -> (forall v, ~ sets t o v) -> get c' = get c) /\
    ((forall v, ~ sets t ODebug v) -> c_debug c' = c_debug c) /\ ((forall v, ~ sets t OSubjects v) -> c_subjects c' = c_subjects c) /\
    ((forall v, ~ sets t ORule v) -> c_rules c' = c_rules c) /\ c_db_user c' = c_db_user c /\ c_db_pass c' = c_db_pass c.
  Proof.
    split; [|split; [|split; [|split; [|split; [|split]]]]].
    - intros o get J N. apply (value_of_none t o U) in N. unfold text_options in J. each J; field_of; rewrite N; reflexivity.
    - intros o get J N. apply (value_of_none t o U) in N. unfold int_options, size_options, duration_options in J. cbn [app] in J. each J; field_of; rewrite N; reflexivity.
    - intros N. apply (value_of_none t _ U) in N. field_of. rewrite N. reflexivity.
    - intros N. apply (value_of_none t _ U) in N. field_of. rewrite N. reflexivity.
    - intros N. apply (value_of_none t _ U) in N. field_of. rewrite N. reflexivity.
    - field_of. reflexivity.
    - field_of. reflexivity.
  Qed.
End Effect.
