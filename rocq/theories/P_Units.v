(** Property C94 (properties.jsonl): sizes and durations in a configuration mean what they say. *)
From Verif Require Import Base Convert NumSpec NumProofs Units.
Local Open Scope Z_scope.

(** A text without decimal point is accepted as a duration exactly when it is a sum of whole numbers with the documented
    units (with an optional sign), or zero, that fits the type; and then it is that many nanoseconds. *)
Theorem C94_duration frac s z : ~ In dotc s ->
  ParseDuration frac s = Some z <-> duration_text s z /\ Z.abs z <= maxInt64.
Proof. exact (ParseDuration_iff frac s z). Qed.

(** An ASCII text is accepted as a size exactly when it is a number with an optional unit, or empty, and fits the type;
    and then it is that many bytes. *)
Theorem C94_size t v : Forall (fun c => (bval c < 128)%N) t ->
  UnmarshalSize t = Some v <-> size_text t v /\ v <= two64 - 1.
Proof. intros _. exact (UnmarshalSize_iff t v). Qed.

(** A number written without unit (and also one written without quotes) is a size in bytes, unless it is negative. *)
Theorem C94_size_bare z s v : z <= two64 - 1 -> dec_text z s -> UnmarshalSize s = Some v <-> v = z /\ 0 <= z.
Proof.
  intros L D. destruct (Z_lt_le_dec z 0) as [H|H].
  - rewrite (size_bare_negative z s H D). split; [discriminate|]. lia.
  - rewrite (size_bare z s v (conj H L) D). lia.
Qed.

(** As a duration only zero can be written without a unit. *)
Theorem C94_duration_bare frac z s v : dec_text z s -> ParseDuration frac s = Some v <-> z = 0 /\ v = 0.
Proof. exact (duration_bare frac z s v). Qed.

(** Equal amounts in different units are equal durations and equal sizes. *)
Theorem C94_units_agree frac a b u u' n n' : digits a -> digits b -> duration_unit u n -> duration_unit u' n' ->
  dec_value a * n = dec_value b * n' -> ParseDuration frac (a ++ u) = ParseDuration frac (b ++ u').
Proof.
  intros Da Db U U' E.
  assert (Nd : forall ds w m, digits ds -> duration_unit w m -> ~ In dotc (ds ++ w)).
  { intros ds w m [_ D] W X. apply in_app_iff in X. destruct X as [X|X].
    - rewrite Forall_forall in D. specialize (D _ X). unfold is_digit in D. vm_compute in D. destruct D; congruence.
    - destruct (unit_shape w m W) as (_ & _ & F). rewrite Forall_forall in F. destruct (F _ X). congruence. }
  assert (Ex : forall ds w m, digits ds -> duration_unit w m -> forall z, ParseDuration frac (ds ++ w) = Some z -> z = dec_value ds * m).
  { intros ds w m D W z H. pose proof (parts_pos _ _ (sp_one ds w m D W)) as P0. destruct (Z_le_gt_dec (dec_value ds * m) maxInt64) as [L|L].
    - assert (X : ParseDuration frac (ds ++ w) = Some (dec_value ds * m)) by (apply (ParseDuration_iff frac _ _ (Nd _ _ _ D W)); split; [apply dt_plain; left; apply sp_one; assumption|lia]). congruence.
    - exfalso. unfold ParseDuration in H. destruct ds as [|c ds]; [destruct D; congruence|]. pose proof D as [_ D']. inversion D' as [|? ? Hc _]; subst.
      unfold splitSign in H. cbn [app] in H. replace (Ascii.eqb c "-"%char) with false in H by (symmetry; apply Ascii.eqb_neq; intros ->; vm_compute in Hc; destruct Hc; congruence).
      replace (Ascii.eqb c "+"%char) with false in H by (symmetry; apply Ascii.eqb_neq; intros ->; vm_compute in Hc; destruct Hc; congruence).
      destruct (beqs (c :: ds ++ w) (lit "0")) eqn:E0.
      + apply beqs_eq in E0. injection E0 as _ E0. apply app_eq_nil in E0. destruct E0 as [_ E0]. destruct (unit_shape w m W) as (_ & X & _). contradiction.
      + pose proof (dur_complete frac _ _ (sp_one (c :: ds) w m D W) (length (c :: ds ++ w)) 0 ltac:(cbn [app]; lia) ltac:(unfold maxInt64, two63; lia)) as X. cbn [app] in X. rewrite X in H.
        replace (0 + dec_value (c :: ds) * m <=? maxInt64) with false in H by lia. discriminate H. }
  destruct (ParseDuration frac (a ++ u)) as [z|] eqn:Ea, (ParseDuration frac (b ++ u')) as [z'|] eqn:Eb; try reflexivity.
  - rewrite (Ex _ _ _ Da U _ Ea), (Ex _ _ _ Db U' _ Eb), E. reflexivity.
  - exfalso. pose proof (Ex _ _ _ Da U _ Ea) as ->. apply (ParseDuration_iff frac _ _ (Nd _ _ _ Da U)) in Ea. destruct Ea as [_ L].
    rewrite E in L. assert (X : ParseDuration frac (b ++ u') = Some (dec_value b * n')) by (apply (ParseDuration_iff frac _ _ (Nd _ _ _ Db U')); split; [apply dt_plain; left; apply sp_one; assumption|exact L]). congruence.
  - exfalso. pose proof (Ex _ _ _ Db U' _ Eb) as ->. apply (ParseDuration_iff frac _ _ (Nd _ _ _ Db U')) in Eb. destruct Eb as [_ L].
    rewrite <- E in L. assert (X : ParseDuration frac (a ++ u) = Some (dec_value a * n)) by (apply (ParseDuration_iff frac _ _ (Nd _ _ _ Da U)); split; [apply dt_plain; left; apply sp_one; assumption|exact L]). congruence.
Qed.

Print Assumptions C94_duration.
Print Assumptions C94_size.
Print Assumptions C94_size_bare.
Print Assumptions C94_duration_bare.
Print Assumptions C94_units_agree.

(** The examples of the README. *)
Example C94_case_sizes : map (fun s => UnmarshalSize (lit s)) ["2097152"; "2048KB"; "2MB"; "2M"; "2mb"; "2 MB"]%string = repeat (Some 2097152) 6.
Proof. vm_compute. reflexivity. Qed.
Example C94_case_durations frac : map (fun s => ParseDuration frac (lit s)) ["7200s"; "120m"; "2h"; "1h59m60s"]%string = repeat (Some (7200 * 10 ^ 9)) 4.
Proof. vm_compute. reflexivity. Qed.
Example C94_case_refused frac : UnmarshalSize (lit "2Mb") = None /\ UnmarshalSize (lit "MB") = None /\ UnmarshalSize (lit "16EB") = None /\ UnmarshalSize (lit "1.5MB") = None
  /\ ParseDuration frac (lit "30") = None /\ ParseDuration frac (lit "2d") = None /\ ParseDuration frac (lit "") = None /\ ParseDuration frac (lit "3000000h") = None.
Proof. vm_compute. repeat split. Qed.
Example C94_case_spec : duration_text (lit "1h30m") (5400 * 10 ^ 9) /\ size_text (lit "4 MB") (4 * (1024 * 1024)) /\ dec_text 4096 (lit "4096") /\ UnmarshalSize [] = Some 0.
Proof.
  assert (D : forall c, is_digit c -> digits [c]) by (intros c H; split; [discriminate|constructor; [exact H|constructor]]).
  split; [|split; [|split; [|reflexivity]]].
  - apply dt_plain. left. change (5400 * 10 ^ 9) with (dec_value (lit "1") * (3600 * 10 ^ 9) + dec_value (lit "30") * (60 * 10 ^ 9)).
    apply (sp_more (lit "1") (lit "h") _ (lit "30m")); [apply D; vm_compute; split; discriminate|constructor|].
    apply (sp_one (lit "30") (lit "m")); [split; [discriminate|repeat (constructor; [vm_compute; split; discriminate|]); constructor]|constructor].
  - apply (st_size (lit "4") (lit " ") (lit "MB") (lit "mb") [] (1024 * 1024)); [apply D; vm_compute; split; discriminate|repeat constructor; cbn; tauto|constructor|reflexivity|apply su_mega; cbn; tauto|cbn; intuition discriminate].
  - exact (proj1 (FormatInt_spec 4096 ltac:(unfold int64, minInt64, maxInt64, two63; lia))).
Qed.
