From Verif Require Import Base Text Rules Config ConfigSpec ConfigProofs.
Local Open Scope Z_scope.

(** ** Where values come from *)

Lemma fresh_rule_of p : fresh_rule p = rule_of p.
Proof. destruct p as [[?|] [?|] [?|] [?|]]; reflexivity. Qed.

Lemma toml_decodes : decodes toml_rules.
Proof.
  intros ps. unfold toml_rules. cbn [length]. destruct ps as [|p ps]; [reflexivity|].
  cbn [length Nat.ltb Nat.leb]. apply map_ext. apply fresh_rule_of.
Qed.

Lemma toml_long old ps : (length old < length ps)%nat -> toml_rules old ps = map rule_of ps.
Proof.
  intros L. unfold toml_rules. destruct (Nat.ltb_spec (length old) (length ps)); [|lia]. apply map_ext. apply fresh_rule_of.
Qed.

(** The configuration after the two files and the dynamic defaults. *)
Definition settled dec f g fn u p : cfg := dynamic fn u p (decode dec f (decode dec g newDefaultConfig)).

Lemma decode_nothing dec c : decode dec no_options c = c.
Proof. destruct c. reflexivity. Qed.

Lemma override_setting {A} (a b : option A) d : override a (override b d) = setting a b d.
Proof. destruct a, b; reflexivity. Qed.

Lemma dyn_name_form fn c : dyn_name fn c =
  {| c_name := if isEmpty (c_name c) then pathToConfigName fn else c_name c; c_mode := c_mode c; c_nats_address := c_nats_address c; c_subjects := c_subjects c; c_subject_monitor := c_subject_monitor c; c_subject_junk := c_subject_junk c; c_db_address := c_db_address c; c_db_protocol := c_db_protocol c; c_db_port := c_db_port c; c_db_user := c_db_user c; c_db_pass := c_db_pass c; c_db_name := c_db_name c; c_batch_count := c_batch_count c; c_batch_size := c_batch_size c; c_batch_age := c_batch_age c; c_port := c_port c; c_workers := c_workers c; c_write_timeout := c_write_timeout c; c_retry_batches := c_retry_batches c; c_retry_interval := c_retry_interval c; c_retry_timeout := c_retry_timeout c; c_read_buffer := c_read_buffer c; c_max_pending := c_max_pending c; c_rules := c_rules c; c_max_time_delta := c_max_time_delta c; c_stats_interval := c_stats_interval c; c_probe_port := c_probe_port c; c_pprof_port := c_pprof_port c; c_debug := c_debug c; c_period := c_period c; c_suffix := c_suffix c; c_queue_group := c_queue_group c |}.
Proof. unfold dyn_name. destruct (isEmpty (c_name c)); destruct c; reflexivity. Qed.
Lemma dyn_batch_size_form c : dyn_batch_size c =
  {| c_name := c_name c; c_mode := c_mode c; c_nats_address := c_nats_address c; c_subjects := c_subjects c; c_subject_monitor := c_subject_monitor c; c_subject_junk := c_subject_junk c; c_db_address := c_db_address c; c_db_protocol := c_db_protocol c; c_db_port := c_db_port c; c_db_user := c_db_user c; c_db_pass := c_db_pass c; c_db_name := c_db_name c; c_batch_count := c_batch_count c; c_batch_size := or_default (c_batch_size c) (default_batch_size (c_mode c)); c_batch_age := c_batch_age c; c_port := c_port c; c_workers := c_workers c; c_write_timeout := c_write_timeout c; c_retry_batches := c_retry_batches c; c_retry_interval := c_retry_interval c; c_retry_timeout := c_retry_timeout c; c_read_buffer := c_read_buffer c; c_max_pending := c_max_pending c; c_rules := c_rules c; c_max_time_delta := c_max_time_delta c; c_stats_interval := c_stats_interval c; c_probe_port := c_probe_port c; c_pprof_port := c_pprof_port c; c_debug := c_debug c; c_period := c_period c; c_suffix := c_suffix c; c_queue_group := c_queue_group c |}.
Proof. unfold dyn_batch_size, or_default. destruct (c_batch_size c =? 0); destruct c; reflexivity. Qed.
Lemma dyn_port_form c : dyn_port c =
  {| c_name := c_name c; c_mode := c_mode c; c_nats_address := c_nats_address c; c_subjects := c_subjects c; c_subject_monitor := c_subject_monitor c; c_subject_junk := c_subject_junk c; c_db_address := c_db_address c; c_db_protocol := c_db_protocol c; c_db_port := c_db_port c; c_db_user := c_db_user c; c_db_pass := c_db_pass c; c_db_name := c_db_name c; c_batch_count := c_batch_count c; c_batch_size := c_batch_size c; c_batch_age := c_batch_age c; c_port := or_default (c_port c) (default_port (c_mode c)); c_workers := c_workers c; c_write_timeout := c_write_timeout c; c_retry_batches := c_retry_batches c; c_retry_interval := c_retry_interval c; c_retry_timeout := c_retry_timeout c; c_read_buffer := c_read_buffer c; c_max_pending := c_max_pending c; c_rules := c_rules c; c_max_time_delta := c_max_time_delta c; c_stats_interval := c_stats_interval c; c_probe_port := c_probe_port c; c_pprof_port := c_pprof_port c; c_debug := c_debug c; c_period := c_period c; c_suffix := c_suffix c; c_queue_group := c_queue_group c |}.
Proof.
  unfold dyn_port, or_default, default_port. destruct (Z.eqb_spec (c_port c) 0) as [E|E]; [|destruct c; reflexivity].
  destruct (beqs (c_mode c) (lit "listener")); [destruct c; reflexivity|].
  destruct (beqs (c_mode c) (lit "listener_http")); [destruct c; reflexivity|].
  destruct (beqs (c_mode c) (lit "monitor")); [destruct c; reflexivity|]. rewrite <- E. destruct c; reflexivity.
Qed.
Lemma dyn_period_form c : dyn_period c =
  {| c_name := c_name c; c_mode := c_mode c; c_nats_address := c_nats_address c; c_subjects := c_subjects c; c_subject_monitor := c_subject_monitor c; c_subject_junk := c_subject_junk c; c_db_address := c_db_address c; c_db_protocol := c_db_protocol c; c_db_port := c_db_port c; c_db_user := c_db_user c; c_db_pass := c_db_pass c; c_db_name := c_db_name c; c_batch_count := c_batch_count c; c_batch_size := c_batch_size c; c_batch_age := c_batch_age c; c_port := c_port c; c_workers := c_workers c; c_write_timeout := c_write_timeout c; c_retry_batches := c_retry_batches c; c_retry_interval := c_retry_interval c; c_retry_timeout := c_retry_timeout c; c_read_buffer := c_read_buffer c; c_max_pending := c_max_pending c; c_rules := c_rules c; c_max_time_delta := c_max_time_delta c; c_stats_interval := c_stats_interval c; c_probe_port := c_probe_port c; c_pprof_port := c_pprof_port c; c_debug := c_debug c; c_period := or_default (c_period c) (default_period (c_mode c)); c_suffix := c_suffix c; c_queue_group := c_queue_group c |}.
Proof.
  unfold dyn_period, or_default, default_period. destruct (beqs (c_mode c) (lit "downsampler")); cbn [andb].
  - destruct (c_period c =? 0); destruct c; reflexivity.
  - destruct (Z.eqb_spec (c_period c) 0) as [E|E]; [rewrite <- E|]; destruct c; reflexivity.
Qed.
Lemma dyn_env_form u p c : dyn_env u p c =
  {| c_name := c_name c; c_mode := c_mode c; c_nats_address := c_nats_address c; c_subjects := c_subjects c; c_subject_monitor := c_subject_monitor c; c_subject_junk := c_subject_junk c; c_db_address := c_db_address c; c_db_protocol := c_db_protocol c; c_db_port := c_db_port c; c_db_user := if beqs (c_mode c) (lit "writer") then u else c_db_user c; c_db_pass := if beqs (c_mode c) (lit "writer") then p else c_db_pass c; c_db_name := c_db_name c; c_batch_count := c_batch_count c; c_batch_size := c_batch_size c; c_batch_age := c_batch_age c; c_port := c_port c; c_workers := c_workers c; c_write_timeout := c_write_timeout c; c_retry_batches := c_retry_batches c; c_retry_interval := c_retry_interval c; c_retry_timeout := c_retry_timeout c; c_read_buffer := c_read_buffer c; c_max_pending := c_max_pending c; c_rules := c_rules c; c_max_time_delta := c_max_time_delta c; c_stats_interval := c_stats_interval c; c_probe_port := c_probe_port c; c_pprof_port := c_pprof_port c; c_debug := c_debug c; c_period := c_period c; c_suffix := c_suffix c; c_queue_group := c_queue_group c |}.
Proof. unfold dyn_env. destruct (beqs (c_mode c) (lit "writer")); destruct c; reflexivity. Qed.

Lemma dynamic_form fn u p c : dynamic fn u p c =
  {| c_name := if isEmpty (c_name c) then pathToConfigName fn else c_name c; c_mode := c_mode c; c_nats_address := c_nats_address c; c_subjects := c_subjects c; c_subject_monitor := c_subject_monitor c; c_subject_junk := c_subject_junk c; c_db_address := c_db_address c; c_db_protocol := c_db_protocol c; c_db_port := c_db_port c; c_db_user := if beqs (c_mode c) (lit "writer") then u else c_db_user c; c_db_pass := if beqs (c_mode c) (lit "writer") then p else c_db_pass c; c_db_name := c_db_name c; c_batch_count := c_batch_count c; c_batch_size := or_default (c_batch_size c) (default_batch_size (c_mode c)); c_batch_age := c_batch_age c; c_port := or_default (c_port c) (default_port (c_mode c)); c_workers := c_workers c; c_write_timeout := c_write_timeout c; c_retry_batches := c_retry_batches c; c_retry_interval := c_retry_interval c; c_retry_timeout := c_retry_timeout c; c_read_buffer := c_read_buffer c; c_max_pending := c_max_pending c; c_rules := c_rules c; c_max_time_delta := c_max_time_delta c; c_stats_interval := c_stats_interval c; c_probe_port := c_probe_port c; c_pprof_port := c_pprof_port c; c_debug := c_debug c; c_period := or_default (c_period c) (default_period (c_mode c)); c_suffix := c_suffix c; c_queue_group := c_queue_group c |}.
Proof.
  destruct c as [x1 x2 x3 x4 x5 x6 x7 x8 x9 x10 x11 x12 x13 x14 x15 x16 x17 x18 x19 x20 x21 x22 x23 x24 x25 x26 x27 x28 x29 x30 x31 x32]. unfold dynamic. rewrite dyn_name_form. cbn [c_name c_mode c_nats_address c_subjects c_subject_monitor c_subject_junk c_db_address c_db_protocol c_db_port c_db_user c_db_pass c_db_name c_batch_count c_batch_size c_batch_age c_port c_workers c_write_timeout c_retry_batches c_retry_interval c_retry_timeout c_read_buffer c_max_pending c_rules c_max_time_delta c_stats_interval c_probe_port c_pprof_port c_debug c_period c_suffix c_queue_group].
  rewrite dyn_batch_size_form. cbn [c_name c_mode c_nats_address c_subjects c_subject_monitor c_subject_junk c_db_address c_db_protocol c_db_port c_db_user c_db_pass c_db_name c_batch_count c_batch_size c_batch_age c_port c_workers c_write_timeout c_retry_batches c_retry_interval c_retry_timeout c_read_buffer c_max_pending c_rules c_max_time_delta c_stats_interval c_probe_port c_pprof_port c_debug c_period c_suffix c_queue_group].
  rewrite dyn_port_form. cbn [c_name c_mode c_nats_address c_subjects c_subject_monitor c_subject_junk c_db_address c_db_protocol c_db_port c_db_user c_db_pass c_db_name c_batch_count c_batch_size c_batch_age c_port c_workers c_write_timeout c_retry_batches c_retry_interval c_retry_timeout c_read_buffer c_max_pending c_rules c_max_time_delta c_stats_interval c_probe_port c_pprof_port c_debug c_period c_suffix c_queue_group].
  rewrite dyn_period_form. cbn [c_name c_mode c_nats_address c_subjects c_subject_monitor c_subject_junk c_db_address c_db_protocol c_db_port c_db_user c_db_pass c_db_name c_batch_count c_batch_size c_batch_age c_port c_workers c_write_timeout c_retry_batches c_retry_interval c_retry_timeout c_read_buffer c_max_pending c_rules c_max_time_delta c_stats_interval c_probe_port c_pprof_port c_debug c_period c_suffix c_queue_group].
  rewrite dyn_env_form. cbn [c_name c_mode c_nats_address c_subjects c_subject_monitor c_subject_junk c_db_address c_db_protocol c_db_port c_db_user c_db_pass c_db_name c_batch_count c_batch_size c_batch_age c_port c_workers c_write_timeout c_retry_batches c_retry_interval c_retry_timeout c_read_buffer c_max_pending c_rules c_max_time_delta c_stats_interval c_probe_port c_pprof_port c_debug c_period c_suffix c_queue_group]. reflexivity.
Qed.

Lemma settled_stands_for dec f g fn u p : decodes dec -> stands_for dec f g fn u p (settled dec f g fn u p).
Proof.
  intros D. unfold settled. rewrite dynamic_form. constructor; cbn [c_name c_mode c_nats_address c_subjects c_subject_monitor c_subject_junk c_db_address c_db_protocol c_db_port c_db_user c_db_pass c_db_name c_batch_count c_batch_size c_batch_age c_port c_workers c_write_timeout c_retry_batches c_retry_interval c_retry_timeout c_read_buffer c_max_pending c_rules c_max_time_delta c_stats_interval c_probe_port c_pprof_port c_debug c_period c_suffix c_queue_group decode newDefaultConfig]; rewrite ?override_setting; try reflexivity.
  - destruct (setting (p_name f) (p_name g) []); reflexivity.
  - destruct (p_rules g) as [qs|]; destruct (p_rules f) as [ps|]; rewrite ?D; reflexivity.
Qed.

Lemma stands_for_unique dec f g fn u p c c' : stands_for dec f g fn u p c -> stands_for dec f g fn u p c' -> c = c'.
Proof.
  intros H H'. destruct c, c'. destruct H, H'. cbn in *. subst. reflexivity.
Qed.

Lemma load_iff dec common file fn u p c : decodes dec ->
  NewConfigFromFile dec common file fn u p = LoadOk c <->
  exists f g, common_options common g /\ file = FOk f /\ stands_for dec f g fn u p c /\ c_mode c <> [] /\ valid c.
Proof.
  intros D.
  assert (Md : forall f g, c_mode (decode dec f (decode dec g newDefaultConfig)) = c_mode (settled dec f g fn u p)).
  { intros f g. unfold settled. rewrite dynamic_form. reflexivity. }
  assert (G : forall f g, (if isEmpty (c_mode (decode dec f (decode dec g newDefaultConfig))) then LoadErr
                 else match Validate (dynamic fn u p (decode dec f (decode dec g newDefaultConfig))) with
                      | Some _ => LoadErr | None => LoadOk (dynamic fn u p (decode dec f (decode dec g newDefaultConfig))) end) = LoadOk c
     <-> stands_for dec f g fn u p c /\ c_mode c <> [] /\ valid c).
  { intros f g. fold (settled dec f g fn u p). rewrite Md. split.
    - destruct (isEmpty (c_mode (settled dec f g fn u p))) eqn:E; [discriminate|]. apply isEmpty_false in E.
      destruct (Validate (settled dec f g fn u p)) eqn:V; [discriminate|]. apply Validate_iff in V.
      intros H. inversion H; subst. split; [apply settled_stands_for; auto|auto].
    - intros (H1 & H2 & H3). assert (c = settled dec f g fn u p) by (eapply stands_for_unique; [eauto|apply settled_stands_for; auto]). subst c.
      apply isEmpty_false in H2. rewrite H2. apply Validate_iff in H3. rewrite H3. reflexivity. }
  unfold NewConfigFromFile. split.
  - destruct common as [| | |g]; try discriminate; destruct file as [| | |f]; try discriminate; intros H.
    + exists f, no_options. split; [right; auto|]. split; auto. apply G. rewrite decode_nothing. exact H.
    + exists f, g. split; [left; auto|]. split; auto. apply G. exact H.
  - intros (f & g & [->|[-> ->]] & -> & H); apply G in H; [exact H|]. rewrite decode_nothing in H. exact H.
Qed.

(** An accepted configuration has a usable batch size. *)
Lemma load_batch_size dec common file fn u p c : decodes dec -> NewConfigFromFile dec common file fn u p = LoadOk c ->
  (forall g, (common = FOk g \/ file = FOk g) -> forall z, p_batch_size g = Some z -> 0 <= z) ->
  1 <= c_batch_size c /\ (is_listener c -> c_batch_size c <= 1048576).
Proof.
  intros D H N. apply load_iff in H; auto. destruct H as (f & g & Cg & -> & S & _ & V). split.
  - rewrite (sf_batch_size _ _ _ _ _ _ _ S). unfold or_default, setting, default_batch_size.
    assert (P : 1 <= (if beqs (c_mode c) (lit "listener") || beqs (c_mode c) (lit "listener_http") then 1048576 else 10485760)) by (destruct (_ || _); lia).
    destruct (p_batch_size f) as [z|] eqn:Ef; [|destruct (p_batch_size g) as [z|] eqn:Eg].
    + assert (0 <= z) by eauto. destruct (Z.eqb_spec z 0); lia.
    + assert (0 <= z). { destruct Cg as [->|[-> ->]]; [eauto|discriminate]. } destruct (Z.eqb_spec z 0); lia.
    + exact P.
  - intros L. destruct V as (_ & _ & _ & [[_ V]|[[M _]|[[M _]|[[M _]|M]]]]); [apply V|destruct L as [L|L]; rewrite L in M; discriminate..].
Qed.

(** ** Starting *)

Lemma run_known c : valid c -> runMode (c_mode c) <> None.
Proof.
  intros (_ & _ & _ & V). destruct V as [[[M|M] _]|[[M _]|[[M _]|[[M _]|M]]]]; rewrite M; vm_compute; discriminate.
Qed.

Lemma workers_iff c procs : valid c -> 1 <= procs ->
  (workersStarted c procs = None <-> c_mode c = lit "writer" /\ c_workers c < 0) /\
  (workersStarted c procs = Some 0 <-> c_mode c = lit "filter" /\ c_workers c <= 0 \/ c_mode c = lit "downsampler" /\ c_subjects c = []).
Proof.
  intros (_ & _ & _ & V) P. unfold workersStarted.
  destruct V as [[[M|M] _]|[[M _]|[[M _]|[[M _]|M]]]]; rewrite M; cbn [runMode].
  1,2,6: split; split; [discriminate|intros [H _]; discriminate|discriminate|intros [[H _]|[H _]]; discriminate].
  - change (runMode (lit "filter")) with (Some Filter). cbv iota. split; split; try discriminate.
    + intros [H _]; discriminate.
    + intros H. left. split; auto. inversion H. lia.
    + intros [[_ H]|[H _]]; [|discriminate]. f_equal. lia.
  - change (runMode (lit "downsampler")) with (Some Downsampler). cbv iota. split; split; try discriminate.
    + intros [H _]; discriminate.
    + intros H. right. split; auto. destruct (c_subjects c); auto. discriminate.
    + intros [[H _]|[_ H]]; [discriminate|]. rewrite H. reflexivity.
  - change (runMode (lit "writer")) with (Some Writer). cbv iota zeta. destruct (Z.eqb_spec (c_workers c) 0) as [E|E].
    + destruct (Z.ltb_spec (procs * 2) 0); [lia|]. split; split; try discriminate; try lia.
      * intros H0; inversion H0; lia.
      * intros [[H0 _]|[H0 _]]; discriminate.
    + destruct (Z.ltb_spec (c_workers c) 0); split; split; try discriminate; auto; try lia.
      * intros [[H0 _]|[H0 _]]; discriminate.
      * intros H0; inversion H0; lia.
      * intros [[H0 _]|[H0 _]]; discriminate.
Qed.
