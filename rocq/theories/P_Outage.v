(** Property C117 (properties.jsonl): an outage of the NATS server costs only what does not fit the client's buffer, and that is counted. *)
From Verif Require Import Base Text Convert Batch BatchProofs Splitter Listener ListenerSpec ListenerProofs Outage OutageProofs.
Local Open Scope Z_scope.

(** Whatever happens - any number of outages and broken connections at any time - each message published for the subscriber is received by
    it once, or was refused, or was lost with a connection, or reached the server while the subscriber was not subscribed, or is under way.
    (Without the case of C117_once_refuted.) *)
Theorem C117_account_partial subject ls s o : Forall whole ls -> orun subject ostart ls = Some (s, o) ->
  Permutation (published subject o) (received o ++ refused subject o ++ lost o ++ unheard o ++ under_way subject s).
Proof. intros W E. exact (proj1 (run_account subject ls ostart s o eq_refl W E)). Qed.

(** What is received is in the order of publication. *)
Theorem C117_order_partial subject ls s o : Forall whole ls -> orun subject ostart ls = Some (s, o) -> part_of (received o ++ under_way subject s) (published subject o).
Proof. intros W E. exact (proj1 (proj2 (run_account subject ls ostart s o eq_refl W E))). Qed.

(** Outages of any length and number cost nothing if connections break with nothing on them, the publisher notices before it publishes again,
    its buffer has room for what it publishes until it is back, it is not
    stopped meanwhile, and the subscriber is back before the server reads what the publisher then sends. *)
Theorem C117_gentle_partial subject ls s o : orun subject ostart ls = Some (s, o) -> gentle_run subject ostart ls ->
  received o ++ under_way subject s = published subject o /\ Forall (fun x => match x with OPub _ ok => ok = true | _ => True end) o.
Proof.
  intros E G. destruct (proj2 (proj2 (run_account subject ls ostart s o eq_refl (gentle_whole subject ls _ _ _ E G) E)) G) as (A & _ & _ & _ & B). split; [exact A|exact B].
Qed.

(** What there is room for: a message is accepted as long as those before it, with their headers, are less than 8 MiB. *)
Theorem C117_room subject ms sv sb d : exists s o, orun subject (mkO false [] [] false sv sb d) (map (fun m => Pub m false) ms) = Some (s, o) /\
  (Forall (fun x => exists m, x = OPub m true) o <-> (forall a m b, ms = a ++ m :: b -> plen a < 8 * 1024 * 1024)).
Proof. exact (publish_down subject ms [] sv sb d). Qed.
(** What counts: subject, data, its length in decimal and 9 bytes more for each message. *)
Theorem C117_size l :
  plen l = fold_right Z.add 0 (map (fun m : bytes * bytes => Z.of_nat (length (fst m)) + Z.of_nat (length (snd m)) + Z.of_nat (length (FormatInt (Z.of_nat (length (snd m))))) + 9) l).
Proof. exact (plen_sum l). Qed.
(** So an outage costs no more memory than 8 MiB and one message. *)
Theorem C117_memory subject B ls s o : 0 <= B -> Forall (fun l => match l with Pub m _ => Z.of_nat (length (frame m)) <= B | _ => True end) ls ->
  orun subject ostart ls = Some (s, o) -> plen (pend s) <= 8 * 1024 * 1024 + B.
Proof. intros B0 F E. refine (run_bound subject B ls ostart s o B0 _ F E). cbn [ostart pend plen]. unfold reconnectBuf. lia. Qed.

(** A component tries to reconnect as long as it takes, with any number of servers. *)
Theorem C117_forever attempts pool : pool <> [] ->
  (In true attempts -> exists k, doReconnect componentMax pool attempts 0 = Connected k /\ nth k attempts false = true /\ forall j, (j < k)%nat -> nth j attempts false = false) /\
  doReconnect componentMax pool attempts 0 <> Closed.
Proof.
  intros P. rewrite (reconnect_forever attempts pool 0 P). split.
  - intros J. destruct (find (fun k => nth k attempts false) (seq 0 (length attempts))) as [k|] eqn:F.
    + exists k. split; [reflexivity|]. split; [exact (proj2 (find_some _ _ F))|]. intros j L.
      assert (X : forall l b, find (fun k => nth k attempts false) (seq b l) = Some k -> forall j, (b <= j < k)%nat -> nth j attempts false = false).
      { clear. induction l as [|l IH]; intros b F j R; [discriminate F|]. cbn [seq find] in F. destruct (nth b attempts false) eqn:E; [inversion F; lia|].
        destruct (Nat.eq_dec j b) as [->|N]; [exact E|]. apply (IH (S b) F). lia. }
      apply (X _ _ F). lia.
    + exfalso. apply (In_nth _ _ false) in J. destruct J as (k & L & E). assert (N : nth k attempts false = false) by (apply (find_none _ _ F k), in_seq; lia). congruence.
  - destruct (find _ _); discriminate.
Qed.
(** And soon: if attempts are at most [g] apart (the client waits 2 s and up to 0.1 s of jitter between attempts, and an attempt takes 2 s at most) and
    each attempt from [T] on succeeds, the component is connected by T + g. *)
Theorem C117_soon pool ts T g : pool <> [] -> (forall i, (S i < length ts)%nat -> nth (S i) ts 0 <= nth i ts 0 + g) -> nth 0 ts 0 <= T -> 0 <= g ->
  (exists t, In t ts /\ T <= t) ->
  exists k, doReconnect componentMax pool (map (fun t => T <=? t) ts) 0 = Connected k /\ (k < length ts)%nat /\ T <= nth k ts 0 <= T + g.
Proof.
  intros P G Z0 G0 (t & J & L). destruct (proj1 (C117_forever (map (fun t => T <=? t) ts) pool P)) as (k & E & Ok & No).
  { apply in_map_iff. exists t. split; [apply Z.leb_le; exact L|exact J]. }
  assert (K : (k < length ts)%nat).
  { destruct (Nat.lt_ge_cases k (length ts)) as [H|H]; [exact H|]. rewrite nth_overflow in Ok by (rewrite map_length; exact H). discriminate Ok. }
  assert (N : forall j, (j < length ts)%nat -> nth j (map (fun t => T <=? t) ts) false = (T <=? nth j ts 0)).
  { intros j H. rewrite (nth_indep _ false (T <=? 0)) by (rewrite map_length; exact H). exact (map_nth (fun t => T <=? t) ts 0 j). }
  exists k. split; [exact E|]. split; [exact K|]. rewrite (N k K) in Ok. apply Z.leb_le in Ok. split; [exact Ok|].
  destruct k as [|k]; [lia|]. specialize (No k (Nat.lt_succ_diag_r k)). rewrite N in No by lia. apply Z.leb_gt in No. specialize (G k K). lia.
Qed.
(** influx-spout-tap gives up, for good and without a word, exactly after 60 failed attempts for each of its servers (with one server: about two minutes). *)
Theorem C117_tap_partial attempts n : doReconnect tapMax (repeat 0 (S n)) attempts 0 = Closed <->
  (length attempts > 60 * S n)%nat /\ forall k, (k < 60 * S n)%nat -> nth k attempts false = false.
Proof.
  assert (L : left_to tapMax (repeat 0 (S n)) = Z.of_nat (60 * S n)).
  { induction n as [|n IH]; [reflexivity|]. change (repeat 0 (S (S n))) with (0 :: repeat 0 (S n)). cbn [left_to] in *. unfold tapMax in *. lia. }
  rewrite (limited_tries tapMax attempts ltac:(unfold tapMax; lia) 0 (repeat 0 n) 0 ltac:(unfold tapMax; lia)).
  - change (0 :: repeat 0 n) with (repeat 0 (S n)). rewrite L. split; intros [H1 H2]; (split; [lia|]); intros k K; apply H2; lia.
  - apply Forall_forall. intros c J. apply repeat_spec in J. subst. unfold tapMax. lia.
Qed.
Theorem C117_tap_refuted : ~ (forall attempts, In true attempts -> exists k, doReconnect tapMax [0] attempts 0 = Connected k).
Proof.
  intros H. destruct (H (repeat false 60 ++ [true])) as (k & E); [apply in_or_app; right; left; reflexivity|]. vm_compute in E. discriminate E.
Qed.

(** A listener during outages: its failed_nats_publish counts exactly the refused messages. *)
Theorem C117_counted subject ls s o pf c now us : 0 <= lc_max_size c -> Forall (fun u => Z.of_nat (length (u_data u)) <= 65536) us ->
  let l := udp_run pf c (newListener c now) us in
  orun subject ostart ls = Some (s, o) -> published subject o = map (fun chunk => (subject, chunk)) (ls_pub l) ->
  (forall k ok, nth_error (answers subject o) k = Some ok -> pf k = negb ok) ->
  ls_failed l = Z.of_nat (length (refused subject o)).
Proof.
  intros M D l E P A. destruct (refused_answers subject o) as [R1 R2].
  assert (F : ls_failed l = fails pf (length (ls_pub l))) by (exact (proj2 (proj2 (proj2 (udp_counters pf c now us M D))))).
  rewrite F. unfold fails. f_equal. rewrite R1. replace (length (ls_pub l)) with (length (answers subject o)) by (rewrite <- R2, P; apply map_length).
  apply filter_seq. exact A.
Qed.
(** And if the outages are gentle, the subscriber gets, in order, every byte that came in on the listener's port. *)
Theorem C117_listener_partial subject ls s o pf c now us : 0 <= lc_max_size c -> Forall (fun u => Z.of_nat (length (u_data u)) <= 65536) us ->
  let l := udp_run pf c (newListener c now) us in
  orun subject ostart ls = Some (s, o) -> published subject o = map (fun chunk => (subject, chunk)) (ls_pub l) -> gentle_run subject ostart ls ->
  concat (map snd (received o ++ under_way subject s)) ++ Bytes (ls_batch l) = concat (arrived us).
Proof.
  intros M D l E P G. destruct (C117_gentle_partial subject ls s o E G) as [A _]. rewrite A, P, map_map. cbn [snd]. rewrite map_id. exact (udp_conservation pf c now us M D).
Qed.

(** ** What the property says is not true *)
Definition sj : bytes := lit "spout".
Definition m1 : bytes * bytes := (sj, lit "one").
Definition m2 : bytes * bytes := (sj, lit "two").
(** A restart with nothing under way, and two messages published meanwhile, which fit in the buffer: if the publisher is back before the subscriber, it sends
    what it has kept to a server without subscribers.  Nobody counts that. *)
Theorem C117_back_first_refuted : exists s o,
  orun sj ostart [ServerDown; Notice; Pub m1 false; Pub m2 false; ServerUp; PubBack; Take; Take; SubBack] = Some (s, o) /\
  received o = [] /\ refused sj o = [] /\ under_way sj s = [] /\ unheard o = [m1; m2].
Proof. do 2 eexists. split; [vm_compute; reflexivity|]. repeat split; reflexivity. Qed.
(** What was on the connection is lost although Publish returned nil. *)
Theorem C117_wire_refuted : exists s o,
  orun sj ostart [Pub m1 false; ServerDown; Pub m2 false; Notice; ServerUp; SubBack; PubBack] = Some (s, o) /\
  received o = [] /\ refused sj o = [] /\ under_way sj s = [] /\ lost o = [m1; m2].
Proof. do 2 eexists. split; [vm_compute; reflexivity|]. repeat split; reflexivity. Qed.
(** A component which is restarted before the server is back loses what it has kept, uncounted. *)
Theorem C117_restart_refuted : exists s o,
  orun sj ostart [ServerDown; Notice; Pub m1 false; Pub m2 false; Restart; ServerUp; SubBack; PubBack] = Some (s, o) /\
  received o = [] /\ refused sj o = [] /\ under_way sj s = [] /\ lost o = [m1; m2].
Proof. do 2 eexists. split; [vm_compute; reflexivity|]. repeat split; reflexivity. Qed.
(** And if a connection breaks again while the client sends what it has kept, it sends all of it once more. *)
Theorem C117_once_refuted : exists s o,
  orun sj ostart [ServerDown; Notice; Pub m1 false; Pub m2 false; ServerUp; SubBack; PubBackFails 1; PubBack; Take; Take; Deliver; Deliver; Deliver] = Some (s, o) /\
  published sj o = [m1; m2] /\ received o = [m1; m1; m2].
Proof. do 2 eexists. split; [vm_compute; reflexivity|]. split; reflexivity. Qed.

Print Assumptions C117_account_partial.
Print Assumptions C117_order_partial.
Print Assumptions C117_gentle_partial.
Print Assumptions C117_room.
Print Assumptions C117_size.
Print Assumptions C117_memory.
Print Assumptions C117_forever.
Print Assumptions C117_soon.
Print Assumptions C117_tap_partial.
Print Assumptions C117_tap_refuted.
Print Assumptions C117_counted.
Print Assumptions C117_listener_partial.
Print Assumptions C117_back_first_refuted.
Print Assumptions C117_wire_refuted.
Print Assumptions C117_restart_refuted.
Print Assumptions C117_once_refuted.

(** Non-vacuity: a restart of the server, with a message before, one during and one after it. *)
Definition restart : list olabel :=
  [Pub m1 false; Take; Deliver; ServerDown; Notice; Pub m2 false; ServerUp; SubBack; PubBack; Take; Pub m1 false; Take; Deliver].
Example a_gentle_restart : gentle_run sj ostart restart /\ exists s o, orun sj ostart restart = Some (s, o) /\ received o = [m1; m2] /\ under_way sj s = [m1].
Proof. split; [vm_compute; repeat split; reflexivity|]. do 2 eexists. split; [vm_compute; reflexivity|]. split; reflexivity. Qed.
(** A message as it goes over the connection. *)
Example a_frame : frame m1 = lit "PUB spout 3" ++ crlf ++ lit "one" ++ crlf.
Proof. reflexivity. Qed.
(** An outage of 9 s with attempts every 4 s. *)
Example soon : doReconnect componentMax [0] (map (fun t => 9 <=? t) [0; 4; 8; 12; 16]) 0 = Connected 3.
Proof. reflexivity. Qed.
