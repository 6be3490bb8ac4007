(** C105: measurements of the present are not discarded by the downsampler. *)
From Verif Require Import Base LinesSpec NumSpec Assigner AssignerSpec AssignerProofs Skew.
Local Open Scope Z_scope.

(** The worker keeps up with the clock with a delay [delta] of less than a period: a line is refused because
    of its timestamp only if it is more than a period old or more than a period minus the delay ahead of the
    clock, and certainly if it is two periods (plus the delay) off. *)
Theorem C105_window_partial : forall (B E : Type) (newBucket : Z -> B) (addLine : B -> bytes -> B * list E) fail p delta now0 before t after,
  0 < p -> 0 <= delta < p ->
  punctual B p delta now0 (before ++ t :: after) ->
  let d := worker_run B E newBucket addLine fail (newWorker B newBucket p now0) before in
  refuses_only_distant B E p delta t (turn_errors B E addLine d t).
Proof. exact punctual_window. Qed.
Print Assumptions C105_window_partial.

(** In particular no line without a timestamp. *)
Theorem C105_untimed : forall (B E : Type) (newBucket : Z -> B) (addLine : B -> bytes -> B * list E) fail p delta now0 before t after line,
  0 < p -> 0 <= delta < p ->
  punctual B p delta now0 (before ++ t :: after) -> untimed line ->
  let errs := turn_errors B E addLine (worker_run B E newBucket addLine fail (newWorker B newBucket p now0) before) t in
  ~ In (UTooOld line) errs /\ ~ In (UTooNew line) errs.
Proof. exact punctual_untimed. Qed.
Print Assumptions C105_untimed.

(** And if all lines have timestamps within that distance the counter of invalid timestamps stays 0. *)
Theorem C105_none_refused : forall (B E : Type) (newBucket : Z -> B) (addLine : B -> bytes -> B * list E) fail p delta now0 turns,
  0 < p -> 0 <= delta < p ->
  punctual B p delta now0 turns ->
  (forall t line now ts body, In t turns -> In (line, now) (lines_read B t) -> stamped line now ts body -> now - p <= ts < now + p - delta) ->
  d_invalid_ts (d_st B (worker_run B E newBucket addLine fail (newWorker B newBucket p now0) turns)) = 0.
Proof. exact punctual_none. Qed.
Print Assumptions C105_none_refused.

(** The delay is counted from the moment the worker's timer fires: it is set to the end of the period of
    the last clock reading. *)
Theorem C105_timer : forall (B E : Type) (newBucket : Z -> B) (addLine : B -> bytes -> B * list E) fail p delta now0 turns e,
  0 < p -> 0 <= delta < p ->
  punctual B p delta now0 turns -> period_end p (last_reading B now0 turns) e ->
  last_reading B now0 turns +
  UntilNext B (d_asg B (worker_run B E newBucket addLine fail (newWorker B newBucket p now0) turns)) (last_reading B now0 turns) = e.
Proof. exact punctual_timer. Qed.
Print Assumptions C105_timer.

(** A worker which stalls (a suspended process, a blocked publish) until the [m]-th period after the end of the
    current one refuses every line of the present, with a timestamp or without, in its next [m - 1] turns,
    although its timer is due at once. *)
Theorem C105_stall_refuted : forall (B E : Type) (newBucket : Z -> B) (addLine : B -> bytes -> B * list E) fail p delta now0 before e m late t,
  0 < p -> 0 <= delta < p ->
  punctual B p delta now0 before -> period_end p (last_reading B now0 before) e ->
  Forall (fun t => Forall (fun r => e + (m - 1) * p <= r < e + m * p) (readings B t)) (late ++ [t]) ->
  Z.of_nat (length late) + 1 < m ->
  (forall line now ts body, In (line, now) (lines_read B t) -> stamped line now ts body -> e + (m - 1) * p <= ts) ->
  let d := worker_run B E newBucket addLine fail (newWorker B newBucket p now0) (before ++ late) in
  turn_errors B E addLine d t = map (fun x => UTooNew (fst x)) (lines_read B t) /\
  UntilNext B (d_asg B d) (t_now B t) = 0.
Proof. exact stall_loses. Qed.
Print Assumptions C105_stall_refuted.

(** After [m] turns it has caught up. *)
Theorem C105_catches_up : forall (B E : Type) (newBucket : Z -> B) (addLine : B -> bytes -> B * list E) fail p delta now0 before e m late more t after,
  0 < p -> 0 <= delta < p ->
  punctual B p delta now0 before -> period_end p (last_reading B now0 before) e ->
  Forall (fun t => Forall (fun r => e + (m - 1) * p <= r < e + m * p) (readings B t)) late ->
  Z.of_nat (length late) = m -> 0 < m ->
  punctual B p delta (last_reading B now0 (before ++ late)) (more ++ t :: after) ->
  refuses_only_distant B E p delta t
    (turn_errors B E addLine (worker_run B E newBucket addLine fail (newWorker B newBucket p now0) (before ++ late ++ more)) t).
Proof. exact stall_catches_up. Qed.
Print Assumptions C105_catches_up.

(** A clock which was set back by more than two periods: every line of the present is refused as too old and
    nothing is published, for as long as the clock is that far back. *)
Theorem C105_set_back_refuted : forall (B E : Type) (newBucket : Z -> B) (addLine : B -> bytes -> B * list E) fail p delta now0 before e late,
  0 < p -> 0 <= delta < p ->
  punctual B p delta now0 before -> period_end p (last_reading B now0 before) e ->
  Forall (fun t => Forall (fun r => r < e - 2 * p) (readings B t) /\
                   forall line now ts body, In (line, now) (lines_read B t) -> stamped line now ts body -> ts < e - 2 * p) late ->
  let d := worker_run B E newBucket addLine fail (newWorker B newBucket p now0) before in
  let d' := worker_run B E newBucket addLine fail d late in
  d_asg B d' = d_asg B d /\ d_pub (d_st B d') = d_pub (d_st B d) /\
  d_invalid_ts (d_st B d') = d_invalid_ts (d_st B d) + Z.of_nat (length (flat_map (lines_read B) late)).
Proof. exact set_back_loses. Qed.
Print Assumptions C105_set_back_refuted.

(** Cases: period 10, started at ...013, so the first period ends at ...020. *)
Definition sk_add (b : list bytes) (l : bytes) : list bytes * list bytes := (b ++ [l], []).
Definition sk_turn (msg : bytes) (now : Z) : turn (list bytes) :=
  mkTurn (list bytes) (Some (msg, fun _ => now)) now (fun eb => concat (snd eb)).
Definition sk_t0 := 1510000000000000000.
Definition sk_run := worker_run (list bytes) bytes (fun _ => []) sk_add (fun _ => false) (newWorker (list bytes) (fun _ => []) 10 (sk_t0 + 13)).

(** Turns at 15, 22, 31: punctual with delay 3; all lines accepted, of which one a period ahead and one a period back. *)
Definition sk_good : list (turn (list bytes)) :=
  [sk_turn (lit "a x=1") (sk_t0 + 15); sk_turn (lit "b x=1 1510000000000000012") (sk_t0 + 22); sk_turn (lit "c x=1 1510000000000000037") (sk_t0 + 31)].
Example C105_window_case : punctual (list bytes) 10 3 (sk_t0 + 13) sk_good /\ d_invalid_ts (d_st _ (sk_run sk_good)) = 0 /\
  d_pub (d_st _ (sk_run sk_good)) = [lit "a x=1b x=1"].
Proof.
  split; [|split; vm_compute; reflexivity]. unfold sk_good.
  apply pu_cons with (e := sk_t0 + 20); [vm_compute; intuition congruence|repeat constructor; vm_compute; congruence|].
  apply pu_cons with (e := sk_t0 + 20); [vm_compute; intuition congruence|repeat constructor; vm_compute; congruence|].
  apply pu_cons with (e := sk_t0 + 30); [vm_compute; intuition congruence|repeat constructor; vm_compute; congruence|].
  constructor.
Qed.

(** The same two turns at 22 and 31, with lines two periods off: refused. *)
Example C105_distant_case :
  turn_errors (list bytes) bytes sk_add (sk_run [sk_turn (lit "a x=1") (sk_t0 + 15)]) (sk_turn (lit "b x=1 1509999999999999998") (sk_t0 + 22)) =
    [UTooOld (lit "b x=1 1509999999999999998")] /\
  turn_errors (list bytes) bytes sk_add (sk_run [sk_turn (lit "a x=1") (sk_t0 + 15)]) (sk_turn (lit "b x=1 1510000000000000042") (sk_t0 + 22)) =
    [UTooNew (lit "b x=1 1510000000000000042")].
Proof. split; vm_compute; reflexivity. Qed.

(** A stall until 45, the third period after the one that ended at 20: two turns refuse a line without a
    timestamp, the third accepts it. *)
Example C105_stall_case :
  let before := [sk_turn (lit "a x=1") (sk_t0 + 15)] in
  let late := [sk_turn (lit "b x=1") (sk_t0 + 45); sk_turn (lit "b x=2") (sk_t0 + 46); sk_turn (lit "b x=3") (sk_t0 + 47)] in
  punctual (list bytes) 10 3 (sk_t0 + 13) before /\ period_end 10 (last_reading (list bytes) (sk_t0 + 13) before) (sk_t0 + 20) /\
  Forall (fun t => Forall (fun r => sk_t0 + 20 + (3 - 1) * 10 <= r < sk_t0 + 20 + 3 * 10) (readings (list bytes) t)) late /\
  turn_errors (list bytes) bytes sk_add (sk_run before) (sk_turn (lit "b x=1") (sk_t0 + 45)) = [UTooNew (lit "b x=1")] /\
  turn_errors (list bytes) bytes sk_add (sk_run (before ++ firstn 1 late)) (sk_turn (lit "b x=2") (sk_t0 + 46)) = [UTooNew (lit "b x=2")] /\
  turn_errors (list bytes) bytes sk_add (sk_run (before ++ firstn 2 late)) (sk_turn (lit "b x=3") (sk_t0 + 47)) = [] /\
  d_invalid_ts (d_st _ (sk_run (before ++ late))) = 2.
Proof.
  split; [|split; [|split; [|split; [|split; [|split]]]]].
  - apply pu_cons with (e := sk_t0 + 20); [vm_compute; intuition congruence|repeat constructor; vm_compute; congruence|constructor].
  - vm_compute; intuition congruence.
  - repeat constructor; vm_compute; congruence.
  - vm_compute; reflexivity.
  - vm_compute; reflexivity.
  - vm_compute; reflexivity.
  - vm_compute; reflexivity.
Qed.

(** A clock set back to ...(-10): a line without a timestamp is refused, and so is one of that time. *)
Example C105_set_back_case :
  let before := [sk_turn (lit "a x=1") (sk_t0 + 15)] in
  let late := [sk_turn (lit "b x=1") (sk_t0 - 10); mkTurn (list bytes) None (sk_t0 - 1) (fun _ => [])] in
  Forall (fun t => Forall (fun r => r < sk_t0 + 20 - 2 * 10) (readings (list bytes) t)) late /\
  d_invalid_ts (d_st _ (sk_run (before ++ late))) = 1 /\ d_pub (d_st _ (sk_run (before ++ late))) = [].
Proof.
  split; [|split; vm_compute; reflexivity]. repeat constructor.
Qed.
