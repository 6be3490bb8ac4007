(** C79 (a slow client does not hold up others) and the part of C21 (age of batches) that depends on the mutex. *)
From Verif Require Import Base Batch Timestamps LinesSpec Listener ListenerSpec HttpLock.
Local Open Scope Z_scope.

(** Reading bodies from the network call by call, under the mutex, gives the same batches, messages, counters and answers as
    reading each body in one step (the model of C19-C21 and C68). *)
Theorem C79_atomic : forall pf c t0 qs labs f, lk_run pf c (lk_init c t0 qs) labs = Some f -> in_order t0 labs ->
  exists clabs, same_but_wake (lk_h f) (hrun pf c (hinit c t0 qs) clabs) /\ monotone t0 clabs.
Proof. exact lock_refines. Qed.
Print Assumptions C79_atomic.

(** False: while a body in nanoseconds is being read, then for as long as its client sends nothing, and whatever else
    happens, nothing is published, nothing is batched, no other write is answered (with data) and the age checking
    goroutine stands still. *)
Theorem C79_stalled_refuted : forall pf c f labs f' k, lk_run pf c f labs = Some f' -> lk_lock f = Some k ->
  (forall t, ~ In (KRead (k_req k), t) labs) ->
  ls_pub (h_l (lk_h f')) = ls_pub (h_l (lk_h f)) /\ h_log (lk_h f') = h_log (lk_h f) /\ lk_lock f' = Some k /\ lk_sender f' = lk_sender f /\
  ls_batch (h_l (lk_h f')) = ls_batch (h_l (lk_h f)) /\
  forall i, nth_error (h_reqs (lk_h f')) i = Some (RDone true) -> nth_error (h_reqs (lk_h f)) i = Some (RDone true).
Proof. exact stalled. Qed.
Print Assumptions C79_stalled_refuted.

(** The first client's line is acknowledged, the second client sends one byte and pauses, a third client waits. *)
Definition stall_conf : lconf := mkLConf 10 1000 100000.
Definition stall_reqs : list hreq :=
  [mkReq [] (lit "cpu x=1
") [(100%nat, EEOF)] false false; mkReq [] (lit "disk z=3
") [(1%nat, ENone); (100%nat, EEOF)] false false; mkReq [] (lit "mem y=2
") [(100%nat, EEOF)] false false].
Definition stall_labs : list (lklabel * Z) :=
  [(KCompute, 0); (KAcquire 0, 1); (KRead 0, 1); (KReq 0, 2); (KAcquire 1, 3); (KRead 1, 4)].

Theorem C79_case_refuted : exists f k, lk_run (fun _ => false) stall_conf (lk_init stall_conf 0 stall_reqs) stall_labs = Some f /\ in_order 0 stall_labs /\
  lk_lock f = Some k /\ nth_error (h_reqs (lk_h f)) 0 = Some (RDone true) /\ h_log (lk_h f) = [(0%nat, lit "cpu x=1
")] /\
  forall labs f', lk_run (fun _ => false) stall_conf f labs = Some f' -> (forall t, ~ In (KRead 1, t) labs) ->
    ls_pub (h_l (lk_h f')) = [] /\ nth_error (h_reqs (lk_h f')) 2 <> Some (RDone true).
Proof.
  destruct (lk_run (fun _ => false) stall_conf (lk_init stall_conf 0 stall_reqs) stall_labs) as [f|] eqn:E; [|vm_compute in E; discriminate].
  vm_compute in E. injection E as E. eexists f, _. split; [reflexivity|]. split; [vm_compute; repeat split; discriminate|]. rewrite <- E.
  split; [reflexivity|]. split; [reflexivity|]. split; [reflexivity|].
  intros labs f' R N. destruct (stalled _ _ _ _ _ _ R eq_refl N) as (A & _ & _ & _ & _ & B). split; [rewrite A; reflexivity|].
  intros X. apply B in X. discriminate X.
Qed.
Print Assumptions C79_case_refuted.

(** Proved: the bodies of requests in another precision are read without the mutex.  If there are only such requests the
    mutex is free whenever no step is being taken, so nobody waits for a client. *)
Theorem C79_converted_partial : forall pf c t0 qs labs f, Forall converted qs -> lk_run pf c (lk_init c t0 qs) labs = Some f ->
  lk_lock f = None /\
  forall t, 0 <= overdue (lk_sender f) t -> exists f', lk_step pf c f (match lk_sender f with SCompute _ => KCompute | SWait _ => KWake end, t) = Some f'.
Proof. intros pf c t0 qs labs f F R. pose proof (never_held pf c t0 qs labs f F R) as L. split; [exact L|intros t; apply sender_ready; exact L]. Qed.
Print Assumptions C79_converted_partial.

(* ------------------------------------------------------------------ *)
(** * C21 with the mutex *)

(** False as stated: in the history above all timers are on time, but from then on the age checking goroutine cannot run
    until the second client goes on, at whatever time [now] that is; the first client's data grows as old as one likes. *)
Theorem C21_slow_client_refuted : exists f, lk_run (fun _ => false) stall_conf (lk_init stall_conf 0 stall_reqs) stall_labs = Some f /\
  prompt (fun _ => false) stall_conf 0 (lk_init stall_conf 0 stall_reqs) stall_labs /\
  forall now, Age (ls_batch (h_l (lk_h f))) now = now - 1 /\
    lk_step (fun _ => false) stall_conf f (KWake, now) = None /\ lk_step (fun _ => false) stall_conf f (KCompute, now) = None.
Proof.
  destruct (lk_run (fun _ => false) stall_conf (lk_init stall_conf 0 stall_reqs) stall_labs) as [f|] eqn:E; [|vm_compute in E; discriminate].
  vm_compute in E. injection E as E. exists f. split; [reflexivity|]. split; [vm_compute; repeat split; discriminate|]. rewrite <- E.
  intros now. split; [reflexivity|]. split; reflexivity.
Qed.
Print Assumptions C21_slow_client_refuted.

(** Proved: if the age checking goroutine never waits more than [slack] for the mutex and the processor, no data older than
    batch_max_age + slack is held. *)
Theorem C21_lock_age_partial : forall pf c slack t0 qs, 0 <= lc_max_size c -> 0 <= lc_max_age c -> 0 <= slack -> forall labs now f,
  lk_run pf c (lk_init c t0 qs) labs = Some f -> in_order t0 (labs ++ [(KWake, now)]) ->
  prompt pf c slack (lk_init c t0 qs) (labs ++ [(KWake, now)]) ->
  Age (ls_batch (h_l (lk_h f))) now <= lc_max_age c + slack.
Proof. exact lock_age. Qed.
Print Assumptions C21_lock_age_partial.

(** Non-vacuity: the second client goes on after 600 ns; the age checking goroutine is 5 ns late. *)
Definition ok_labs : list (lklabel * Z) := stall_labs ++ [(KRead 1, 600); (KAcquire 2, 601); (KRead 2, 602); (KReq 2, 603); (KReq 1, 604)].
Example C21_lock_case : exists f, lk_run (fun _ => false) stall_conf (lk_init stall_conf 0 stall_reqs) ok_labs = Some f /\
  in_order 0 (ok_labs ++ [(KWake, 1005)]) /\ prompt (fun _ => false) stall_conf 5 (lk_init stall_conf 0 stall_reqs) (ok_labs ++ [(KWake, 1005)]) /\
  Age (ls_batch (h_l (lk_h f))) 1005 = 1004 /\
  option_map (fun f' => ls_pub (h_l (lk_h f'))) (lk_run (fun _ => false) stall_conf f [(KWake, 1005); (KCompute, 1006)]) = Some [lit "cpu x=1
disk z=3
mem y=2
"].
Proof.
  destruct (lk_run (fun _ => false) stall_conf (lk_init stall_conf 0 stall_reqs) ok_labs) as [f|] eqn:E; [|vm_compute in E; discriminate].
  exists f. split; [reflexivity|]. vm_compute in E. injection E as E. rewrite <- E.
  split; [vm_compute; repeat split; discriminate|]. split; [vm_compute; repeat split; discriminate|]. split; vm_compute; reflexivity.
Qed.
Example C79_converted_case : exists f, Forall converted [mkReq (lit "s") (lit "cpu x=1 1500000000
") [] false false] /\
  lk_run (fun _ => false) stall_conf (lk_init stall_conf 0 [mkReq (lit "s") (lit "cpu x=1 1500000000
") [] false false]) [(KCompute, 0); (KReq 0, 1); (KReq 0, 2); (KReq 0, 3); (KWake, 1000)] = Some f /\ lk_sender f = SCompute 1000.
Proof. eexists. split; [constructor; [split; discriminate|constructor]|]. split; vm_compute; reflexivity. Qed.
