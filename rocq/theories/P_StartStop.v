(** C80: a component that cannot start reports it and leaves nothing behind; a stopped one neither. *)
From Verif Require Import Base Config StartStop.
Local Open Scope nat_scope.

(** A start succeeds exactly when everything it needs can be had, whichever calls fail. *)
Theorem C80_start_iff : forall c workers subjects fails,
  (exists h, start c workers subjects fails = SOk h) <-> Forall (fun k => fails k = false) (needs c workers subjects).
Proof. exact start_ok. Qed.
Print Assumptions C80_start_iff.

(** A started component consists of what it should: connections, subscriptions, goroutines. *)
Theorem C80_running : forall c workers subjects fails h,
  start c workers subjects fails = SOk h -> Permutation h (running c workers subjects).
Proof. exact start_running. Qed.
Print Assumptions C80_running.

(** Filter, downsampler, writer and monitor: a failed start, at whatever point, leaves nothing behind, and so does Stop
    after a start; neither panics. *)
Theorem C80_clean_partial : forall c workers subjects fails, c <> Listener -> c <> HTTPListener ->
  match start c workers subjects fails with SOk h => stop c h = Some [] | SFailed h => h = [] | SPanicked => False end.
Proof. exact failed_start_clean. Qed.
Print Assumptions C80_clean_partial.

(** The listeners: Stop leaves nothing behind, but a failed start leaves exactly this: the probe server (which goes on
    answering that the component is alive) if NATS cannot be reached, the UDP socket if its buffer cannot be set. *)
Theorem C80_listener_partial : forall workers subjects fails,
  match start Listener workers subjects fails with
  | SOk h => stop Listener h = Some []
  | SFailed h => h = if fails CConnect then [RProbes] else if fails CResolve || fails CListen then [] else [RSock]
  | SPanicked => False
  end.
Proof. exact listener_start. Qed.
Print Assumptions C80_listener_partial.

Theorem C80_http_listener_partial : forall workers subjects fails,
  match start HTTPListener workers subjects fails with
  | SOk h => stop HTTPListener h = Some []
  | SFailed h => h = [RProbes]
  | SPanicked => False
  end.
Proof. exact http_listener_start. Qed.
Print Assumptions C80_http_listener_partial.

(** So it is false of the listeners. *)
Theorem C80_listener_refuted :
  start Listener 0 1 (fun k => match k with CConnect => true | _ => false end) = SFailed [RProbes] /\
  start Listener 0 1 (fun k => match k with CReadBuffer => true | _ => false end) = SFailed [RSock] /\
  start HTTPListener 0 1 (fun k => match k with CConnect => true | _ => false end) = SFailed [RProbes].
Proof. repeat split. Qed.
Print Assumptions C80_listener_refuted.

(** Non-vacuity: a filter with three workers whose third worker cannot connect; one that starts. *)
Example C80_filter_third : start Filter 3 1 (fun k => match k with CWConnect 2 => true | _ => false end) = SFailed [] /\
  snd (execute (fun k => match k with CWConnect 2 => true | _ => false end) [RProbes] (filter_start 3)) = false /\
  length (fst (execute (fun k => match k with CWConnect 2 => true | _ => false end) [RProbes] (filter_start 3))) = 6.
Proof. repeat split. Qed.
Example C80_filter_ok : start Filter 2 1 (fun _ => false) = SOk [RProbes; RConn; RWConn 0; RGo 0; RWConn 1; RGo 1; RSub 0; RGo 2].
Proof. reflexivity. Qed.
Example C80_writer_limits : start Writer 8 3 (fun k => match k with CLimits 1 => true | _ => false end) = SFailed [].
Proof. reflexivity. Qed.
