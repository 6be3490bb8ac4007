(** Model of what starting and stopping the components acquire and release: the Start functions and Stop methods of
    listener/listener.go, filter/filter.go, downsampler/downsampler.go, writer/writer.go and monitor/monitor.go, with
    any of the calls that can fail failing.

    Simplified: what the goroutines do is not modelled here, only that they are started and that they return once the
    stop channel is closed (C45, C67 and the loops' select statements); so wg.Wait returns.  Goroutines of the NATS
    library are part of their connection.  The rule set is a call that may fail (C52). *)
From Verif Require Import Base Config.
Local Open Scope nat_scope.

(** Things that outlive a call if nobody releases them. *)
Inductive resource :=
| RProbes                  (** the probe server (probes/probes.go:49-75) *)
| RConn                    (** the component's NATS connection *)
| RWConn (i : nat)         (** the connection of a filter's i-th worker (filter/worker.go:49) *)
| RSub (i : nat)           (** the i-th subscription *)
| RSock                    (** the UDP socket *)
| RGo (i : nat).           (** a goroutine the component waits for in Stop *)

(** Calls that can fail. *)
Inductive call :=
| CRules                   (** filter.RuleSetFromConfig *)
| CConnect                 (** nats.Connect *)
| CWConnect (i : nat)      (** nats.Connect for worker i *)
| CSubscribe (i : nat)     (** Subscribe, QueueSubscribe *)
| CLimits (i : nat)        (** SetPendingLimits *)
| CFlush                   (** nats Flush *)
| CResolve                 (** net.ResolveUDPAddr *)
| CListen                  (** net.ListenUDP *)
| CReadBuffer.             (** SetReadBuffer *)

(** One step of a Start function: a call that can fail and what it acquires if it does not, or something that always
    works. *)
Inductive sinstr :=
| Try (c : call) (acquires : list resource)
| Do (acquires : list resource).

(** filter/filter.go:44-113 with [workers] and one subject: rules 57-60, connection 65-68, workers 70-86, subscription
    92-103, statistician 105-106. *)
Definition filter_start (workers : nat) : list sinstr :=
  [Try CRules []; Try CConnect [RConn]] ++
  flat_map (fun i => [Try (CWConnect i) [RWConn i]; Do [RGo i]]) (seq 0 workers) ++
  [Try (CSubscribe 0) [RSub 0]; Try (CLimits 0) []; Do [RGo workers]].

(** downsampler/downsampler.go:74-103: connection, per subject a worker, a subscription and its limits; flush;
    statistician. *)
Definition downsampler_start (subjects : nat) : list sinstr :=
  [Try CConnect [RConn]] ++
  flat_map (fun i => [Do [RGo i]; Try (CSubscribe i) [RSub i]; Try (CLimits i) []]) (seq 0 subjects) ++
  [Try CFlush []; Do [RGo subjects]].

(** writer/writer.go:73-120: rules, connection, workers, per subject a subscription and its limits; flush;
    statistician. *)
Definition writer_start (workers subjects : nat) : list sinstr :=
  [Try CRules []; Try CConnect [RConn]; Do (map RGo (seq 0 workers))] ++
  flat_map (fun i => [Try (CSubscribe i) [RSub i]; Try (CLimits i) []]) (seq 0 subjects) ++
  [Try CFlush []; Do [RGo workers]].

(** monitor/monitor.go:46-60: connection, subscription, flush, HTTP server. *)
Definition monitor_start : list sinstr :=
  [Try CConnect [RConn]; Try (CSubscribe 0) [RSub 0]; Try CFlush []; Do [RGo 0]].

(** listener/listener.go:130-149 newListener after the probes. *)
Definition new_listener : list sinstr := [Try CConnect [RConn]].

(** listener/listener.go:67-74 with setupUDP 151-172. *)
Definition udp_start : list sinstr := [Try CResolve []; Try CListen [RSock]; Try CReadBuffer []; Do [RGo 0; RGo 1]].

(** listener/listener.go:89-93 with setupHTTP 220-223. *)
Definition http_start : list sinstr := [Do [RGo 2]; Do [RGo 0; RGo 1]].

(** Runs steps until a call fails; [true]: all succeeded.  [held] are the resources held. *)
Fixpoint execute (fails : call -> bool) (held : list resource) (p : list sinstr) : list resource * bool :=
  match p with
  | [] => (held, true)
  | Do r :: p' => execute fails (held ++ r) p'
  | Try c r :: p' => if fails c then (held, false) else execute fails (held ++ r) p'
  end.

Definition is_conn (r : resource) : bool := match r with RConn => true | _ => false end.

(** close(stop) and wg.Wait: the goroutines return.  A filter's workers close their connections first
    (filter/worker.go:75-78); the goroutine reading the UDP socket closes it (listener/listener.go:182-185). *)
Definition await (c : component) (held : list resource) : list resource :=
  filter (fun r => match r with
                   | RGo _ => false
                   | RWConn i => negb (existsb (fun x => match x with RGo j => Nat.eqb i j | _ => false end) held)
                   | RSock => negb (existsb (fun x => match x with RGo 1 => true | _ => false end) held)
                   | _ => true
                   end) held.

(** nc.Close: the connection with its subscriptions. *)
Definition close_conn (held : list resource) : list resource :=
  filter (fun r => match r with RConn | RSub _ => false | _ => true end) held.

(** Unsubscribe; on a nil subscription it returns an error, which is ignored. *)
Definition unsubscribe (held : list resource) : list resource :=
  filter (fun r => match r with RSub _ => false | _ => true end) held.

Definition close_probes (held : list resource) : list resource :=
  filter (fun r => match r with RProbes => false | _ => true end) held.

(** The Stop methods: listener/listener.go:118-126 (the connection is closed without a nil check: None is the panic),
    filter/filter.go:142-159, downsampler/downsampler.go:118-137, writer/writer.go:134-145, monitor/monitor.go:83-100. *)
Definition stop (c : component) (held : list resource) : option (list resource) :=
  match c with
  | Listener | HTTPListener =>
      let h := await c held in
      if existsb is_conn h then Some (close_probes (close_conn h)) else None
  | Filter | Monitor => Some (close_probes (close_conn (await c (unsubscribe held))))
  | Downsampler => Some (close_probes (close_conn (unsubscribe (await c held))))
  | Writer => Some (close_probes (close_conn (await c held)))
  end.

(** How a start ends: with what is held then. *)
Inductive started :=
| SOk (held : list resource)
| SFailed (held : list resource)
| SPanicked.

(** Start steps [p], of which [before] come before the deferred function that calls Stop on an error is set up. *)
Definition start_with (c : component) (fails : call -> bool) (before p : list sinstr) : started :=
  match execute fails [RProbes] before with
  | (h, false) => SFailed h
  | (h, true) =>
      match execute fails h p with
      | (h', true) => SOk h'
      | (h', false) => match stop c h' with Some h'' => SFailed h'' | None => SPanicked end
      end
  end.

(** The Start functions; [workers] and [subjects] from the configuration (a writer with a negative number of workers
    does not get this far, C63).  Listener: listener/listener.go:56-80 and 84-100. *)
Definition start (c : component) (workers subjects : nat) (fails : call -> bool) : started :=
  match c with
  | Listener => start_with c fails new_listener udp_start
  | HTTPListener => start_with c fails new_listener http_start
  | Filter => start_with c fails [] (filter_start workers)
  | Downsampler => start_with c fails [] (downsampler_start subjects)
  | Writer => start_with c fails [] (writer_start workers subjects)
  | Monitor => start_with c fails [] monitor_start
  end.

(* ------------------------------------------------------------------ *)
(** * Specification *)

(** The calls a start depends on. *)
Definition needs (c : component) (workers subjects : nat) : list call :=
  match c with
  | Listener => [CConnect; CResolve; CListen; CReadBuffer]
  | HTTPListener => [CConnect]
  | Filter => [CRules; CConnect; CSubscribe 0; CLimits 0] ++ map CWConnect (seq 0 workers)
  | Downsampler => [CConnect; CFlush] ++ map CSubscribe (seq 0 subjects) ++ map CLimits (seq 0 subjects)
  | Writer => [CRules; CConnect; CFlush] ++ map CSubscribe (seq 0 subjects) ++ map CLimits (seq 0 subjects)
  | Monitor => [CConnect; CSubscribe 0; CFlush]
  end.

(** What a running component consists of. *)
Definition running (c : component) (workers subjects : nat) : list resource :=
  match c with
  | Listener => [RProbes; RConn; RSock; RGo 0; RGo 1]
  | HTTPListener => [RProbes; RConn; RGo 0; RGo 1; RGo 2]
  | Filter => [RProbes; RConn; RSub 0] ++ map RWConn (seq 0 workers) ++ map RGo (seq 0 (S workers))
  | Downsampler => [RProbes; RConn] ++ map RSub (seq 0 subjects) ++ map RGo (seq 0 (S subjects))
  | Writer => [RProbes; RConn] ++ map RSub (seq 0 subjects) ++ map RGo (seq 0 (S workers))
  | Monitor => [RProbes; RConn; RSub 0; RGo 0]
  end.

(* ------------------------------------------------------------------ *)
(** * Proofs *)

Lemma exec_app : forall fails p q held, execute fails held (p ++ q) =
  let (h, ok) := execute fails held p in if ok then execute fails h q else (h, false).
Proof.
  intros fails. induction p as [|[c r|r] p IH]; intros q held; cbn [app execute]; [reflexivity| |apply IH].
  destruct (fails c); [reflexivity|apply IH].
Qed.

(** Whatever Stop must release is held together with what releases it. *)
Definition good (h : list resource) : Prop :=
  forall r, In r h -> match r with RWConn i => In (RGo i) h | RSock => False | _ => True end.
Definition keeps (p : list sinstr) : Prop := forall fails held h ok, good held -> execute fails held p = (h, ok) -> good h.

Lemma keeps_app : forall p q, keeps p -> keeps q -> keeps (p ++ q).
Proof.
  intros p q A B fails held h ok G E. rewrite exec_app in E. destruct (execute fails held p) as [h1 [|]] eqn:E1.
  - exact (B _ _ _ _ (A _ _ _ _ G E1) E).
  - injection E as E _. subst h1. exact (A _ _ _ _ G E1).
Qed.
Lemma keeps_flat : forall (f : nat -> list sinstr) l, (forall i, keeps (f i)) -> keeps (flat_map f l).
Proof.
  intros f l K. induction l as [|i l IH]; cbn [flat_map]; [|apply keeps_app; [apply K|exact IH]].
  intros fails held h ok G E. injection E as E _. subst. exact G.
Qed.
Definition plain (r : resource) : Prop := match r with RWConn _ | RSock => False | _ => True end.
Lemma good_app : forall h r, good h -> Forall plain r -> good (h ++ r).
Proof.
  intros h r G F x X. apply in_app_or in X as [X|X].
  - specialize (G x X). destruct x; try exact G. apply in_or_app. left. exact G.
  - rewrite Forall_forall in F. specialize (F x X). destruct x; try exact Logic.I; destruct F.
Qed.
Lemma keeps_plain : forall p, Forall (fun i => match i with Try _ r | Do r => Forall plain r end) p -> keeps p.
Proof.
  intros p F. induction F as [|i p Hi F IH]; intros fails held h ok G E; cbn [execute] in E.
  - injection E as E _. subst. exact G.
  - destruct i as [c r|r].
    + destruct (fails c); [injection E as E _; subst; exact G|]. exact (IH _ _ _ _ (good_app _ _ G Hi) E).
    + exact (IH _ _ _ _ (good_app _ _ G Hi) E).
Qed.

Lemma nothing_left : forall l : list resource, (forall r, ~ In r l) -> l = [].
Proof. intros [|x l] H; [reflexivity|]. exfalso. exact (H x (or_introl eq_refl)). Qed.

Lemma await_good : forall c h r, good h -> In r (await c h) -> plain r /\ match r with RGo _ => False | _ => True end.
Proof.
  intros c h r G I1. apply filter_In in I1 as [I1 A1]. specialize (G r I1).
  destruct r as [| |i|i| |i]; try (split; exact Logic.I); try discriminate A1; [|destruct G].
  exfalso. apply negb_true_iff in A1. apply Bool.not_true_iff_false in A1. apply A1. apply existsb_exists. exists (RGo i). split; [exact G|apply Nat.eqb_refl].
Qed.
Lemma unsubscribe_good : forall h, good h -> good (unsubscribe h).
Proof.
  intros h G r I1. apply filter_In in I1 as [I1 _]. specialize (G r I1). destruct r; try exact G. apply filter_In. split; [exact G|reflexivity].
Qed.
Lemma stop_good : forall c h, good h -> c <> Listener -> c <> HTTPListener -> stop c h = Some [].
Proof.
  assert (Z : forall c h, good h -> close_probes (close_conn (await c h)) = []).
  { intros c h G. apply nothing_left. intros r I1. apply filter_In in I1 as [I1 P1]. apply filter_In in I1 as [I1 C1].
    apply (await_good c h r G) in I1 as [A B]. destruct r; try discriminate; try destruct A; destruct B. }
  intros c h G NL NH. destruct c; try (exfalso; auto; fail); cbn [stop]; f_equal.
  - apply Z. apply unsubscribe_good. exact G.
  - apply nothing_left. intros r I1. apply filter_In in I1 as [I1 P1]. apply filter_In in I1 as [I1 C1]. apply filter_In in I1 as [I1 U1].
    apply (await_good _ h r G) in I1 as [A B]. destruct r; try discriminate; try destruct A; destruct B.
  - apply Z. exact G.
  - apply Z. apply unsubscribe_good. exact G.
Qed.

Lemma worker_keeps : forall i, keeps [Try (CWConnect i) [RWConn i]; Do [RGo i]].
Proof.
  intros i fails held h ok G E. cbn [execute] in E. destruct (fails (CWConnect i)); injection E as E _; subst; [exact G|].
  intros r X. rewrite <- app_assoc in *. apply in_app_or in X as [X|X].
  - specialize (G r X). destruct r; try exact G. apply in_or_app. left. exact G.
  - destruct X as [X|[X|[]]]; subst r; [|exact Logic.I]. apply in_or_app. right. right. left. reflexivity.
Qed.
Local Ltac plain_list := repeat first [apply Forall_nil | apply Forall_cons]; cbn; trivial; repeat first [apply Forall_nil | apply Forall_cons]; cbn; trivial.
Lemma filter_keeps : forall w, keeps (filter_start w).
Proof.
  intros w. apply keeps_app; [apply keeps_plain; plain_list|]. apply keeps_app; [apply keeps_flat; apply worker_keeps|apply keeps_plain; plain_list].
Qed.
Lemma downsampler_keeps : forall n, keeps (downsampler_start n).
Proof.
  intros n. apply keeps_app; [apply keeps_plain; plain_list|].
  apply keeps_app; [apply keeps_flat; intros i; apply keeps_plain; plain_list|apply keeps_plain; plain_list].
Qed.
Lemma writer_keeps : forall w n, keeps (writer_start w n).
Proof.
  intros w n. apply keeps_app; [apply keeps_plain; plain_list|].
  { apply Forall_forall. intros r R. apply in_map_iff in R as (i & R & _). subst r. exact Logic.I. }
  apply keeps_app; [apply keeps_flat; intros i; apply keeps_plain; plain_list|apply keeps_plain; plain_list].
Qed.
Lemma monitor_keeps : keeps monitor_start.
Proof. apply keeps_plain; plain_list. Qed.

Lemma good_probes : good [RProbes].
Proof. intros r [R|[]]. subst r. exact Logic.I. Qed.

Lemma start_with_good : forall c fails p, c <> Listener -> c <> HTTPListener -> keeps p ->
  match start_with c fails [] p with SOk h => stop c h = Some [] | SFailed h => h = [] | SPanicked => False end.
Proof.
  intros c fails p NL NH K. unfold start_with. cbn [execute]. destruct (execute fails [RProbes] p) as [h ok] eqn:E.
  pose proof (stop_good c h (K _ _ _ _ good_probes E) NL NH) as X. destruct ok; [exact X|]. rewrite X. reflexivity.
Qed.

Theorem failed_start_clean : forall c workers subjects fails, c <> Listener -> c <> HTTPListener ->
  match start c workers subjects fails with SOk h => stop c h = Some [] | SFailed h => h = [] | SPanicked => False end.
Proof.
  intros c w n fails NL NH. destruct c; try (exfalso; auto; fail); cbn [start]; apply start_with_good; try assumption.
  - apply filter_keeps.
  - apply downsampler_keeps.
  - apply writer_keeps.
  - apply monitor_keeps.
Qed.

Theorem listener_start : forall w n fails,
  match start Listener w n fails with
  | SOk h => stop Listener h = Some []
  | SFailed h => h = if fails CConnect then [RProbes] else if fails CResolve || fails CListen then [] else [RSock]
  | SPanicked => False
  end.
Proof.
  intros w n fails. unfold start, start_with, new_listener, udp_start. cbn [execute]. destruct (fails CConnect); [reflexivity|].
  destruct (fails CResolve); [reflexivity|]. destruct (fails CListen); [reflexivity|]. destruct (fails CReadBuffer); reflexivity.
Qed.
Theorem http_listener_start : forall w n fails,
  match start HTTPListener w n fails with
  | SOk h => stop HTTPListener h = Some []
  | SFailed h => h = [RProbes]
  | SPanicked => False
  end.
Proof.
  intros w n fails. unfold start, start_with, new_listener, http_start. cbn [execute]. destruct (fails CConnect); reflexivity.
Qed.

(** When a start succeeds, and with what. *)
Definition instr_calls (p : list sinstr) : list call := flat_map (fun i => match i with Try c _ => [c] | Do _ => [] end) p.
Definition instr_res (p : list sinstr) : list resource := flat_map (fun i => match i with Try _ r | Do r => r end) p.

Lemma exec_all : forall fails p held h, execute fails held p = (h, true) <->
  Forall (fun c => fails c = false) (instr_calls p) /\ h = held ++ instr_res p.
Proof.
  intros fails. induction p as [|[c r|r] p IH]; intros held h; cbn [execute instr_calls instr_res flat_map].
  - rewrite app_nil_r. split; [intros E; injection E as E; subst; split; [constructor|reflexivity]|intros [_ E]; subst; reflexivity].
  - fold (instr_calls p) (instr_res p). destruct (fails c) eqn:Ec.
    + split; [discriminate|intros [F _]; inversion F as [|x l F1 F2]; congruence].
    + rewrite IH, app_assoc. split; [intros [F E]; split; [constructor; assumption|exact E]|intros [F E]; inversion F; split; assumption].
  - fold (instr_calls p) (instr_res p). rewrite IH, app_assoc. reflexivity.
Qed.

Lemma start_with_ok : forall c fails b p h, start_with c fails b p = SOk h <->
  Forall (fun k => fails k = false) (instr_calls (b ++ p)) /\ h = RProbes :: instr_res (b ++ p).
Proof.
  intros c fails b p h. rewrite <- (exec_all fails (b ++ p) [RProbes] h) at 1. unfold start_with.
  transitivity (execute fails [RProbes] (b ++ p) = (h, true)); [|rewrite exec_all; reflexivity]. rewrite exec_app.
  destruct (execute fails [RProbes] b) as [h1 [|]]; [|split; discriminate].
  destruct (execute fails h1 p) as [h2 [|]]; [split; intros E; injection E as E; subst; reflexivity|].
  destruct (stop c h2); split; discriminate.
Qed.

Lemma instr_calls_app : forall p q, instr_calls (p ++ q) = instr_calls p ++ instr_calls q.
Proof. intros p q. apply flat_map_app. Qed.
Lemma instr_res_app : forall p q, instr_res (p ++ q) = instr_res p ++ instr_res q.
Proof. intros p q. apply flat_map_app. Qed.
Lemma flat_flat : forall A B (g : A -> list B) (f : nat -> list A) l, flat_map g (flat_map f l) = flat_map (fun i => flat_map g (f i)) l.
Proof. intros A B g f. induction l as [|x l IH]; [reflexivity|]. cbn [flat_map]. rewrite flat_map_app, IH. reflexivity. Qed.
Lemma flat_one : forall A (f : nat -> A) l, flat_map (fun i => [f i]) l = map f l.
Proof. intros A f. induction l as [|x l IH]; [reflexivity|]. cbn. rewrite IH. reflexivity. Qed.
Lemma flat_two : forall A (f g : nat -> A) l, Permutation (flat_map (fun i => [f i; g i]) l) (map f l ++ map g l).
Proof.
  intros A f g. induction l as [|x l IH]; [reflexivity|]. cbn. apply perm_skip. transitivity (g x :: map f l ++ map g l); [apply perm_skip; exact IH|].
  apply Permutation_middle.
Qed.

Theorem start_ok : forall c w n fails,
  (exists h, start c w n fails = SOk h) <-> Forall (fun k => fails k = false) (needs c w n).
Proof.
  intros c w n fails.
  assert (G : forall b p, Permutation (instr_calls (b ++ p)) (needs c w n) ->
    ((exists h, start_with c fails b p = SOk h) <-> Forall (fun k => fails k = false) (needs c w n))).
  { intros b p P. split.
    - intros [h E]. apply start_with_ok in E as [F _]. rewrite Forall_forall in *. intros k K. apply F. apply (Permutation_in _ (Permutation_sym P)). exact K.
    - intros F. eexists. apply start_with_ok. split; [|reflexivity]. rewrite Forall_forall in *. intros k K. apply F. apply (Permutation_in _ P). exact K. }
  destruct c; cbn [start]; apply G; cbn [needs app].
  - apply Permutation_refl.
  - apply Permutation_refl.
  - unfold filter_start. rewrite !instr_calls_app. unfold instr_calls at 2. rewrite flat_flat. cbn [flat_map app]. rewrite flat_one. cbn.
    do 2 apply perm_skip. apply Permutation_app_comm.
  - unfold downsampler_start. rewrite !instr_calls_app. unfold instr_calls at 2. rewrite flat_flat. cbn [flat_map app]. cbn.
    apply perm_skip. eapply Permutation_trans; [apply Permutation_app_comm|]. cbn. apply perm_skip. apply flat_two.
  - unfold writer_start. rewrite !instr_calls_app. unfold instr_calls at 2. rewrite flat_flat. cbn [flat_map app]. cbn.
    do 2 apply perm_skip. eapply Permutation_trans; [apply Permutation_app_comm|]. cbn. apply perm_skip. apply flat_two.
  - apply Permutation_refl.
Qed.

Theorem start_running : forall c w n fails h, start c w n fails = SOk h -> Permutation h (running c w n).
Proof.
  intros c w n fails h E. destruct c; cbn [start] in E; apply start_with_ok in E as [_ E]; subst h; cbn [running app].
  - apply Permutation_refl.
  - cbn. do 2 apply perm_skip. apply (Permutation_app_comm [RGo 2] [RGo 0; RGo 1]).
  - unfold filter_start. rewrite !instr_res_app. unfold instr_res at 2. rewrite flat_flat. cbn [flat_map app]. cbn.
    do 2 apply perm_skip. eapply Permutation_trans; [apply Permutation_app_comm|]. cbn.
    apply perm_skip.
    change (RGo 0 :: map RGo (seq 1 w)) with (map RGo (seq 0 (S w))). rewrite seq_S, map_app. cbn [map].
    eapply Permutation_trans; [apply perm_skip; apply flat_two|]. eapply Permutation_trans; [apply Permutation_cons_append|]. rewrite <- app_assoc. reflexivity.
  - unfold downsampler_start. rewrite !instr_res_app. unfold instr_res at 2. rewrite flat_flat. cbn [flat_map app]. cbn.
    do 2 apply perm_skip. change (RGo 0 :: map RGo (seq 1 n)) with (map RGo (seq 0 (S n))). rewrite seq_S, map_app. cbn [map].
    rewrite app_assoc. apply Permutation_app_tail. eapply Permutation_trans; [apply flat_two|]. apply Permutation_app_comm.
  - unfold writer_start. rewrite !instr_res_app. unfold instr_res at 2. rewrite flat_flat. cbn [flat_map app]. cbn. rewrite app_nil_r, flat_one.
    do 2 apply perm_skip. change (RGo 0 :: map RGo (seq 1 w)) with (map RGo (seq 0 (S w))). rewrite seq_S, map_app. cbn [map].
    rewrite !app_assoc. apply Permutation_app_tail. apply Permutation_app_comm.
  - apply Permutation_refl.
Qed.
