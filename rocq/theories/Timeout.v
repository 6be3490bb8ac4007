(** write_timeout: how long a POST to InfluxDB takes, and a worker with its retry goroutine in time. *)
From Verif Require Import Base Batch Splitter Rules Retry RetrySpec Writer WriterSpec.
Local Open Scope Z_scope.

(** What InfluxDB (and the network) does with one request: nothing at all, or [r] after [d] nanoseconds. *)
Inductive answer := Silent | After (d : Z) (r : response).

(** writer/influxclient.go:41 Timeout and 66 ic.client.Do (net/http Client.deadline, Client.do): with a timeout
    that is positive the call ends, without a response, when the timeout has passed; otherwise it waits as
    long as it takes.  The result: the time taken and what Write gets, or nothing if the call never returns.
    Simplified: reading the body of a response (only when debug is on) takes no time. *)
Definition Do (timeout : Z) (a : answer) : option (Z * response) :=
  match a with
  | Silent => if 0 <? timeout then Some (timeout, NoResponse) else None
  | After d r => if (0 <? timeout) && (timeout <? d) then Some (timeout, NoResponse) else Some (d, r)
  end.

(** A worker with its retry goroutine, and the time of the worker's last move. *)
Definition tst := (wst * Z)%type.

(** The moves: the worker's POST gets [a]; the retry goroutine's POST gets [a]; any other move. *)
Inductive tlabel := TPost (a : answer) | TRetry (a : answer) | TMove (l : wlabel).

(** When a move of the worker other than a POST begins and ends; None for the retry goroutine's moves and Stop's. *)
Definition span (l : wlabel) : option (Z * Z) :=
  match l with
  | PMsg t t' _ => Some (t, t')
  | PTookWrite t | PTookErr t | PTick t | PHand t => Some (t, t)
  | _ => None
  end.
(** The results of POSTs are only those [TPost] and [TRetry] produce. *)
Definition result (l : wlabel) : bool := match l with PPost _ _ | PRetry (LEnd _ _) => true | _ => false end.

(** writer/writer.go:194 and writer/retryworker.go:107: a POST starts when the goroutine gets there, and the
    goroutine goes on when it returns.  The program's own computations take no time here. *)
Definition tstep (c : wcfg) (timeout : Z) (s : tst) (l : tlabel) : option (tst * list wobs) :=
  let (w, now) := s in
  match l with
  | TPost a =>
      match Do timeout a with
      | None => None
      | Some (d, r) => match wstep c w (PPost r (now + d)) with None => None | Some (w', o) => Some ((w', now + d), o) end
      end
  | TRetry a =>
      match Do timeout a with
      | None => None
      | Some (d, r) =>
          match wstep c w (PRetry (LEnd (r_now (w_retry w) + d) (Write r))) with None => None | Some (w', o) => Some ((w', now), o) end
      end
  | TMove m =>
      if result m then None else
      match span m with
      | None => match wstep c w m with None => None | Some (w', o) => Some ((w', now), o) end
      | Some (t, t') =>
          if (now <=? t) && (t <=? t') then match wstep c w m with None => None | Some (w', o) => Some ((w', t'), o) end else None
      end
  end.

Fixpoint trun (c : wcfg) (timeout : Z) (s : tst) (ls : list tlabel) : option (tst * list wobs) :=
  match ls with
  | [] => Some (s, [])
  | l :: ls' =>
      match tstep c timeout s l with
      | None => None
      | Some (s1, o1) => match trun c timeout s1 ls' with None => None | Some (s2, o2) => Some (s2, o1 ++ o2) end
      end
  end.

(** No reply takes less than no time. *)
Definition sane (l : tlabel) : Prop := match l with TPost (After d _) | TRetry (After d _) => 0 <= d | _ => True end.

(** The untimed run behind a timed one. *)
Lemma step_untimed c T s l s' o : tstep c T s l = Some (s', o) -> exists m, wstep c (fst s) m = Some (fst s', o).
Proof.
  destruct s as [w now]. destruct l as [a|a|m]; cbn [tstep fst]; intros H.
  - destruct (Do T a) as [[d r]|]; [|discriminate]. destruct (wstep c w (PPost r (now + d))) as [[w' o']|] eqn:E; [|discriminate].
    inversion H; subst. exists (PPost r (now + d)). exact E.
  - destruct (Do T a) as [[d r]|]; [|discriminate].
    destruct (wstep c w (PRetry (LEnd (r_now (w_retry w) + d) (Write r)))) as [[w' o']|] eqn:E; [|discriminate].
    inversion H; subst. eexists; exact E.
  - destruct (result m); [discriminate|]. destruct (span m) as [[t t']|].
    + destruct ((now <=? t) && (t <=? t')); [|discriminate]. destruct (wstep c w m) as [[w' o']|] eqn:E; [|discriminate].
      inversion H; subst. exists m. exact E.
    + destruct (wstep c w m) as [[w' o']|] eqn:E; [|discriminate]. inversion H; subst. exists m. exact E.
Qed.
Lemma run_untimed c T ls : forall s s' o, trun c T s ls = Some (s', o) -> exists ms, wrun c (fst s) ms = Some (fst s', o).
Proof.
  induction ls as [|l ls IH]; intros s s' o H; cbn [trun] in H.
  - inversion H; subst. exists []. reflexivity.
  - destruct (tstep c T s l) as [[s1 o1]|] eqn:E; [|discriminate]. destruct (trun c T s1 ls) as [[s2 o2]|] eqn:E2; [|discriminate].
    inversion H; subst. destruct (step_untimed _ _ _ _ _ _ E) as [m M]. destruct (IH _ _ _ E2) as [ms Ms].
    exists (m :: ms). cbn [wrun]. rewrite M, Ms. reflexivity.
Qed.

(** One POST. *)
Lemma do_bounded T a d r : 0 < T -> Do T a = Some (d, r) -> d <= T.
Proof.
  intros HT. destruct a as [|d0 r0]; cbn [Do].
  - replace (0 <? T) with true by (symmetry; apply Z.ltb_lt; lia). intros H; inversion H; lia.
  - replace (0 <? T) with true by (symmetry; apply Z.ltb_lt; lia). cbn [andb].
    destruct (Z.ltb_spec T d0); intros X; inversion X; subst; lia.
Qed.
Lemma do_returns T a : 0 < T -> exists d r, Do T a = Some (d, r) /\ d <= T /\
  (match a with Silent => r = NoResponse /\ d = T | After d0 r0 => (d0 <= T -> d = d0 /\ r = r0) /\ (T < d0 -> d = T /\ r = NoResponse) end).
Proof.
  intros HT. destruct a as [|d0 r0]; cbn [Do]; replace (0 <? T) with true by (symmetry; apply Z.ltb_lt; lia).
  - do 2 eexists. split; [reflexivity|]. split; [lia|]. split; reflexivity.
  - cbn [andb]. destruct (Z.ltb_spec T d0) as [A|A]; do 2 eexists; (split; [reflexivity|]); (split; [lia|]); split; intros; split; try reflexivity; lia.
Qed.
Lemma do_forever T : T <= 0 -> Do T Silent = None.
Proof. intros H. cbn [Do]. replace (0 <? T) with false by (symmetry; apply Z.ltb_ge; lia). reflexivity. Qed.
