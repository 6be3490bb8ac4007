(** C118: the HTTP endpoints are exactly the documented paths; which requests reach them, and with which body. *)
From Verif Require Import Base Mux MuxProofs.
Local Open Scope nat_scope.

(** The three servers' endpoints. *)
Definition servers : list (list bytes) := [listener_patterns; monitor_patterns; probe_patterns].
Lemma servers_usual ps : In ps servers -> Forall (fun q => usual q = q) ps.
Proof. intros H. cbn in H. destruct H as [<-|[<-|[<-|[]]]]; repeat constructor. Qed.

(** C118_endpoints: for every path, a request which is not CONNECT reaches a handler iff its path is, byte for byte, one of the endpoints;
    it is redirected iff its path is not in its usual form, and then to that form; everything else is 404. *)
Theorem C118_endpoints : forall ps, In ps servers -> forall p,
  (forall x, Route ps false p = Handled x <-> x = p /\ In p ps) /\
  (forall x, Route ps false p = Moved x <-> x = usual p /\ usual p <> p) /\
  (Route ps false p = NotFound <-> usual p = p /\ ~ In p ps).
Proof.
  intros ps H p. split; [|split].
  - intros x. apply handled_iff. apply servers_usual. exact H.
  - intros x. apply moved_iff.
  - apply notfound_iff.
Qed.
Print Assumptions C118_endpoints.

(** C118_documented: the endpoints by name. *)
Theorem C118_documented : forall p x,
  (Route listener_patterns false p = Handled x <-> p = lit "/write" /\ x = p) /\
  (Route monitor_patterns false p = Handled x <-> p = lit "/metrics" /\ x = p) /\
  (Route probe_patterns false p = Handled x <-> (p = lit "/healthz" \/ p = lit "/readyz") /\ x = p).
Proof.
  intros p x.
  assert (L : forall ps, In ps servers -> Route ps false p = Handled x <-> x = p /\ In p ps) by (intros ps H; apply handled_iff, servers_usual; exact H).
  rewrite !L by (cbn; auto). cbn [In listener_patterns monitor_patterns probe_patterns]. intuition auto.
Qed.
Print Assumptions C118_documented.

(** C118_usual: what the usual form is: it leads to the same place, has no empty, dot or dot-dot element, and is its own usual form. *)
Theorem C118_usual : forall p,
  place (usual p) = place p /\
  Forall (fun e => e <> [] /\ Forall (fun c => c <> slash) e /\ e <> lit "." /\ e <> lit "..") (place p) /\
  (exists t, (t = [] \/ t = [slash]) /\ usual p = (if match place p with [] => true | _ => false end then [slash] else concat (map (fun e => slash :: e) (place p)) ++ t)) /\
  usual (usual p) = usual p.
Proof.
  intros p. split; [apply place_usual|]. split; [apply place_good|]. split; [|apply usual_usual].
  unfold usual. destruct (place p) as [|e es]; [exists []; split; [auto|reflexivity]|].
  destruct (rev p) as [|c l]; [exists []; split; [auto|reflexivity]|].
  destruct (Ascii.eqb c slash); [exists [slash]|exists []]; split; auto.
Qed.
Print Assumptions C118_usual.

(** C118_once: no redirect loops: a client which follows redirects makes at most two requests, and only the first can be redirected. *)
Theorem C118_once : forall ps n q,
  length (follow ps n q) <= 2 /\
  forall i r x, nth_error (follow ps n q) i = Some (r, Moved x) -> i = 0 /\ r = q.
Proof.
  intros ps n q. rewrite follow_shape. split.
  - cbn [length]. destruct (Route ps (q_connect q) (q_path q)); destruct n; cbn; lia.
  - intros i r x. destruct i as [|i]; cbn [nth_error]; [intros H; injection H as <- _; auto|].
    destruct (Route ps (q_connect q) (q_path q)), n; try (destruct i; discriminate).
    destruct i as [|i]; [|destruct i; discriminate]. cbn. intros H. exfalso.
    unfold handler in H. destruct (existsb _ ps); injection H as _ H; discriminate.
Qed.
Print Assumptions C118_once.

(** C118_body_partial: a request whose path is an endpoint is given to the handler as it is, with its body, and is the only one made. *)
Theorem C118_body_partial : forall ps, In ps servers -> forall n q, In (q_path q) ps ->
  follow ps n q = [(q, Handled (q_path q))].
Proof.
  intros ps H n q Hi. rewrite follow_shape.
  assert (R : Route ps (q_connect q) (q_path q) = Handled (q_path q)).
  { destruct (q_connect q).
    - rewrite connect_route. rewrite (proj2 (existsb_in _ _) Hi). reflexivity.
    - apply (handled_iff ps _ _ (servers_usual ps H)). auto. }
  rewrite R. reflexivity.
Qed.
Print Assumptions C118_body_partial.

(** C118_lost: the other requests which reach a handler are exactly those whose usual form is an endpoint, when the client follows the
    redirect; the handler is then given a request without the client's body, however large that was. *)
Theorem C118_lost : forall ps, In ps servers -> forall n q r x, q_connect q = false ->
  (In (r, Handled x) (follow ps n q) <->
   In x ps /\ x = usual (q_path q) /\
   ((q_path q = x /\ r = q) \/ (q_path q <> x /\ 1 <= n /\ r = Req false false x []))).
Proof.
  intros ps H n q r x Hc. rewrite follow_shape, Hc.
  pose proof (servers_usual ps H) as Hu. rewrite Forall_forall in Hu.
  destruct (route_cases ps (q_path q)) as [(U & Hi & E)|[(U & Hi & E)|(U & E)]]; rewrite E.
  - split.
    + intros [A|[]]. injection A as <- <-. rewrite U. auto.
    + intros (A & -> & [[B ->]|[B _]]); [left; rewrite U; reflexivity|]. exfalso. apply B. symmetry. exact U.
  - split.
    + intros [A|[]]. discriminate.
    + intros (A & -> & _). exfalso. rewrite U in A. contradiction.
  - destruct n as [|n].
    + split; [intros [A|[]]; discriminate|]. intros (A & -> & [[B _]|[_ [B _]]]); [congruence|lia].
    + cbv zeta. split.
      * intros [A|[A|[]]]; [discriminate|].
        destruct (handler_cases ps (usual (q_path q)) _ eq_refl) as [[H1 H2]|[H1 H2]]; rewrite H2 in A; [|discriminate].
        injection A as <- <-. split; [exact H1|]. split; [reflexivity|]. right. split; [congruence|]. split; [lia|reflexivity].
      * intros (A & -> & [[B _]|(_ & _ & ->)]); [congruence|]. right. left. f_equal.
        unfold handler. rewrite (proj2 (existsb_in _ _) A). reflexivity.
Qed.
Print Assumptions C118_lost.

(** C118_body_refuted: a client which follows redirects can be told that its write succeeded although its body never reached a handler:
    POST //write is answered 301, and the GET /write which follows is accepted. *)
Theorem C118_body_refuted : exists q, q_post q = true /\ q_body q <> [] /\
  exists r, follow listener_patterns 10 q = [(q, Moved (lit "/write")); (r, Handled (lit "/write"))] /\ q_body r = [].
Proof.
  exists (Req true false (lit "//write") (lit "cpu v=1")). split; [reflexivity|]. split; [discriminate|].
  exists (Req false false (lit "/write") []). split; reflexivity.
Qed.
Print Assumptions C118_body_refuted.

(** Concrete paths. *)
Example ex_write : Route listener_patterns false (lit "/write") = Handled (lit "/write"). Proof. reflexivity. Qed.
Example ex_write_slash : Route listener_patterns false (lit "/write/") = NotFound. Proof. reflexivity. Qed.
Example ex_case : Route listener_patterns false (lit "/Write") = NotFound. Proof. reflexivity. Qed.
Example ex_query : map (Route listener_patterns false) [lit "/query"; lit "/ping"; lit "/"; []] = [NotFound; NotFound; NotFound; Moved (lit "/")].
Proof. reflexivity. Qed.
Example ex_dots : Route listener_patterns false (lit "/a/../b/.././write") = Moved (lit "/write"). Proof. reflexivity. Qed.
Example ex_up : Route listener_patterns false (lit "/../../write") = Moved (lit "/write"). Proof. reflexivity. Qed.
Example ex_three : Route listener_patterns false (lit "/.../write") = NotFound. Proof. reflexivity. Qed.
Example ex_hidden : usual (lit "//.a/..b//c../") = lit "/.a/..b/c../". Proof. reflexivity. Qed.
Example ex_connect : Route listener_patterns true (lit "//write") = NotFound. Proof. reflexivity. Qed.
Example ex_probes : map (Route probe_patterns false) [lit "/healthz"; lit "/readyz"; lit "/healthz/"; lit "/metrics"]
  = [Handled (lit "/healthz"); Handled (lit "/readyz"); NotFound; NotFound]. Proof. reflexivity. Qed.
Example ex_monitor : Route monitor_patterns false (lit "/metrics") = Handled (lit "/metrics"). Proof. reflexivity. Qed.
