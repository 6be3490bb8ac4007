(** Property theorems C68: what a 204 answer to an HTTP write means. *)
From Verif Require Import Base BatchSpec Batch Timestamps LinesSpec Splitter TextSpec Listener ListenerSpec HttpProofs HttpAck HttpLines.
Local Open Scope Z_scope.

(** C68: false of the code: a request with another precision than nanoseconds whose first line is 64 KB
    long is answered 204 ([RDone]), and neither that line nor any line after it is kept. *)
Theorem C68_refuted : forall pf c t0 p line rest sched rderr eager t, p <> [] -> p <> lit "ns" -> ~ In nl line -> 65536 <= Z.of_nat (length line) ->
  let q := mkReq p (line ++ nl :: rest) sched rderr eager in
  let h := hrun pf c (hinit c t0 [q]) [(LReq 0, t)] in
  h_reqs h = [RDone false] /\ ls_pub (h_l h) = [] /\ Bytes (ls_batch (h_l h)) = [] /\ ls_received (h_l h) = 0 /\ ls_read_errors (h_l h) = 1.
Proof. exact http_long_line. Qed.
Print Assumptions C68_refuted.

Definition dconf : lconf := mkLConf 2 1000000000 100000.

(** Also false when the connection breaks: the client is cut off after ten bytes and its half line becomes the
    beginning of another client's line. *)
Theorem C68_disconnect_refuted : exists qs labs, let h := hrun (fun _ => false) dconf (hinit dconf 0 qs) labs in
  h_reqs h = [RDone true; RDone true] /\ ls_received (h_l h) = 2 /\
  map q_body qs = [lit "cpu x=1
cpu x=2
"; lit "mem y=2
"] /\
  flat_map lines_of (ls_pub (h_l h)) = [lit "cpu x=1
"; lit "cpmem y=2
"].
Proof.
  exists [mkReq [] (lit "cpu x=1
cpu x=2
") [(10%nat, EOther)] false false; mkReq [] (lit "mem y=2
") [(100%nat, EEOF)] false false], [(LReq 0, 1); (LReq 1, 2); (LReq 0, 3); (LReq 1, 4)].
  vm_compute. auto 10.
Qed.
Print Assumptions C68_disconnect_refuted.

(** Proved, for every schedule of concurrent requests: an answered request that could be read ([readable]: no
    network error, and with another precision lines of at most 64 KB) has contributed exactly its units, all
    of them published or pending; a request broken off contributed a beginning of its body; and with another
    precision exactly the lines before the first that does not fit. *)
Theorem C68_acknowledged_partial : forall pf c t0 qs labs, 0 <= lc_max_size c ->
  let h := hrun pf c (hinit c t0 qs) labs in
  exists (log : list (nat * bytes)) (groups : list (list bytes)) (pend : list bytes),
    map snd log = concat groups ++ pend /\
    ls_pub (h_l h) = flat_map (fun g => split_all natsMax (concat g)) groups /\
    Bytes (ls_batch (h_l h)) = concat pend /\
    forall i q got, nth_error qs i = Some q -> nth_error (h_reqs h) i = Some (RDone got) ->
      (readable q -> entries i log = expected q) /\
      (plain q -> exists rest, concat (entries i log) ++ rest = q_body q) /\
      (~ plain q -> forall pre l post, lines_of (q_body q) = pre ++ l :: post -> Forall (fits q) pre -> ~ fits q l ->
         entries i log = line_units (q_precision q) pre).
Proof. exact http_ack. Qed.
Print Assumptions C68_acknowledged_partial.

Definition q1 : hreq := mkReq (lit "s") (lit "cpu x=1 1500000000
mem y=2
") [] false false.
Definition q2 : hreq := mkReq [] (lit "disk z=3
") [(4%nat, ENone); (100%nat, EEOF)] false false.
Example C68_case : readable q1 /\ readable q2 /\
  h_reqs (hrun (fun _ => false) dconf (hinit dconf 0 [q1; q2]) [(LReq 0, 1); (LReq 1, 2); (LReq 0, 3); (LReq 0, 4); (LReq 1, 5); (LReq 0, 6)])
    = [RDone true; RDone true] /\
  expected q1 = [lit "cpu x=1 1500000000000000000
"; lit "mem y=2
"].
Proof.
  split; [|split; [|split; vm_compute; reflexivity]].
  - split; [intros [E|E]; discriminate|]. intros _. split; [reflexivity|].
    apply Forall_forall. intros l [<-|[<-|[]]]; left; vm_compute; reflexivity.
  - split; [|intros N; exfalso; apply N; left; reflexivity]. intros _.
    apply Forall_forall. intros x [<-|[<-|[]]]; cbn; auto.
Qed.

(** C20, exactly: whatever the bodies, once all requests are answered without read errors the lines sent and pending are the
    lines of the requests if and only if, in every batch, each unit followed by another one ends in a newline (as long as
    no line of a batch exceeds a NATS message). *)
Theorem C20_exact_partial : forall pf c t0 qs labs, 0 <= lc_max_size c ->
  let h := hrun pf c (hinit c t0 qs) labs in
  ls_read_errors (h_l h) = 0 ->
  (forall r, In r (h_reqs h) -> exists got, r = RDone got) ->
  exists (log : list (nat * bytes)) (groups : list (list bytes)) (pend : list bytes),
    (forall i q, nth_error qs i = Some q -> entries i log = expected q) /\
    (forall i e, In (i, e) log -> (i < length qs)%nat) /\
    map snd log = concat groups ++ pend /\
    concat (ls_pub (h_l h)) = concat (concat groups) /\ Bytes (ls_batch (h_l h)) = concat pend /\
    ls_sent (h_l h) = Z.of_nat (length groups) /\
    ((forall g l, In g groups -> In l (lines_of (concat g)) -> Z.of_nat (length l) <= 1048576) ->
     (flat_map lines_of (ls_pub (h_l h)) ++ lines_of (Bytes (ls_batch (h_l h))) = flat_map lines_of (map snd log) <->
      Forall apart groups /\ apart pend)).
Proof. exact http_lines_iff. Qed.
Print Assumptions C20_exact_partial.

(** A body without final newline that is the last of its batch does no harm; as the first of two it does. *)
Example C20_exact_case : apart [lit "cpu x=1
"; lit "mem y=2"] /\ ~ apart [lit "mem y=2"; lit "cpu x=1
"].
Proof.
  rewrite !apart_cons. split.
  - split; [right; right; exists (lit "cpu x=1"); reflexivity|]. split; [left; reflexivity|]. intros a u v b E. destruct a; discriminate.
  - intros [[X|[X|[p X]]] _]; try discriminate. apply (f_equal (@rev _)) in X. rewrite rev_app_distr in X. discriminate.
Qed.
