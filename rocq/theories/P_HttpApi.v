(** Property theorems C109: which parts of an HTTP write request count. *)
From Verif Require Import Base Batch Timestamps LinesSpec Url Listener HttpProofs HttpApi.
Local Open Scope Z_scope.

(** The precision the client asks for: the first parameter of that name, nanoseconds if there is none. *)
Definition asked (ps : list (bytes * bytes)) : bytes :=
  match first_param (lit "precision") ps with
  | Some v => if beqs v [] then lit "ns" else v
  | None => lit "ns"
  end.
(** Two requests that ask for the same: to /write, with parameters [ps] and [ps'] in any of their encodings that have the
    same precision, and the same body arriving in the same way.  Methods, header fields, other parameters, the order of the
    parameters and the way they are escaped may differ. *)
Definition same_write (r r' : request) : Prop :=
  r_path r = lit "/write" /\ r_path r' = lit "/write" /\
  (exists ps ps', query_text ps (r_query r) /\ query_text ps' (r_query r') /\ asked ps = asked ps') /\
  r_body r = r_body r' /\ r_sched r = r_sched r' /\ r_rderr r = r_rderr r' /\ r_eager r = r_eager r'.

(** C109: the precision a request is handled with is the one its query says, in every encoding of the query, by every version
    of net/url. *)
Theorem C109_precision : forall old r ps, r_path r = lit "/write" -> query_text ps (r_query r) ->
  exists q, as_write old r = Some q /\
    q_precision q = match first_param (lit "precision") ps with Some v => v | None => [] end /\
    q_body q = r_body r /\ q_sched q = r_sched r.
Proof.
  intros old r ps P Q. unfold as_write. rewrite P. change (beqs (lit "/write") (lit "/write")) with true. cbv iota.
  eexists. split; [reflexivity|]. cbn [q_precision q_body q_sched]. auto using precision_read.
Qed.
Print Assumptions C109_precision.

(** C109: clients can ask for any parameters: every list of them has a query, and it is enough that the names and values are
    escaped as by url.QueryEscape. *)
Theorem C109_every_query : forall ps, exists q, query_text ps q.
Proof. exact query_text_exists. Qed.
Print Assumptions C109_every_query.
Theorem C109_escape : forall k v, query_text [(k, v)] (QueryEscape k ++ [eqs] ++ QueryEscape v).
Proof. intros k v. apply qt_one. exists (QueryEscape k), (QueryEscape v). auto using QueryEscape_part. Qed.
Print Assumptions C109_escape.

Lemma start_same old r r' q q' : same_write r r' -> as_write old r = Some q -> as_write old r' = Some q' -> start_req q = start_req q'.
Proof.
  intros (P & P' & (ps & ps' & Q & Q' & E) & B & Sc & D & G) H H'.
  destruct (C109_precision old r ps P Q) as (q0 & H0 & Pq & _). destruct (C109_precision old r' ps' P' Q') as (q0' & H0' & Pq' & _).
  unfold as_write in H, H', H0, H0'. rewrite P in H, H0. rewrite P' in H', H0'. cbn [beqs] in *.
  change (beqs (lit "/write") (lit "/write")) with true in *. cbv iota in *. inversion H; subst q. inversion H'; subst q'.
  assert (H1 : q0 = mkReq (precision_of old (r_query r)) (r_body r) (r_sched r) (r_rderr r) (r_eager r)) by congruence.
  assert (H2 : q0' = mkReq (precision_of old (r_query r')) (r_body r') (r_sched r') (r_rderr r') (r_eager r')) by congruence.
  subst q0 q0'. cbn [q_precision] in Pq, Pq'. unfold start_req. cbn [q_precision q_body q_sched q_rderr q_eager].
  rewrite <- B, <- Sc, <- D, <- G. rewrite Pq, Pq'. unfold asked in E.
  destruct (first_param (lit "precision") ps) as [v|]; destruct (first_param (lit "precision") ps') as [v'|]; try reflexivity.
  - destruct v as [|a v]; destruct v' as [|a' v']; cbn [beqs] in E; try reflexivity.
    + rewrite <- E. reflexivity.
    + rewrite E. reflexivity.
    + rewrite E. reflexivity.
  - destruct v as [|a v]; cbn [beqs] in E; [reflexivity|rewrite E; reflexivity].
  - destruct v' as [|a v']; cbn [beqs] in E; [reflexivity|rewrite <- E; reflexivity].
Qed.

(** The writes among the requests. *)
Definition writes (old : bool) (rs : list request) : list hreq :=
  flat_map (fun r => match as_write old r with Some q => [q] | None => [] end) rs.

Lemma writes_same old rs rs' : Forall2 same_write rs rs' -> map start_req (writes old rs) = map start_req (writes old rs').
Proof.
  induction 1 as [|r r' rs rs' S0 F IH]; [reflexivity|]. unfold writes in *. cbn [flat_map]. rewrite !map_app, IH. f_equal.
  pose proof (start_same old r r') as X.
  destruct (as_write old r) as [q|] eqn:A; destruct (as_write old r') as [q'|] eqn:A'.
  - cbn [map]. rewrite (X q q' S0 eq_refl eq_refl). reflexivity.
  - unfold as_write in A'. destruct S0 as (_ & P & _). rewrite P in A'. discriminate A'.
  - unfold as_write in A. destruct S0 as (P & _ & _). rewrite P in A. discriminate A.
  - reflexivity.
Qed.

(** C109: nothing else of a request matters: replace any of the requests, of any number of clients, by others that ask for the
    same; at every moment of every schedule the listener has published the same messages, holds the same batch and counts
    the same. *)
Theorem C109_same_effect : forall pf c old t0 rs rs' labs, Forall2 same_write rs rs' ->
  h_l (hrun pf c (hinit c t0 (writes old rs)) labs) = h_l (hrun pf c (hinit c t0 (writes old rs')) labs).
Proof. intros pf c old t0 rs rs' labs F. unfold hinit. rewrite (writes_same old rs rs' F). reflexivity. Qed.
Print Assumptions C109_same_effect.

(** C109: requests to other paths have no effect at all. *)
Theorem C109_other_paths : forall pf c old t0 rs0 r rs1 labs, r_path r <> lit "/write" ->
  h_l (hrun pf c (hinit c t0 (writes old (rs0 ++ r :: rs1))) labs) = h_l (hrun pf c (hinit c t0 (writes old (rs0 ++ rs1))) labs).
Proof.
  intros pf c old t0 rs0 r rs1 labs N. replace (writes old (rs0 ++ r :: rs1)) with (writes old (rs0 ++ rs1)); [reflexivity|].
  unfold writes. rewrite !flat_map_app. f_equal. cbn [flat_map]. replace (as_write old r) with (@None hreq) by (unfold as_write; rewrite (proj2 (beqs_neq _ _) N); reflexivity). reflexivity.
Qed.
Print Assumptions C109_other_paths.

(** C109: false of the code: a unit it does not know (as ns written in InfluxDB's other ways: n, us, or in capitals) is not
    refused.  The lines are taken for nanoseconds. *)
Theorem C109_unknown_unit_refuted : forall p line, ~ In p [lit "u"; lit "ms"; lit "s"; lit "m"; lit "h"] ->
  applyTimestampPrecision line p = applyTimestampPrecision line (lit "ns").
Proof.
  intros p line N. unfold applyTimestampPrecision, SafeCalcTime.
  assert (E : getPrecisionMultiplier p = 1).
  { unfold getPrecisionMultiplier. repeat (rewrite (proj2 (beqs_neq _ _)) by (intros ->; apply N; cbn; tauto)). reflexivity. }
  rewrite E. reflexivity.
Qed.
Print Assumptions C109_unknown_unit_refuted.

(** Two ways of asking for seconds. *)
Definition ra : request := mkRequest (lit "POST") (lit "/write") (lit "db=a%26b&precision=s&u=x+y") [] (lit "cpu x=1 1500000000
") [] false false.
Definition rb : request := mkRequest (lit "PUT") (lit "/write") (lit "%70recision=%73&precision=ms") [(lit "User-Agent", lit "x")] (lit "cpu x=1 1500000000
") [] false false.
Definition aconf : lconf := mkLConf 1 1000000000 100000.

Lemma escaped_part s e : query_unescape e = Some s -> memb e amp = false -> memb e semi = false -> memb e eqs = false -> query_part s e.
Proof. intros U A B C. unfold query_part. apply unescape_iff in U. apply memb_false in A, B, C. auto. Qed.

Example C109_case : same_write ra rb /\
  ls_pub (h_l (hrun (fun _ => false) aconf (hinit aconf 0 (writes true [ra])) [(LReq 0, 1); (LReq 0, 2); (LReq 0, 3)]))
    = [lit "cpu x=1 1500000000000000000
"] /\
  ls_pub (h_l (hrun (fun _ => false) aconf (hinit aconf 0 (writes true [rb])) [(LReq 0, 1); (LReq 0, 2); (LReq 0, 3)]))
    = [lit "cpu x=1 1500000000000000000
"].
Proof.
  split; [|split; vm_compute; reflexivity]. unfold same_write. split; [reflexivity|]. split; [reflexivity|]. split; [|auto].
  exists [(lit "db", lit "a&b"); (lit "precision", lit "s"); (lit "u", lit "x y")], [(lit "precision", lit "s"); (lit "precision", lit "ms")].
  split; [|split; [|reflexivity]].
  - apply (qt_more _ _ (lit "db=a%26b")); [|discriminate|apply (qt_more _ _ (lit "precision=s")); [|discriminate|apply qt_one]].
    + exists (lit "db"), (lit "a%26b"). split; [|split; [|reflexivity]]; apply escaped_part; vm_compute; reflexivity.
    + exists (lit "precision"), (lit "s"). split; [|split; [|reflexivity]]; apply escaped_part; vm_compute; reflexivity.
    + exists (lit "u"), (lit "x+y"). split; [|split; [|reflexivity]]; apply escaped_part; vm_compute; reflexivity.
  - apply (qt_more _ _ (lit "%70recision=%73")); [|discriminate|apply qt_one].
    + exists (lit "%70recision"), (lit "%73"). split; [|split; [|reflexivity]]; apply escaped_part; vm_compute; reflexivity.
    + exists (lit "precision"), (lit "ms"). split; [|split; [|reflexivity]]; apply escaped_part; vm_compute; reflexivity.
Qed.

(** C109: also false: only POST requests write, and the header says how the body is to be read.  A GET writes, and a body
    that says it is compressed is sent on as it is. *)
Theorem C109_method_encoding_refuted : exists r,
  r_method r = lit "GET" /\ In (lit "Content-Encoding", lit "gzip") (r_headers r) /\
  ls_pub (h_l (hrun (fun _ => false) aconf (hinit aconf 0 (writes true [r])) [(LReq 0, 1); (LReq 0, 2)])) = [r_body r].
Proof.
  exists (mkRequest (lit "GET") (lit "/write") [] [(lit "Content-Encoding", lit "gzip")]
            [ascii_of_nat 31; ascii_of_nat 139; ascii_of_nat 8; ascii_of_nat 0] [(10%nat, EEOF)] false false).
  vm_compute. auto.
Qed.
Print Assumptions C109_method_encoding_refuted.
