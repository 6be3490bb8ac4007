(** What an answered HTTP request has contributed, request by request. *)
From Verif Require Import Base BatchSpec Batch BatchProofs Timestamps LinesSpec Splitter SplitterProofs TextSpec Listener ListenerSpec ListenerProofs HttpProofs.
Local Open Scope Z_scope.

(** Nanosecond timestamps: the body is copied as it is. *)
Definition plain (q : hreq) : Prop := q_precision q = [] \/ q_precision q = lit "ns".

(** The line fits the 64 KB buffer of the scanner used for other precisions.  A last line without newline may
    fill the buffer only if the network reports the end of the body together with its last byte. *)
Definition fits (q : hreq) (l : bytes) : Prop :=
  Z.of_nat (length l) < 65536 \/ (Z.of_nat (length l) = 65536 /\ (ends_in nl l \/ q_eager q = true)).

(** The network delivers the whole body, and its lines fit where that matters. *)
Definition readable (q : hreq) : Prop :=
  (plain q -> Forall (fun x => snd x = ENone \/ snd x = EEOF) (q_sched q)) /\
  (~ plain q -> q_rderr q = false /\ Forall (fits q) (lines_of (q_body q))).

Lemma plain_b q : (beqs (q_precision q) [] || beqs (q_precision q) (lit "ns"))%bool = true <-> plain q.
Proof. unfold plain. rewrite orb_true_iff, !beqs_eq. tauto. Qed.

Lemma scan_fits_iff q l : scan_fits (q_eager q) l = true <-> fits q l.
Proof.
  unfold scan_fits, fits, ends_in. destruct (list_eq_dec ascii_dec l []) as [->|N].
  { cbn. split; intros; [left; lia|destruct (q_eager q); reflexivity]. }
  destruct (exists_last N) as (p & x & ->). rewrite app_length. cbn [length].
  replace (byte_at (p ++ [x]) (length p + 1 - 1) nl) with (Ascii.eqb x nl).
  2:{ unfold byte_at. replace (length p + 1 - 1)%nat with (length p) by lia.
      rewrite nth_error_app2, Nat.sub_diag by lia. reflexivity. }
  destruct (Ascii.eqb_spec x nl) as [->|Nx].
  - cbn [orb]. rewrite Z.leb_le. split.
    + intros H. destruct (Z.eq_dec (Z.of_nat (length p + 1)) 65536); [right; split; [auto|left; eauto]|left; lia].
    + intros [H|[H _]]; lia.
  - cbn [orb]. destruct (q_eager q).
    + rewrite Z.leb_le. split.
      * intros H. destruct (Z.eq_dec (Z.of_nat (length p + 1)) 65536); [right; split; auto|left; lia].
      * intros [H|[H _]]; lia.
    + rewrite Z.ltb_lt. split; [auto|]. intros [H|[_ [[p' E]|E]]]; auto; [|discriminate].
      apply app_inj_tail in E. destruct E; congruence.
Qed.

Lemma scan_tokens_all q ls : Forall (fits q) ls -> scan_tokens (q_eager q) ls = (ls, false).
Proof.
  induction 1 as [|l ls H F IH]; [reflexivity|]. cbn [scan_tokens]. rewrite (proj2 (scan_fits_iff q l) H), IH. reflexivity.
Qed.
Lemma scan_tokens_cut q pre l post : Forall (fits q) pre -> ~ fits q l -> scan_tokens (q_eager q) (pre ++ l :: post) = (pre, true).
Proof.
  intros F N. induction F as [|x pre H F IH]; cbn [app scan_tokens].
  - destruct (scan_fits (q_eager q) l) eqn:E; [apply scan_fits_iff in E; contradiction|reflexivity].
  - rewrite (proj2 (scan_fits_iff q x) H), IH. reflexivity.
Qed.

Definition line_units (p : bytes) (ls : list bytes) : list bytes :=
  map (fun l => applyTimestampPrecision l p) (filter (fun l => negb (Nat.leb (length l) 1)) ls).

Lemma http_ack pf c t0 qs labs : 0 <= lc_max_size c ->
  let h := hrun pf c (hinit c t0 qs) labs in
  exists (log : list (nat * bytes)) (groups : list (list bytes)) (pend : list bytes),
    map snd log = concat groups ++ pend /\
    ls_pub (h_l h) = flat_map (fun g => split_all natsMax (concat g)) groups /\
    Bytes (ls_batch (h_l h)) = concat pend /\
    forall i q got, nth_error qs i = Some q -> nth_error (h_reqs h) i = Some (RDone got) ->
      (readable q -> entries i log = expected q) /\
      (plain q -> exists rest, concat (entries i log) ++ rest = q_body q) /\
      (~ plain q -> forall pre l post, lines_of (q_body q) = pre ++ l :: post -> Forall (fits q) pre -> ~ fits q l ->
         entries i log = line_units (q_precision q) pre).
Proof.
  intros Hc h. destruct (hrun_rel pf c t0 qs labs Hc) as [(g & p & A) Len Rq Lg Er Rc]. fold h in A, Len, Rq, Lg, Er, Rc.
  destruct A as (A1 & A2 & A3 & A4 & A5 & A6 & A7 & A8 & A9).
  exists (h_log h), g, p. split; [assumption|]. split; [assumption|]. split; [assumption|].
  intros i q got Hq Hd. destruct (Rq _ _ Hq) as (r & Hr & R). assert (r = RDone got) by congruence. subst r.
  unfold rrel in R. destruct (beqs (q_precision q) [] || beqs (q_precision q) (lit "ns"))%bool eqn:Ep.
  - pose proof (proj1 (plain_b q) Ep) as Pl.
    assert (Es : start_req q = RNanos (q_body q) (q_sched q)) by (unfold start_req; rewrite Ep; reflexivity).
    rewrite Es in R. destruct R as [[E1 _]|(rs & Q1 & Q2 & [(e & E1 & _)|(E1 & Q3)])]; [discriminate..|].
    split; [|split; [|tauto]].
    + intros [Rd _]. specialize (Rd Pl). destruct Q3 as [->|[_ Q3]].
      * unfold expected. rewrite Ep. rewrite Q1, app_nil_r. destruct Q2 as [->|(d & -> & Nd)]; auto.
        cbn [concat]. rewrite app_nil_r. destruct d; [congruence|reflexivity].
      * exfalso. unfold sched_err in Q3. rewrite Exists_exists in Q3. destruct Q3 as (x & I & N1 & N2).
        rewrite Forall_forall in Rd. destruct (Rd x I); contradiction.
    + intros _. exists rs. auto.
  - assert (NP : ~ plain q) by (intros P; apply plain_b in P; congruence).
    destruct (scan_tokens (q_eager q) (lines_of (q_body q))) as [toks e0] eqn:Et.
    assert (Es : start_req q = RLines (precision_segments (q_precision q) toks) (match toks with [] => false | _ => true end) (e0 || q_rderr q))
      by (unfold start_req; rewrite Ep, Et; reflexivity).
    rewrite Es in R. destruct R as (_ & [(rem' & E1 & _)|(Q1 & _)]); [discriminate|].
    split; [|split; [tauto|]].
    + intros [_ Rd]. destruct (Rd NP) as [_ F]. rewrite (scan_tokens_all _ _ F) in Et. inversion Et; subst.
      rewrite Q1. unfold expected. rewrite Ep. reflexivity.
    + intros _ pre l post E F N. rewrite E, (scan_tokens_cut _ _ _ _ F N) in Et. inversion Et; subst. exact Q1.
Qed.

(** A request with one long line is answered, and nothing of it is kept. *)
Lemma http_long_line pf c t0 p line rest sched rderr eager t : p <> [] -> p <> lit "ns" -> ~ In nl line -> 65536 <= Z.of_nat (length line) ->
  let q := mkReq p (line ++ nl :: rest) sched rderr eager in
  let h := hrun pf c (hinit c t0 [q]) [(LReq 0, t)] in
  h_reqs h = [RDone false] /\ ls_pub (h_l h) = [] /\ Bytes (ls_batch (h_l h)) = [] /\ ls_received (h_l h) = 0 /\ ls_read_errors (h_l h) = 1.
Proof.
  intros P1 P2 N L. cbn zeta. set (q := mkReq p (line ++ nl :: rest) sched rderr eager).
  assert (Es : start_req q = RLines [] false true).
  { unfold start_req, q. cbn [q_precision q_body q_rderr q_eager].
    rewrite (proj2 (beqs_neq p []) P1), (proj2 (beqs_neq p (lit "ns")) P2). cbn [orb].
    rewrite lines_of_nl_app by assumption.
    assert (E : scan_tokens (q_eager q) ((line ++ [nl]) :: lines_of rest) = ([], true)); [|unfold q in E; cbn [q_eager] in E; rewrite E; reflexivity].
    apply (scan_tokens_cut q [] (line ++ [nl]) (lines_of rest)); [constructor|].
    intros [H|[H _]]; rewrite app_length in H; cbn [length] in H; lia. }
  unfold hrun, hinit. cbn [map fold_left hstep]. rewrite Es. unfold req_step. cbn. auto.
Qed.
