(** The writer's loop up to the database client (writer/writer.go) and the listener (listener/listener.go) over the batch
    and splitter of GoBatch.v and the parsing of GoInflux.v, and that they do what Writer.v and Listener.v say. *)
From Verif Require Import Base LinesSpec Timestamps Prom PromParse GoLang GoInflux GoBatch GoFilter Batch Splitter SplitterProofs Rules Writer Listener Scanner.
Local Open Scope Z_scope.
Local Open Scope go_scope.

(* ------------------------------------------------------------------ *)
(** * Writer *)

(** writer/writer.go:232-237 filterLine. *)
Definition filterLine_go (rs : list rule) (line : bytes) : go bool :=
  if len line =? 0 then Ret false else i <- Lookup_go rs line ;; Ret (negb (i =? -1)).
(** writer/writer.go:222-229: the lines of a message, with rules. *)
Fixpoint append_lines_go (rs : list rule) (b : gbatch) (ls : list bytes) (now : Z) : go gbatch :=
  match ls with
  | [] => Ret b
  | line :: ls' => ok <- filterLine_go rs line ;; b' <- (if ok : bool then Append_go b line now else Ret b) ;; append_lines_go rs b' ls' now
  end.
(** writer/writer.go:214-230 getBatchWriteFunc. *)
Definition batchAppend_go (rs : list rule) (b : gbatch) (data : bytes) (now : Z) : go gbatch :=
  if len rs =? 0 then Append_go b data now else append_lines_go rs b (Writer.SplitAfter data) now.
(** One wake-up of the loop: a message (with the time it is appended) or something else, the time of the check, the time
    of Reset. *)
Record wakeup := mkWake { wk_msg : option (bytes * Z); wk_check : Z; wk_reset : Z }.
(** writer/writer.go:167-209: one turn of the loop; gives the chunks handed to dbClient.Write.  [size] is BatchMaxSize,
    a uint64. *)
Definition writer_turn_go (c : wcfg) (b : gbatch) (w : wakeup) : go (gbatch * list bytes) :=
  b <- match wk_msg w with None => Ret b | Some (data, t) => batchAppend_go (wc_rules c) b data t end ;;
  let age := if g_writes b <=? 0 then 0 else wk_check w - g_created b in
  if (wc_count c <=? g_writes b) || (Z.of_nat (wc_size c) <=? g_len b) || (wc_age c <=? age) then
    v <- Bytes_go b ;;
    cs <- split_go (Limits.int_of (Z.of_nat (wc_size c))) v ;;
    b <- Reset_go b (wk_reset w) ;;
    Ret (b, cs)
  else Ret (b, []).
Fixpoint writer_run_go (c : wcfg) (b : gbatch) (ws : list wakeup) : go (gbatch * list bytes) :=
  match ws with
  | [] => Ret (b, [])
  | w :: ws' => '(b1, o1) <- writer_turn_go c b w ;; '(b2, o2) <- writer_run_go c b1 ws' ;; Ret (b2, o1 ++ o2)
  end.

(** The same turn with the functions of Writer.v. *)
Definition writer_turn (c : wcfg) (b : batch) (w : wakeup) : batch * list bytes :=
  let b := match wk_msg w with None => b | Some (data, t) => batchAppend (wc_rules c) b data t end in
  if Writer.shouldSend c b (wk_check w) then (Reset b (wk_reset w), split_all (wc_size c) (Bytes b)) else (b, []).
Fixpoint writer_run (c : wcfg) (b : batch) (ws : list wakeup) : batch * list bytes :=
  match ws with
  | [] => (b, [])
  | w :: ws' => let (b1, o1) := writer_turn c b w in let (b2, o2) := writer_run c b1 ws' in (b2, o1 ++ o2)
  end.

Lemma filterLine_go_ok rs line : filterLine_go rs line = Ret (filterLine rs line).
Proof.
  unfold filterLine_go, filterLine. rewrite len_zero. destruct line as [|ch line]; [reflexivity|]. rewrite Lookup_go_ok. cbn [bind]. destruct (Lookup rs (ch :: line)) as [i|]; [|reflexivity].
  replace (Z.of_nat i =? -1) with false by lia. reflexivity.
Qed.
Lemma append_lines_go_ok rs now : forall ls b, gok b ->
  gives (append_lines_go rs b ls now) (fold_left (fun b line => if filterLine rs line then Append b line now else b) ls (abs b)).
Proof.
  induction ls as [|line ls IH]; intros b H; [exists b; auto|]. cbn [append_lines_go fold_left]. rewrite filterLine_go_ok. cbn [bind]. destruct (filterLine rs line).
  - destruct (Append_go_ok b line now H) as (b' & E & H' & A). rewrite E. cbn [bind]. rewrite <- A. apply IH. exact H'.
  - cbn [bind]. apply IH. exact H.
Qed.
Lemma batchAppend_go_ok rs b data now : gok b -> gives (batchAppend_go rs b data now) (batchAppend rs (abs b) data now).
Proof. intros H. unfold batchAppend_go, batchAppend. rewrite len_zero. destruct rs; [apply Append_go_ok|apply append_lines_go_ok]; exact H. Qed.
Lemma writer_turn_go_ok c b w : (1 <= wc_size c)%nat -> Z.of_nat (wc_size c) < two63 -> gok b ->
  exists b', writer_turn_go c b w = Ret (b', snd (writer_turn c (abs b) w)) /\ gok b' /\ abs b' = fst (writer_turn c (abs b) w).
Proof.
  intros L1 L2 H. unfold writer_turn_go, writer_turn.
  assert (A : gives (match wk_msg w with None => Ret b | Some (data, t) => batchAppend_go (wc_rules c) b data t end) (match wk_msg w with None => abs b | Some (data, t) => batchAppend (wc_rules c) (abs b) data t end)).
  { destruct (wk_msg w) as [[data t]|]; [apply batchAppend_go_ok; exact H|exists b; auto]. }
  destruct A as (b1 & E1 & H1 & A1). rewrite E1. cbn [bind]. rewrite <- A1. unfold Writer.shouldSend. rewrite Size_abs by exact H1. unfold Age, Writes. cbn [b_writes b_created abs].
  destruct (_ || _); [|exists b1; auto]. rewrite Bytes_go_ok by exact H1. cbn [bind]. unfold Limits.int_of. rewrite wrap64_id by (unfold int64, minInt64, maxInt64, two63 in *; lia).
  rewrite split_go_ok by exact L1. cbn [bind]. destruct (Reset_go_ok b1 (wk_reset w) H1) as (b2 & E2 & H2 & A2). rewrite E2. cbn [bind]. exists b2. auto.
Qed.
Lemma writer_run_go_ok c : (1 <= wc_size c)%nat -> Z.of_nat (wc_size c) < two63 -> forall ws b, gok b ->
  exists b', writer_run_go c b ws = Ret (b', snd (writer_run c (abs b) ws)) /\ gok b' /\ abs b' = fst (writer_run c (abs b) ws).
Proof.
  intros L1 L2. induction ws as [|w ws IH]; intros b H; [exists b; auto|]. cbn [writer_run_go writer_run].
  destruct (writer_turn_go_ok c b w L1 L2 H) as (b1 & E1 & H1 & A1). rewrite E1. cbn [bind]. destruct (writer_turn c (abs b) w) as [p1 o1]. cbn [fst snd] in *. subst p1.
  destruct (IH b1 H1) as (b2 & E2 & H2 & A2). rewrite E2. cbn [bind]. destruct (writer_run c (abs b1) ws) as [p2 o2]. cbn [fst snd] in *. exists b2. auto.
Qed.

(* ------------------------------------------------------------------ *)
(** * Listener *)

(** The listener's state with its memory; the fields besides the batch as in Listener.v. *)
Record gl := mkGl { gl_b : gbatch; gl_received : Z; gl_sent : Z; gl_rd : Z; gl_failed : Z; gl_pub : list bytes }.
Definition absl (g : gl) : lstate := mkL (abs (gl_b g)) (gl_received g) (gl_sent g) (gl_rd g) (gl_failed g) (gl_pub g).

Section Listen.
  Variable pubfail : nat -> bool.
  (** The configured nats_subject. *)
  Variable subjects : list bytes.

  (** listener/listener.go:404-409: publishing the chunks; l.c.NATSSubject[0] is evaluated for each. *)
  Fixpoint publish_go (g : gl) (cs : list bytes) : go gl :=
    match cs with
    | [] => Ret g
    | ch :: cs' =>
        _ <- at_ subjects 0 ;;
        publish_go (mkGl (gl_b g) (gl_received g) (gl_sent g) (gl_rd g) (if pubfail (length (gl_pub g)) then gl_failed g + 1 else gl_failed g) (gl_pub g ++ [ch])) cs'
    end.
  (** listener/listener.go:390-411 sendBatch. *)
  Definition sendBatch_go (g : gl) (now : Z) : go gl :=
    if g_len (gl_b g) <? 1 then Ret g
    else
      v <- Bytes_go (gl_b g) ;;
      cs <- split_go MaxNATSMsgSize v ;;
      g <- publish_go (mkGl (gl_b g) (gl_received g) (gl_sent g + 1) (gl_rd g) (gl_failed g) (gl_pub g)) cs ;;
      b <- Reset_go (gl_b g) now ;;
      Ret (mkGl b (gl_received g) (gl_sent g) (gl_rd g) (gl_failed g) (gl_pub g)).
  (** batch/batch.go:85-90 Age. *)
  Definition Age_go (b : gbatch) (now : Z) : Z := if g_writes b <=? 0 then 0 else now - g_created b.
  (** listener/listener.go:365-388 maybeSendBatch, shouldSend. *)
  Definition maybeSendBatch_go (c : lconf) (g : gl) (t1 t2 : Z) : go gl :=
    if (lc_max_count c <=? g_writes (gl_b g)) || (lc_max_age c <=? Age_go (gl_b g) t1) || (lc_max_size c - g_len (gl_b g) <=? maxUDPDatagramSize) then sendBatch_go g t2 else Ret g.
  (** listener/listener.go:188-205: one iteration of listenUDP; [scratch]: what the socket's Read leaves behind the data. *)
  Definition udp_step_go (c : lconf) (g : gl) (u : udp_in) (scratch : bytes) : go gl :=
    '(b, got, err) <- ReadOnceFrom_go (gl_b g) (u_data u) (u_err u) scratch (u_t1 u) ;;
    let rd := match err with ENone | ETimeout => gl_rd g | _ => gl_rd g + 1 end in
    g <- (if 0 <? len got then b <- EnsureNewline_go b ;; Ret (mkGl b (gl_received g + 1) (gl_sent g) rd (gl_failed g) (gl_pub g))
          else Ret (mkGl b (gl_received g) (gl_sent g) rd (gl_failed g) (gl_pub g))) ;;
    maybeSendBatch_go c g (u_t2 u) (u_t3 u).
  Fixpoint udp_run_go (c : lconf) (g : gl) (us : list (udp_in * bytes)) : go gl :=
    match us with [] => Ret g | (u, scratch) :: us' => g' <- udp_step_go c g u scratch ;; udp_run_go c g' us' end.

  (** listener/listener.go:313-329 scanLines (the results before err, which is always nil). *)
  Definition scanLines_go (data : bytes) (atEOF : bool) : go (Z * option bytes) :=
    if atEOF && (len data =? 0) then Ret (0, None)
    else
      let i := match index_of (Ascii.eqb nl) data with Some i => Z.of_nat i | None => -1 end in
      if 0 <=? i then t <- GoLang.slice data 0 (i + 1) ;; Ret (i + 1, Some t)
      else if atEOF then Ret (len data, Some data) else Ret (0, None).
  (** listener/listener.go:299-309. *)
  Fixpoint precision_segments_go (precision : bytes) (toks : list bytes) : go (list bytes) :=
    match toks with
    | [] => Ret []
    | line :: toks' =>
        if len line <=? 1 then precision_segments_go precision toks'
        else l <- applyTimestampPrecision_go line precision ;; r <- precision_segments_go precision toks' ;; Ret (l :: r)
    end.
  (** listener/listener.go:267-280: the state in which a request starts; the tokens are those of Scanner.v. *)
  Definition start_req_go (q : hreq) : go req :=
    if beqs (q_precision q) [] || beqs (q_precision q) (lit "ns") then Ret (RNanos (q_body q) (q_sched q))
    else
      let (toks, e) := scan_tokens (q_eager q) (lines_of (q_body q)) in
      segs <- precision_segments_go (q_precision q) toks ;;
      Ret (RLines segs (match toks with [] => false | _ => true end) (e || q_rderr q)).
  Fixpoint start_reqs_go (qs : list hreq) : go (list req) :=
    match qs with [] => Ret [] | q :: qs' => r <- start_req_go q ;; rs <- start_reqs_go qs' ;; Ret (r :: rs) end.

  Record ghstate := mkGh { gh_l : gl; gh_reqs : list req; gh_log : list (nat * bytes); gh_wake : Z }.
  Definition absh (h : ghstate) : hstate := mkH (absl (gh_l h)) (gh_reqs h) (gh_log h) (gh_wake h).
  Definition with_batch (g : gl) (b : gbatch) : gl := mkGl b (gl_received g) (gl_sent g) (gl_rd g) (gl_failed g) (gl_pub g).
  Definition inc_received_go (g : gl) : gl := mkGl (gl_b g) (gl_received g + 1) (gl_sent g) (gl_rd g) (gl_failed g) (gl_pub g).
  Definition inc_read_errors_go (g : gl) (e : bool) : gl := mkGl (gl_b g) (gl_received g) (gl_sent g) (if e then gl_rd g + 1 else gl_rd g) (gl_failed g) (gl_pub g).

  (** listener/listener.go:249-311: one step of request [i], as in Listener.v. *)
  Definition req_step_go (c : lconf) (h : ghstate) (i : nat) (t : Z) (scratch : list bytes) : go ghstate :=
    match nth_error (gh_reqs h) i with
    | Some (RNanos body sched) =>
        o <- ReadFrom_go (gl_b (gh_l h)) body sched scratch [] t ;;
        match o with
        | None => Ret h
        | Some (b, tot, _, e) =>
            let e := match e with ENone => false | _ => true end in
            if 0 <? len tot then Ret (mkGh (inc_received_go (with_batch (gh_l h) b)) (Listener.set_nth i (RMaybe e) (gh_reqs h)) (gh_log h ++ [(i, tot)]) (gh_wake h))
            else Ret (mkGh (inc_read_errors_go (with_batch (gh_l h) b) e) (Listener.set_nth i (RDone false) (gh_reqs h)) (gh_log h) (gh_wake h))
        end
    | Some (RLines (l :: ls) some e) =>
        b <- Append_go (gl_b (gh_l h)) l t ;;
        Ret (mkGh (with_batch (gh_l h) b) (Listener.set_nth i (RLines ls some e) (gh_reqs h)) (gh_log h ++ [(i, l)]) (gh_wake h))
    | Some (RLines [] some e) =>
        Ret (if some then mkGh (inc_received_go (gh_l h)) (Listener.set_nth i (RMaybe e) (gh_reqs h)) (gh_log h) (gh_wake h)
             else mkGh (inc_read_errors_go (gh_l h) e) (Listener.set_nth i (RDone false) (gh_reqs h)) (gh_log h) (gh_wake h))
    | Some (RMaybe e) =>
        g <- maybeSendBatch_go c (gh_l h) t t ;;
        Ret (mkGh (inc_read_errors_go g e) (Listener.set_nth i (RDone true) (gh_reqs h)) (gh_log h) (gh_wake h))
    | Some (RDone _) | None => Ret h
    end.
  (** listener/listener.go:229-247 oldBatchSender. *)
  Definition age_step_go (c : lconf) (h : ghstate) (t : Z) : go ghstate :=
    g <- (if lc_max_age c <=? Age_go (gl_b (gh_l h)) t then sendBatch_go (gh_l h) t else Ret (gh_l h)) ;;
    Ret (mkGh g (gh_reqs h) (gh_log h) (t + (lc_max_age c - Age_go (gl_b g) t))).
  (** A schedule; each step of a request comes with what its Read calls leave in the spare memory. *)
  Fixpoint hrun_go (c : lconf) (h : ghstate) (labs : list (hlabel * Z * list bytes)) : go ghstate :=
    match labs with
    | [] => Ret h
    | (lab, t, scratch) :: labs' =>
        h' <- match lab with LReq i => req_step_go c h i t scratch | LAge => age_step_go c h t end ;;
        hrun_go c h' labs'
    end.
  (** listener/listener.go:213-224 *)
  Definition hinit_go (c : lconf) (t0 : Z) (qs : list hreq) : go ghstate :=
    b <- New_go (lc_max_size c) t0 ;;
    rs <- start_reqs_go qs ;;
    Ret (mkGh (mkGl b 0 0 0 0 []) rs [] (t0 + lc_max_age c)).

  (* ---------------------------------------------------------------- *)
  Hypothesis one_subject : subjects <> [].

  Definition lgives (m : go gl) (s : lstate) : Prop := exists g, m = Ret g /\ gok (gl_b g) /\ absl g = s.

  Lemma publish_go_ok : forall cs g, exists g', publish_go g cs = Ret g' /\ gl_b g' = gl_b g /\ absl g' = fold_left (publish pubfail) cs (absl g).
  Proof.
    induction cs as [|ch cs IH]; intros g; [exists g; auto|]. cbn [publish_go fold_left]. destruct subjects as [|s ss]; [contradiction|]. rewrite at_zero. cbn [bind].
    destruct (IH (mkGl (gl_b g) (gl_received g) (gl_sent g) (gl_rd g) (if pubfail (length (gl_pub g)) then gl_failed g + 1 else gl_failed g) (gl_pub g ++ [ch]))) as (g' & E & B & A).
    exists g'. split; [exact E|]. split; [exact B|]. rewrite A. reflexivity.
  Qed.
  Lemma sendBatch_go_ok g now : gok (gl_b g) -> lgives (sendBatch_go g now) (sendBatch pubfail (absl g) now).
  Proof.
    intros H. unfold sendBatch_go, sendBatch. cbn [absl ls_batch]. rewrite Size_abs by exact H. destruct (_ <? 1); [exists g; auto|]. rewrite Bytes_go_ok by exact H. cbn [bind].
    change MaxNATSMsgSize with (Z.of_nat natsMax). rewrite split_go_ok by (unfold natsMax, MaxNATSMsgSize; lia). cbn [bind].
    destruct (publish_go_ok (split_all natsMax (Bytes (abs (gl_b g)))) (mkGl (gl_b g) (gl_received g) (gl_sent g + 1) (gl_rd g) (gl_failed g) (gl_pub g))) as (g1 & E1 & B1 & A1).
    rewrite E1. cbn [bind gl_b] in *. destruct (Reset_go_ok (gl_b g1) now) as (b2 & E2 & H2 & A2); [rewrite B1; exact H|]. rewrite E2. cbn [bind]. eexists. split; [reflexivity|]. split; [exact H2|].
    refine (eq_trans _ (f_equal (fun s => set_batch s (Reset (ls_batch s) now)) A1)). unfold absl. cbn [gl_b gl_received gl_sent gl_rd gl_failed gl_pub]. rewrite A2. reflexivity.
  Qed.
  Lemma maybe_go_ok c g t1 t2 : gok (gl_b g) -> lgives (maybeSendBatch_go c g t1 t2) (maybeSendBatch pubfail c (absl g) t1 t2).
  Proof.
    intros H. unfold maybeSendBatch_go, maybeSendBatch, Listener.shouldSend. cbn [absl ls_batch]. rewrite Size_abs by exact H. change (Writes (abs (gl_b g))) with (g_writes (gl_b g)).
    change (Age (abs (gl_b g)) t1) with (Age_go (gl_b g) t1). destruct (lc_max_count c <=? _); [apply sendBatch_go_ok; exact H|]. destruct (lc_max_age c <=? _); [apply sendBatch_go_ok; exact H|]. cbn [orb].
    destruct (_ <=? maxUDPDatagramSize); [apply sendBatch_go_ok; exact H|exists g; auto].
  Qed.
  Lemma pos_len {A} (s : list A) : (0 <? len s) = match s with [] => false | _ => true end.
  Proof. destruct s; [reflexivity|]. rewrite len_cons. pose proof (len_nonneg s). lia. Qed.
  Lemma udp_step_go_ok c g u scratch : gok (gl_b g) -> lgives (udp_step_go c g u scratch) (udp_step pubfail c (absl g) u).
  Proof.
    intros H. unfold udp_step_go, udp_step. destruct (ReadOnceFrom_go_ok (gl_b g) (u_data u) (u_err u) scratch (u_t1 u) H) as (b1 & E1 & H1 & A1). rewrite E1. cbn [absl ls_batch].
    destruct (ReadOnceFrom (abs (gl_b g)) (u_data u) (u_err u) (u_t1 u)) as [[p got] err]. cbn [bind fst] in *. subst p. rewrite pos_len. destruct got as [|ch got].
    - cbn [bind]. refine (maybe_go_ok c (mkGl b1 _ _ _ _ _) _ _ H1).
    - destruct (EnsureNewline_go_ok b1 H1) as (b2 & E2 & H2 & A2). rewrite E2. cbn [bind]. rewrite <- A2. refine (maybe_go_ok c (mkGl b2 _ _ _ _ _) _ _ H2).
  Qed.
  Lemma udp_run_go_ok c : forall us g, gok (gl_b g) -> lgives (udp_run_go c g us) (udp_run pubfail c (absl g) (map fst us)).
  Proof.
    induction us as [|[u scratch] us IH]; intros g H; [exists g; auto|]. cbn [udp_run_go map fst]. destruct (udp_step_go_ok c g u scratch H) as (g1 & E1 & H1 & A1). rewrite E1. cbn [bind].
    unfold udp_run. cbn [fold_left]. rewrite <- A1. apply (IH g1 H1).
  Qed.

  Lemma index_of_lt (f : ascii -> bool) : forall s i, index_of f s = Some i -> (i < length s)%nat.
  Proof.
    induction s as [|c s IH]; intros i E; [discriminate|]. cbn [index_of] in E. cbn [length]. destruct (f c); [injection E as <-; lia|]. destruct (index_of f s) as [j|]; [|discriminate]. injection E as <-. specialize (IH j eq_refl). lia.
  Qed.
  Lemma scanLines_go_ok data eof : scanLines_go data eof = Ret (let (n, t) := scanLines data eof in (Z.of_nat n, t)).
  Proof.
    unfold scanLines_go, scanLines. replace (len data =? 0) with (Nat.eqb (length data) 0) by (unfold len; destruct (Nat.eqb_spec (length data) 0); lia).
    destruct (eof && Nat.eqb (length data) 0); [reflexivity|]. destruct (index_of (Ascii.eqb nl) data) as [i|] eqn:E.
    - apply index_of_lt in E. replace (0 <=? Z.of_nat i) with true by lia. rewrite slice_first by (unfold len; lia). cbn [bind]. replace (Z.to_nat (Z.of_nat i + 1)) with (S i) by lia.
      replace (Z.of_nat (S i)) with (Z.of_nat i + 1) by lia. reflexivity.
    - cbn. destruct eof; reflexivity.
  Qed.
  Lemma precision_segments_go_ok p : forall toks, precision_segments_go p toks = Ret (precision_segments p toks).
  Proof.
    induction toks as [|l toks IH]; [reflexivity|]. cbn [precision_segments_go]. unfold precision_segments in *. cbn [filter].
    replace (len l <=? 1) with (Nat.leb (length l) 1) by (unfold len; destruct (Nat.leb_spec (length l) 1); lia). destruct (Nat.leb (length l) 1); cbn [negb]; [exact IH|].
    rewrite applyTimestampPrecision_go_ok. cbn [bind]. rewrite IH. reflexivity.
  Qed.
  Lemma start_req_go_ok q : start_req_go q = Ret (start_req q).
  Proof.
    unfold start_req_go, start_req. destruct (beqs (q_precision q) [] || beqs (q_precision q) (lit "ns")); [reflexivity|]. destruct (scan_tokens (q_eager q) (lines_of (q_body q))) as [toks e].
    rewrite precision_segments_go_ok. reflexivity.
  Qed.
  Lemma start_reqs_go_ok : forall qs, start_reqs_go qs = Ret (map start_req qs).
  Proof. induction qs as [|q qs IH]; [reflexivity|]. cbn [start_reqs_go map]. rewrite start_req_go_ok. cbn [bind]. rewrite IH. reflexivity. Qed.

  Definition hgives (m : go ghstate) (s : hstate) : Prop := exists h, m = Ret h /\ gok (gl_b (gh_l h)) /\ absh h = s.
  Lemma req_step_go_ok c h i t scratch : gok (gl_b (gh_l h)) -> hgives (req_step_go c h i t scratch) (req_step pubfail c (absh h) i t).
  Proof.
    intros H. unfold req_step_go, req_step. cbn [absh h_reqs h_l h_log h_wake absl ls_batch]. destruct (nth_error (gh_reqs h) i) as [[body sched|[|l ls] some e|e|g]|]; [| | | | |].
    - unfold ReadFrom. pose proof (ReadFrom_go_ok t sched (gl_b (gh_l h)) body scratch [] H) as R. destruct (ReadFrom_loop (abs (gl_b (gh_l h))) body sched [] t) as [[[[b tot] r] e]|].
      + destruct R as (b1 & E1 & H1 & A1). rewrite E1. cbn [bind]. rewrite pos_len, <- A1. destruct tot; eexists; (split; [reflexivity|]); (split; [exact H1|]); reflexivity.
      + rewrite R. exists h. auto.
    - destruct some; eexists; (split; [reflexivity|]); (split; [exact H|]); reflexivity.
    - destruct (Append_go_ok (gl_b (gh_l h)) l t H) as (b1 & E1 & H1 & A1). rewrite E1. cbn [bind]. rewrite <- A1. eexists. split; [reflexivity|]. split; [exact H1|]. reflexivity.
    - destruct (maybe_go_ok c (gh_l h) t t H) as (g1 & E1 & H1 & A1). rewrite E1. cbn [bind]. eexists. split; [reflexivity|]. split; [exact H1|]. refine (eq_trans _ (f_equal (fun l => mkH (inc_read_errors l e) (Listener.set_nth i (RDone true) (gh_reqs h)) (gh_log h) (gh_wake h)) A1)). reflexivity.
    - exists h. auto.
    - exists h. auto.
  Qed.
  Lemma age_step_go_ok c h t : gok (gl_b (gh_l h)) -> hgives (age_step_go c h t) (age_step pubfail c (absh h) t).
  Proof.
    intros H. unfold age_step_go, age_step. cbn [absh h_reqs h_l h_log h_wake].
    assert (A : lgives (if lc_max_age c <=? Age_go (gl_b (gh_l h)) t then sendBatch_go (gh_l h) t else Ret (gh_l h)) (if lc_max_age c <=? Age (ls_batch (absl (gh_l h))) t then sendBatch pubfail (absl (gh_l h)) t else absl (gh_l h))).
    { change (Age (ls_batch (absl (gh_l h))) t) with (Age_go (gl_b (gh_l h)) t). destruct (_ <=? _); [apply sendBatch_go_ok; exact H|exists (gh_l h); auto]. }
    destruct A as (g1 & E1 & H1 & A1). rewrite E1. cbn [bind]. rewrite <- A1. eexists. split; [reflexivity|]. split; [exact H1|]. reflexivity.
  Qed.
  Lemma hrun_go_ok c : forall labs h, gok (gl_b (gh_l h)) -> hgives (hrun_go c h labs) (hrun pubfail c (absh h) (map fst labs)).
  Proof.
    induction labs as [|[[lab t] scratch] labs IH]; intros h H; [exists h; auto|]. cbn [hrun_go map fst]. unfold hrun. cbn [fold_left]. unfold hstep at 2. cbn [fst snd].
    assert (A : hgives (match lab with LReq i => req_step_go c h i t scratch | LAge => age_step_go c h t end) (match lab with LReq i => req_step pubfail c (absh h) i t | LAge => age_step pubfail c (absh h) t end)).
    { destruct lab; [apply req_step_go_ok|apply age_step_go_ok]; exact H. }
    destruct A as (h1 & E1 & H1 & A1). rewrite E1. cbn [bind]. rewrite <- A1. apply (IH h1 H1).
  Qed.
  Lemma hinit_go_ok c t0 qs : 0 <= lc_max_size c -> hgives (hinit_go c t0 qs) (hinit c t0 qs).
  Proof.
    intros L. unfold hinit_go. destruct (New_go_ok (lc_max_size c) t0 L) as (b & E & H & A). rewrite E. cbn [bind]. rewrite start_reqs_go_ok. cbn [bind]. eexists. split; [reflexivity|]. split; [exact H|].
    unfold absh, absl, hinit, newListener. cbn [gh_l gl_b gh_reqs gh_log gh_wake gl_received gl_sent gl_rd gl_failed gl_pub]. rewrite A. reflexivity.
  Qed.
End Listen.
