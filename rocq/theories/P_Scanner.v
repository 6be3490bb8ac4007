(** Property theorems C98: how the network delivers an HTTP body does not change what is kept of it. *)
From Verif Require Import Base BatchSpec Batch BatchProofs LinesSpec Timestamps TextSpec Splitter Prom PromParse Listener Scanner ScannerProofs HttpAck.
Local Open Scope Z_scope.

(** C98: for every body, every way its bytes are cut into Read calls (any sizes, empty reads, the end reported
    with or after the last byte), if the scan ends without an error then the lines handled are exactly the
    lines of the body. *)
Theorem C98_lines : forall body sched s, sc_run (newScanner body sched) s -> sc_done s = true -> sc_failed s = false ->
  sc_toks s = lines_of body.
Proof.
  intros body sched s R D F. destruct (sc_done_result _ _ _ R D) as [[E _]|(_ & _ & L & _ & A)].
  - unfold sc_failed in F. rewrite E in F. discriminate.
  - rewrite <- L, (A F). reflexivity.
Qed.
Print Assumptions C98_lines.

(** So two deliveries of the same body that both end without error give the same lines. *)
Theorem C98_chunking : forall body sched1 sched2 s1 s2,
  sc_run (newScanner body sched1) s1 -> sc_done s1 = true -> sc_failed s1 = false ->
  sc_run (newScanner body sched2) s2 -> sc_done s2 = true -> sc_failed s2 = false ->
  sc_toks s1 = sc_toks s2.
Proof.
  intros. transitivity (lines_of body); [|symmetry]; eapply C98_lines; eauto.
Qed.
Print Assumptions C98_chunking.

(** When reading fails, the lines handled are those of the part that was delivered, the last of them
    possibly cut short; when a line is too long, the lines before it. *)
Theorem C98_failed : forall body sched s, sc_run (newScanner body sched) s -> sc_done s = true -> sc_failed s = true ->
  (exists got rest, body = got ++ rest /\ sc_toks s = lines_of got /\ sc_err s <> Some STooLong) \/
  (exists l rest, lines_of body = sc_toks s ++ l :: rest /\ 65536 <= Z.of_nat (length l) /\ sc_err s = Some STooLong).
Proof.
  intros body sched s R D F. destruct (sc_done_result _ _ _ R D) as [[E T]|(N & _ & L & _)].
  - right. assert (G : forall ls toks, scan_tokens false ls = (toks, true) ->
      exists l rest, ls = toks ++ l :: rest /\ 65536 <= Z.of_nat (length l)).
    { induction ls as [|l ls IH]; cbn [scan_tokens]; intros toks H; [discriminate|].
      destruct (scan_fits false l) eqn:Ef.
      - destruct (scan_tokens false ls) as [ts e]. injection H as <- ->. destruct (IH ts eq_refl) as (x & r & -> & Lx).
        exists x, r. auto.
      - injection H as <-. exists l, ls. split; auto. unfold scan_fits in Ef.
        destruct (byte_at l (length l - 1) nl || false)%bool; [apply Z.leb_gt in Ef|apply Z.ltb_ge in Ef]; lia. }
    destruct (G _ _ T) as (l & rest & E1 & E2). exists l, rest. auto.
  - left. exists (delivered body s), (skipn (length body - length (sc_body s)) body). split; [unfold delivered; rewrite firstn_skipn; reflexivity|]. auto.
Qed.
Print Assumptions C98_failed.

(** The scan goes on until it ends or the network has nothing more to give: it never gets stuck otherwise and
    never runs for ever. *)
Theorem C98_progress : forall body sched s, sc_run (newScanner body sched) s ->
  exists s1, sc_run s s1 /\ sc_step s1 = None /\ (sc_done s1 = true \/ sc_sched s1 = []).
Proof.
  intros body sched s R. destruct (sc_finishes s) as (s1 & R1 & E). exists s1. split; [exact R1|]. split; [exact E|]. apply sc_stuck. exact E.
Qed.
Print Assumptions C98_progress.

(** The listener model of Listener.v, whose requests have their lines ready, is what the scanner does: for
    every delivery there is a request of that model that starts with exactly these lines, and its body is
    what was delivered (the whole body unless reading failed). *)
Theorem C98_model : forall p body sched s, p <> [] -> p <> lit "ns" ->
  sc_run (newScanner body sched) s -> sc_done s = true ->
  exists q, q_precision q = p /\ (exists rest, body = q_body q ++ rest) /\ (sc_failed s = false -> q_body q = body) /\
    start_req q = RLines (precision_segments p (sc_toks s)) (match sc_toks s with [] => false | _ => true end) (sc_failed s).
Proof.
  intros p body sched s P1 P2 R D.
  assert (St : forall q, q_precision q = p -> start_req q = let (toks, e) := scan_tokens (q_eager q) (lines_of (q_body q)) in
      RLines (precision_segments p toks) (match toks with [] => false | _ => true end) (e || q_rderr q)).
  { intros q <-. unfold start_req. rewrite (proj2 (beqs_neq _ _) P1), (proj2 (beqs_neq _ _) P2). reflexivity. }
  destruct (sc_done_result _ _ _ R D) as [[E T]|(N & C & L & T & A)].
  - exists (mkReq p body sched true false). split; [reflexivity|]. split; [exists []; rewrite app_nil_r; reflexivity|]. split; [reflexivity|].
    rewrite St by reflexivity. cbn [q_eager q_body q_rderr]. rewrite T. unfold sc_failed. rewrite E. reflexivity.
  - exists (mkReq p (delivered body s) sched (sc_failed s) true). split; [reflexivity|].
    split; [exists (skipn (length body - length (sc_body s)) body); cbn; unfold delivered; rewrite firstn_skipn; reflexivity|].
    split; [exact A|]. rewrite St by reflexivity. cbn [q_eager q_body q_rderr]. rewrite T. reflexivity.
Qed.
Print Assumptions C98_model.

(** Not covered by "without an error": a last line of exactly 65536 bytes without newline is kept or refused
    depending on whether the network reports the end of the body with its last byte or after it. *)
Fixpoint sc_iter (n : nat) (s : scanner) : scanner :=
  match n with O => s | S n => match sc_step s with Some s1 => sc_iter n s1 | None => s end end.
Lemma sc_iter_run n : forall s, sc_run s (sc_iter n s).
Proof.
  induction n as [|n IH]; intros s; cbn [sc_iter]; [constructor|]. destruct (sc_step s) eqn:E; [econstructor; eauto|constructor].
Qed.
Definition long_line : bytes := repeat "x"%char (Z.to_nat 65536).
Definition eager_sched : list (nat * rerr) := repeat (Z.to_nat 65536, EEOF) 5.
Definition late_sched : list (nat * rerr) := repeat (Z.to_nat 65536, ENone) 5 ++ [(0%nat, EEOF)].
Theorem C98_boundary : exists s1 s2,
  sc_run (newScanner long_line eager_sched) s1 /\ sc_done s1 = true /\ sc_failed s1 = false /\ map (fun t => Z.of_nat (length t)) (sc_toks s1) = [65536] /\
  sc_run (newScanner long_line late_sched) s2 /\ sc_done s2 = true /\ sc_failed s2 = true /\ sc_toks s2 = [].
Proof.
  exists (sc_iter 20 (newScanner long_line eager_sched)), (sc_iter 20 (newScanner long_line late_sched)).
  split; [apply sc_iter_run|]. split; [vm_compute; reflexivity|]. split; [vm_compute; reflexivity|]. split; [vm_compute; reflexivity|].
  split; [apply sc_iter_run|]. split; [vm_compute; reflexivity|]. split; vm_compute; reflexivity.
Qed.
Print Assumptions C98_boundary.

(** A case: three lines, cut in the middle of them, with an empty read. *)
Example C98_case : exists s, sc_run (newScanner (lit "cpu x=1 1
mem y=2 2

disk") [(3, ENone); (0, ENone); (9, ENone); (100, ENone); (0, EEOF)]%nat) s /\ sc_done s = true /\ sc_failed s = false /\
  sc_toks s = [lit "cpu x=1 1
"; lit "mem y=2 2
"; lit "
"; lit "disk"].
Proof. eexists (sc_iter 20 _). split; [apply sc_iter_run|]. vm_compute. auto. Qed.
(** A case that fails: the connection breaks inside the second line. *)
Example C98_case_broken : exists s, sc_run (newScanner (lit "cpu x=1 1
mem y=2 2
") [(3, ENone); (9, EOther)]%nat) s /\ sc_done s = true /\ sc_failed s = true /\
  sc_toks s = [lit "cpu x=1 1
"; lit "me"].
Proof. eexists (sc_iter 20 _). split; [apply sc_iter_run|]. vm_compute. auto. Qed.

(** How a scan ends.  Reading fails exactly if one of the Read calls made reported an error, and then no call was made after
    it. *)
Theorem C98_read_errors : forall body sched s, sc_run (newScanner body sched) s -> sc_done s = true ->
  exists used, sched = used ++ sc_sched s /\
    (sc_err s = Some SRead <-> exists p, In p used /\ bad_read p) /\
    (forall pre p post, used = pre ++ p :: post -> bad_read p -> post = []).
Proof.
  intros body sched s R D. destruct (sc_run_rinv _ _ _ R) as [(used & U & N & B) _]. exists used. split; [exact U|].
  assert (Dec : sc_err s = Some SRead \/ sc_err s <> Some SRead) by (destruct (sc_err s) as [[]|]; auto; right; discriminate).
  split; [split|].
  - intros E. destruct (B E) as (pre & p & -> & Bp & _). exists p. split; [apply in_app_iff; right; left; reflexivity|exact Bp].
  - intros (p & I & Bp). destruct Dec as [X|X]; [exact X|]. specialize (N X). rewrite Forall_forall in N. destruct (N p I Bp).
  - intros pre p post E Bp. destruct Dec as [X|X].
    + destruct (B X) as (pre' & p' & E' & _ & F). rewrite E' in E. destruct post as [|x post] using rev_ind; [reflexivity|].
      replace (pre ++ p :: post ++ [x]) with ((pre ++ p :: post) ++ [x]) in E by (rewrite <- app_assoc; reflexivity).
      apply app_inj_tail in E. destruct E as [E _]. rewrite E in F. apply Forall_app in F. destruct F as [_ F]. inversion F; subst. contradiction.
    + specialize (N X). rewrite E in N. apply Forall_app in N. destruct N as [_ N]. inversion N; subst. contradiction.
Qed.
Print Assumptions C98_read_errors.

(** The scan is given up only after 101 Read calls in a row that delivered nothing, ... *)
Theorem C98_no_progress : forall body sched s, sc_run (newScanner body sched) s -> sc_err s = Some SNoProgress ->
  exists s', sc_run (newScanner body sched) s' /\ sc_run s' s /\ sc_body s' = sc_body s /\ length (sc_sched s') = (length (sc_sched s) + 101)%nat.
Proof. intros body sched s R E. exact (qi_stop _ _ (sc_run_qinv _ _ _ R) E). Qed.
Print Assumptions C98_no_progress.
(** ... and always then: while a scan goes on, no more than 100 calls in a row delivered nothing. *)
Theorem C98_patience : forall body sched s' s, sc_run (newScanner body sched) s' -> sc_run s' s -> sc_err s = None -> sc_body s = sc_body s' ->
  (length (sc_sched s') <= length (sc_sched s) + 100)%nat.
Proof.
  intros body sched s' s R R' E B. pose proof (sc_run_qinv _ _ _ R) as Q.
  destruct (sc_quiet _ s' s Q R R' E B) as (L & _ & _).
  pose proof (qi_le _ _ (sc_run_qinv body sched s (sc_run_trans _ _ _ R R'))). lia.
Qed.
Print Assumptions C98_patience.
(** Both happen. *)
Example C98_patience_case :
  let go n := sc_iter 300 (newScanner (lit "a b 1
") (repeat (0%nat, ENone) n ++ [(9%nat, EEOF)])) in
  (sc_toks (go 100%nat), sc_done (go 100%nat), sc_err (go 100%nat)) = ([lit "a b 1
"], true, Some SEOF) /\
  (sc_toks (go 101%nat), sc_done (go 101%nat), sc_err (go 101%nat)) = ([], true, Some SNoProgress).
Proof. split; vm_compute; reflexivity. Qed.

(** So reading succeeds: if no Read call reports an error or 101 of them in a row deliver nothing, and every line is shorter than
    64 KB, the scan ends without error, with the lines of the body. *)
Theorem C98_success : forall body sched s, sc_run (newScanner body sched) s -> sc_done s = true ->
  Forall (fun p => ~ bad_read p) sched -> Forall (fun l => Z.of_nat (length l) < 65536) (lines_of body) ->
  (forall s', sc_run (newScanner body sched) s' -> sc_run s' s -> sc_body s' = sc_body s -> (length (sc_sched s') <= length (sc_sched s) + 100)%nat) ->
  sc_failed s = false /\ sc_toks s = lines_of body.
Proof.
  intros body sched s R D G L P. assert (F : sc_failed s = false).
  { destruct (sc_failed s) eqn:F; [exfalso|reflexivity]. destruct (C98_failed _ _ _ R D F) as [(got & rest & _ & _ & N)|(l & rest & E & Ll & _)].
    - unfold sc_failed in F. destruct (sc_err s) as [[]|] eqn:E; try discriminate F.
      + destruct (C98_read_errors _ _ _ R D) as (used & U & I & _). apply I in E. destruct E as (p & Ip & Bp).
        rewrite Forall_forall in G. apply (G p); [rewrite U; apply in_app_iff; left; exact Ip|exact Bp].
      + apply N. reflexivity.
      + destruct (C98_no_progress _ _ _ R E) as (s' & R1 & R2 & B & X). specialize (P s' R1 R2 B). lia.
    - rewrite E in L. apply Forall_app in L. destruct L as [_ L]. inversion L; subst. lia. }
  split; [exact F|]. exact (C98_lines _ _ _ R D F).
Qed.
Print Assumptions C98_success.

(** The split function, in the terms bufio sets: it never goes beyond the data, advances exactly by the token it returns, and
    without a token not at all. *)
Theorem C98_split : forall data atEOF, 
  match scanLines data atEOF with
  | (adv, Some tok) => (0 < adv)%nat /\ exists rest, data = tok ++ rest /\ adv = length tok /\ lines_of data = tok :: lines_of rest
  | (adv, None) => adv = 0%nat /\ (if atEOF then data = [] else ~ In nl data)
  end.
Proof.
  intros data atEOF. unfold scanLines. destruct atEOF; cbn [andb].
  - destruct (Nat.eqb_spec (length data) 0) as [E|E]; [split; [reflexivity|apply length_zero_iff_nil; exact E]|].
    destruct (index_of (Ascii.eqb nl) data) as [i|] eqn:Ei.
    + destruct (index_of_Some _ _ _ Ei) as (a & c & b & Ea & La & Fa & Pc). apply Ascii.eqb_eq in Pc. subst c i. split; [lia|].
      exists b. rewrite Ea, firstn_line. apply not_in_forall in Fa. split; [rewrite <- app_assoc; reflexivity|].
      split; [rewrite app_length; cbn; lia|]. apply lines_of_nl_app. exact Fa.
    + apply no_nl_index in Ei. split; [lia|]. exists []. rewrite app_nil_r. split; [reflexivity|]. split; [reflexivity|].
      apply lines_of_no_nl; [exact Ei|]. intros ->. apply E. reflexivity.
  - destruct (index_of (Ascii.eqb nl) data) as [i|] eqn:Ei.
    + destruct (index_of_Some _ _ _ Ei) as (a & c & b & Ea & La & Fa & Pc). apply Ascii.eqb_eq in Pc. subst c i. split; [lia|].
      exists b. rewrite Ea, firstn_line. apply not_in_forall in Fa. split; [rewrite <- app_assoc; reflexivity|].
      split; [rewrite app_length; cbn; lia|]. apply lines_of_nl_app. exact Fa.
    + apply no_nl_index in Ei. auto.
Qed.
Print Assumptions C98_split.
