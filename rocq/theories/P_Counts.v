(** C101: a batch is forwarded exactly when a limit is reached, and batch_max_count counts what the documentation says:
    packets, HTTP writes, message chunks. *)
From Verif Require Import Base LinesSpec Batch Splitter Rules Retry Writer WriterSpec Listener ListenerSpec ListenerProofs Counts.
Local Open Scope Z_scope.

(** A writer's worker flushes at a wake-up only, and exactly when the writes since its last flush (with those of the
    message it was woken by) are batch_max_count, or batch_max_size bytes, or batch_max_age old. *)
Theorem C101_writer_exact_partial : forall c cap now ls s tr l s' o, (1 <= wc_size c)%nat -> 0 <= cap ->
  wrun c (newWorker cap now) ls = Some (s, tr) -> wstep c s l = Some (s', o) ->
  (In VSend o -> exists t, In (VWake t) o) /\
  forall t, In (VWake t) o ->
    (In VSend o <-> writer_limit c (timed_writes (wc_rules c) (after_send tr ++ filter is_msg o)) t).
Proof. exact (fun c cap now ls s tr l s' o Hs => writer_flush c Hs cap now ls s tr l s' o). Qed.
Print Assumptions C101_writer_exact_partial.

(** Without rules the count is the number of messages since the last flush, as documented. *)
Theorem C101_writer_messages : forall c cap now ls s tr l s' o t, (1 <= wc_size c)%nat -> 0 <= cap -> wc_rules c = [] ->
  wrun c (newWorker cap now) ls = Some (s, tr) -> wstep c s l = Some (s', o) -> In (VWake t) o ->
  let since := messages (after_send tr ++ filter is_msg o) in
  (In VSend o <-> wc_count c <= Z.of_nat (length since) \/ Z.of_nat (wc_size c) <= volume (map snd since) \/ wc_age c <= oldest since t).
Proof.
  intros c cap now ls s tr l s' o t Hs Hc Hr H St W since.
  destruct (writer_flush c Hs cap now ls s tr l s' o Hc H St) as [_ F]. rewrite (F t W), Hr. unfold writer_limit.
  assert (E : timed_writes [] (after_send tr ++ filter is_msg o) = since).
  { unfold timed_writes. fold since. clear. induction since as [|[t0 d] x IH]; [reflexivity|]. cbn [flat_map fst snd]. change (map (fun d0 : bytes => (t0, d0)) (writes_of [] d)) with [(t0, d)]. cbn [app]. f_equal. exact IH. }
  rewrite E. reflexivity.
Qed.
Print Assumptions C101_writer_messages.

(** With rules it is the number of lines kept: one message of three lines is written at once although three messages
    are allowed, three more megabytes would fit and no time has passed. *)
Definition cpu3 : bytes := lit "cpu x=1
cpu x=2
cpu x=3
".
Definition wconf3 (rs : list rule) : wcfg := mkWC 3 (Z.to_nat 1000) 300000000000 rs 0 0 0.
Theorem C101_writer_refuted : exists rs s o,
  wstep (wconf3 rs) (newWorker 131072 0) (PMsg 0 0 cpu3) = Some (s, o) /\ In VSend o /\ length (messages o) = 1%nat /\
  wc_count (wconf3 rs) = 3 /\ Z.of_nat (length cpu3) < Z.of_nat (wc_size (wconf3 rs)) /\ 0 < wc_age (wconf3 rs).
Proof.
  exists [mkRule (MBasic (lit "cpu")) []]. do 2 eexists. split; [vm_compute; reflexivity|]. split; [right; right; left; reflexivity|].
  repeat split.
Qed.
Print Assumptions C101_writer_refuted.

(** An HTTP listener sends exactly when, after a request, the pieces appended since the last batch reach a limit, or
    when they are batch_max_age old; each step sends at most one batch, and never an empty one. *)
Theorem C101_http_exact_partial : forall pf c t0 qs labs lab, 0 <= lc_max_size c ->
  let h := hrun pf c (hinit c t0 qs) labs in
  let h' := hstep pf c h lab in
  let pend := http_held pf c (hinit c t0 qs) [] labs in
  (ls_sent (h_l h') = ls_sent (h_l h) \/ ls_sent (h_l h') = ls_sent (h_l h) + 1) /\
  (ls_sent (h_l h') = ls_sent (h_l h) + 1 <->
     pend <> [] /\ match fst lab with
                   | LReq i => (exists e, nth_error (h_reqs h) i = Some (RMaybe e)) /\ http_limit c pend (snd lab)
                   | LAge => lc_max_age c <= oldest pend (snd lab)
                   end).
Proof. exact http_flush. Qed.
Print Assumptions C101_http_exact_partial.

(** A request in nanoseconds is one piece at most: the count is the number of writes, as documented. *)
Theorem C101_http_nanos : forall pf c t0 qs labs i q, 0 <= lc_max_size c -> nth_error qs i = Some q ->
  q_precision q = [] \/ q_precision q = lit "ns" ->
  (length (filter (fun e => Nat.eqb (fst (snd e)) i) (http_held pf c (hinit c t0 qs) [] labs)) <= 1)%nat.
Proof. exact nanos_one. Qed.
Print Assumptions C101_http_nanos.

(** With another precision each line counts: one request of three lines is sent at once although three are allowed. *)
Definition hconf3 : lconf := mkLConf 3 300000000000 1048576.
Definition ms3 : hreq := mkReq (lit "ms") cpu3 [] false false.
Theorem C101_http_refuted : exists labs, let h := hrun (fun _ => false) hconf3 (hinit hconf3 0 [ms3]) labs in
  ls_received (h_l h) = 1 /\ ls_sent (h_l h) = 1 /\ ls_pub (h_l h) = [cpu3] /\ Forall (fun l => snd l = 0) labs.
Proof.
  exists [(LReq 0, 0); (LReq 0, 0); (LReq 0, 0); (LReq 0, 0); (LReq 0, 0)]. vm_compute. repeat (split || constructor).
Qed.
Print Assumptions C101_http_refuted.

(** UDP: the batches are those of the reference (ListenerSpec.v), which counts the datagrams that were not empty. *)
Theorem C101_udp : forall pf c now us u, 0 <= lc_max_size c ->
  Forall (fun u => Z.of_nat (length (u_data u)) <= 65536) (us ++ [u]) ->
  let s := udp_run pf c (newListener c now) us in
  let s' := udp_run pf c (newListener c now) (us ++ [u]) in
  let pend := sp_pend (sp_run c us) ++ arrived [u] in
  ls_sent s' = ls_sent s + 1 <-> pend <> [] /\
    limit_reached c pend (match sp_pend (sp_run c us) with [] => u_t1 u | _ => sp_first (sp_run c us) end) (u_t2 u).
Proof.
  intros pf c now us u Hc F s s' pend.
  assert (F1 : Forall (fun u => Z.of_nat (length (u_data u)) <= 65536) us) by (apply Forall_app in F as [F _]; exact F).
  destruct (udp_counters pf c now us Hc F1) as (_ & _ & E1 & _). destruct (udp_counters pf c now (us ++ [u]) Hc F) as (_ & _ & E2 & _).
  fold s in E1. fold s' in E2. rewrite E1, E2. unfold sp_run. rewrite fold_left_app. cbn [fold_left]. fold (sp_run c us).
  unfold sp_step at 1. fold pend. destruct pend as [|p pend'] eqn:Ep.
  - cbn [sp_groups]. split; [lia|]. intros [X _]. congruence.
  - rewrite <- Ep. set (first := match sp_pend (sp_run c us) with [] => u_t1 u | _ => _ end).
    assert (L : limit_reachedb c pend first (u_t2 u) = true <-> limit_reached c pend first (u_t2 u)).
    { unfold limit_reachedb, limit_reached. rewrite !orb_true_iff, !Z.leb_le. tauto. }
    destruct (limit_reachedb c pend first (u_t2 u)); cbn [sp_groups].
    + rewrite app_length. cbn [length]. split; [intros _; split; [rewrite Ep; discriminate|apply L; reflexivity]|lia].
    + split; [lia|]. intros [_ X]. apply L in X. discriminate.
Qed.
Print Assumptions C101_udp.

(** Non-vacuity: without rules the same message does not reach the count; three messages do. *)
Example C101_case_messages : exists s o, wrun (wconf3 []) (newWorker 131072 0) [PMsg 0 0 cpu3; PMsg 5 5 cpu3] = Some (s, o) /\ ~ In VSend o /\
  exists s' o', wstep (wconf3 []) s (PMsg 7 7 cpu3) = Some (s', o') /\ In VSend o'.
Proof.
  do 2 eexists. split; [vm_compute; reflexivity|]. split; [intros X; cbn in X; repeat (destruct X as [X|X]; [discriminate|]); exact X|].
  do 2 eexists. split; [vm_compute; reflexivity|]. right. right. left. reflexivity.
Qed.
Example C101_case_held : http_held (fun _ => false) hconf3 (hinit hconf3 0 [ms3]) [] [(LReq 0, 3); (LReq 0, 4)] =
  [(3, (0%nat, lit "cpu x=1
")); (4, (0%nat, lit "cpu x=2
"))].
Proof. vm_compute. reflexivity. Qed.
