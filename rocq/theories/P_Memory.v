(** C104: the memory a component's buffers take is bounded by its configuration.  The capacity of a batch's buffer is
    Size + Remaining. *)
From Verif Require Import Base BatchSpec Batch BatchProofs Listener Retry Writer WriterSpec NatsSub WriterPool WriterPoolProofs MemorySpec Memory.
Local Open Scope Z_scope.

(** Any history of a batch that never holds more than [k] bytes: the buffer has at most twice that size and 128 KB. *)
Theorem C104_batch : forall c now os b es k, 0 <= c -> brun (New c now) os = Some (b, es) ->
  (forall es1 es2, es = es1 ++ es2 -> Z.of_nat (length (a_data (a_run es1))) <= k) ->
  c <= Size b + Remaining b <= Z.max c (2 * k + 131072).
Proof. exact batch_memory. Qed.
Print Assumptions C104_batch.

(** UDP listener: a datagram has at most 65535 bytes.  Whatever arrives, the buffer keeps its configured size (at least
    64 KB), and has at most 128 KB if less is configured. *)
Theorem C104_udp : forall pf c now us, 0 <= lc_max_size c -> Forall (fun u => Z.of_nat (length (u_data u)) <= 65535) us ->
  let b := ls_batch (udp_run pf c (newListener c now) us) in
  (65536 <= lc_max_size c -> Size b + Remaining b = lc_max_size c) /\
  lc_max_size c <= Size b + Remaining b <= Z.max (lc_max_size c) 131072.
Proof. exact udp_memory. Qed.
Print Assumptions C104_udp.

(** HTTP listener: no bound.  For every size one request makes the buffer that large; the request is answered, the
    batch is sent and empty, and whatever happens later the buffer does not get smaller. *)
Theorem C104_http_refuted : forall pf c t0 K, 0 <= lc_max_size c -> exists q t, forall more,
  let run labs := hrun pf c (hinit c t0 [q]) labs in
  let labs := [(LReq 0, t); (LReq 0, t); (LAge, t + Z.max 0 (lc_max_age c))] in
  h_reqs (run labs) = [RDone true] /\ Size (ls_batch (h_l (run labs))) = 0 /\
  let b := ls_batch (h_l (run (labs ++ more))) in K <= Size b + Remaining b.
Proof. exact http_unbounded. Qed.
Print Assumptions C104_http_refuted.

(** What holds: if each request adds at most [B] bytes and never more than [n] requests are between adding their first
    byte and their own check of the batch. *)
Theorem C104_http_partial : forall pf c t0 qs labs B n, 0 <= lc_max_size c -> 0 <= B -> Forall (fun q => adds q <= B) qs ->
  (forall l1 l2, labs = l1 ++ l2 -> opens qs (h_reqs (hrun pf c (hinit c t0 qs) l1)) <= n) ->
  let b := ls_batch (h_l (hrun pf c (hinit c t0 qs) labs)) in
  Size b <= Z.max 0 (lc_max_size c - 65537) + n * B /\
  lc_max_size c <= Size b + Remaining b <= Z.max (lc_max_size c) (2 * (Z.max 0 (lc_max_size c - 65537) + n * B) + 131072).
Proof. exact http_memory. Qed.
Print Assumptions C104_http_partial.

(** A request adds its body, or, with another precision, at most five times as much. *)
Theorem C104_http_adds : forall q, adds q <= 5 * Z.of_nat (length (q_body q)) /\
  (q_precision q = [] \/ q_precision q = lit "ns" -> adds q = Z.of_nat (length (q_body q))).
Proof.
  intros q. split; [apply adds_bound|]. intros H. unfold adds, start_req.
  replace (beqs (q_precision q) [] || beqs (q_precision q) (lit "ns"))%bool with true; [reflexivity|].
  destruct H as [-> | ->]; reflexivity.
Qed.
Print Assumptions C104_http_adds.

(** Writer: when the messages have at most [L] bytes (NATS: 1 MB), each worker's buffer and retries, the jobs channel
    and every subscription stay within what is configured; the number of workers does not change. *)
Theorem C104_writer : forall c limits n cap now ls s tr L, (1 <= wc_size c)%nat -> 0 <= cap -> 0 <= wc_retry c -> 0 <= L ->
  Forall (fun m => Z.of_nat (length m) <= L) (kept_all tr) -> prun c (startWriter limits n cap now) ls = Some (s, tr) ->
  Forall (fun st => Size (w_batch st) + Remaining (w_batch st) + Z.of_nat (length (concat (waiting st))) <=
    Z.max cap (2 * (Z.of_nat (wc_size c) + L) + 65536) + (wc_retry c + 2) * (Z.of_nat (wc_size c) + 1)) (p_ws s) /\
  length (p_ws s) = n /\
  Z.of_nat (length (concat (p_jobs s))) <= 1024 * L /\
  Forall (fun su => 0 < su_limit su -> Z.of_nat (length (concat (backlog su))) <= su_limit su) (p_subs s).
Proof. exact pool_memory. Qed.
Print Assumptions C104_writer.

(* ------------------------------------------------------------------ *)
Ltac prefixes l E :=
  repeat (destruct l as [|? l]; [vm_compute; discriminate|]; cbn [app] in E; first [discriminate E|injection E as <- E]); destruct l; discriminate E.
(** Examples: a batch that grows, keeps its size, and is emptied. *)
Example C104_case_batch : exists b es, brun (New 10 0) [OpAppend (lit "abcdefgh") 1; OpAppend (lit "ijk") 2; OpReset 3; OpReadOnce (lit "x") ENone 4] = Some (b, es) /\
  Size b + Remaining b = 65546 /\
  (forall es1 es2, es = es1 ++ es2 -> Z.of_nat (length (a_data (a_run es1))) <= 11) /\ Z.max 10 (2 * 11 + 131072) = 131094.
Proof.
  do 2 eexists. split; [reflexivity|]. split; [vm_compute; reflexivity|]. split; [|reflexivity]. intros es1 es2 E. prefixes es1 E.
Qed.

(** Two datagrams with a buffer of 100000 bytes, and with one of 1000. *)
Definition mem_udp (size : Z) : batch :=
  ls_batch (udp_run (fun _ => false) (mkLConf 10 1000 size) (newListener (mkLConf 10 1000 size) 0)
    [mkU (lit "cpu x=1") ENone 1 1 1; mkU (lit "cpu x=2") ENone 2 2 2]).
Example C104_case_udp : Size (mem_udp 100000) + Remaining (mem_udp 100000) = 100000 /\ Size (mem_udp 100000) = 16 /\
  Size (mem_udp 1000) + Remaining (mem_udp 1000) = 66536 /\ Size (mem_udp 1000) = 0.
Proof. repeat split; vm_compute; reflexivity. Qed.

(** Two requests after each other ([n] = 1, [B] = 8), one of them with a precision. *)
Definition mem_reqs : list Listener.hreq :=
  [mkReq [] (lit "a b=1 1
") [(4, ENone); (4, EEOF)]%nat false false; mkReq (lit "u") (lit "a b=1 2
") [] false false].
Example C104_case_http : Forall (fun q => adds q <= 11) mem_reqs /\ map adds mem_reqs = [8; 11] /\
  (forall l1 l2, [(LReq 0, 1); (LReq 0, 2); (LReq 1, 3); (LReq 1, 4); (LReq 1, 5)] = l1 ++ l2 ->
     opens mem_reqs (h_reqs (hrun (fun _ => false) (mkLConf 10 1000 70000) (hinit (mkLConf 10 1000 70000) 0 mem_reqs) l1)) <= 1) /\
  Size (ls_batch (h_l (hrun (fun _ => false) (mkLConf 10 1000 70000) (hinit (mkLConf 10 1000 70000) 0 mem_reqs)
     [(LReq 0, 1); (LReq 0, 2); (LReq 1, 3); (LReq 1, 4); (LReq 1, 5)]))) = 19.
Proof.
  split; [repeat constructor; vm_compute; discriminate|]. split; [vm_compute; reflexivity|]. split; [|vm_compute; reflexivity].
  intros l1 l2 E. prefixes l1 E.
Qed.

(** A writer with one worker: two chunks of a batch fail; one is queued, the other is about to be handed over. *)
Definition mem_wcfg : wcfg := mkWC 1 4 1000 [] 2 100 10.
Definition mem_labels : list plabel :=
  [QArrive 0 (lit "aaa
bbb
"); QPick 0; QPut 0; QWork 0 (PMsg 1 1 (lit "aaa
bbb
")); QWork 0 (PPost NoResponse 2); QWork 0 (PHand 3); QWork 0 (PIn 4 4); QWork 0 (PPost NoResponse 5)].
Example C104_case_writer : exists s tr st, prun mem_wcfg (startWriter [100] 1 0 0) mem_labels = Some (s, tr) /\ kept_all tr = [lit "aaa
bbb
"] /\ p_ws s = [st] /\ waiting st = [lit "aaa
"; lit "bbb
"] /\ Size (w_batch st) + Remaining (w_batch st) = 65536.
Proof. do 3 eexists. split; [vm_compute; reflexivity|]. repeat split; vm_compute; reflexivity. Qed.
