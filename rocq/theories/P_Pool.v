(** Property theorems C82-C84: the whole writer, from its NATS subscriptions to its pool of workers. *)
From Coq Require Import Permutation.
From Verif Require Import Base LinesSpec Rules Retry RetrySpec Writer WriterSpec NatsSub WriterPool WriterPoolProofs.
Local Open Scope Z_scope.

(** C82: at any moment of any run, the messages the NATS client kept are exactly those taken by the workers, each by
    one worker and once, plus those in the jobs channel and those still in the client. *)
Theorem C82_conservation : forall c limits n cap now ls s tr, prun c (startWriter limits n cap now) ls = Some (s, tr) ->
  Permutation (kept_all tr)
    (flat_map (fun w => map snd (messages (wtrace w tr))) (seq 0 n) ++ p_jobs s ++ flat_map backlog (p_subs s)) /\
  (length (p_jobs s) <= 1024)%nat /\ length (p_ws s) = n.
Proof. exact pool_conserves. Qed.
Print Assumptions C82_conservation.

(** Per subscription: every message that arrived was kept or counted in nats_dropped; the kept ones go to the jobs channel in
    the order of arrival; the bytes waiting never exceed the limit. *)
Theorem C82_subscription : forall c limits n cap now ls s tr i su, prun c (startWriter limits n cap now) ls = Some (s, tr) ->
  nth_error (p_subs s) i = Some su ->
  kept_at i tr = puts_of i tr ++ backlog su /\
  Permutation (arrived_at i tr) (kept_at i tr ++ dropped_at i tr) /\
  su_dropped su = Z.of_nat (length (dropped_at i tr)) /\
  nth_error limits i = Some (su_limit su) /\
  (0 < su_limit su -> Z.of_nat (length (concat (backlog su))) <= su_limit su).
Proof. exact pool_sub. Qed.
Print Assumptions C82_subscription.

(** A message is dropped exactly when it does not fit below the limit. *)
Theorem C82_dropped_iff : forall c s i m s' o su, nth_error (p_subs s) i = Some su -> pstep c s (QArrive i m) = Some (s', o) ->
  exists k, o = [BArrive i m k] /\
   (k = false <-> 0 < su_limit su /\ su_limit su < Z.of_nat (length (concat (backlog su))) + Z.of_nat (length m)).
Proof. exact pool_drop_iff. Qed.
Print Assumptions C82_dropped_iff.

(** Every worker of the pool behaves as the single worker of C39-C46 and C58-C60, on the messages it took. *)
Theorem C82_workers : forall c limits n cap now ls s tr w st, prun c (startWriter limits n cap now) ls = Some (s, tr) ->
  nth_error (p_ws s) w = Some st -> exists ls', wrun c (newWorker cap now) ls' = Some (st, wtrace w tr).
Proof. exact pool_worker. Qed.
Print Assumptions C82_workers.

(** A worker that was not told to stop can always be brought back to its select, whatever the database answers, and there it
    takes the next message. *)
Theorem C82_serves : forall c limits n cap now ls s tr w st, (1 <= wc_size c)%nat -> 0 <= cap ->
  prun c (startWriter limits n cap now) ls = Some (s, tr) -> nth_error (p_ws s) w = Some st ->
  w_pc st <> WStopping -> w_pc st <> WStopped ->
  (exists k, forced c (fun st' => w_pc st' = WIdle) k st) /\
  (w_pc st = WIdle -> forall m r t t', p_jobs s = m :: r -> exists s' o, pstep c s (QWork w (PMsg t t' m)) = Some (s', o) /\ p_jobs s' = r).
Proof. exact pool_serves. Qed.
Print Assumptions C82_serves.

(** Two subjects, two workers, a limit of five bytes on the first subject: its second message is dropped while the first waits. *)
Definition pool_cfg (retry : Z) : wcfg := mkWC 1 100 1000 [] retry 60 10.
Definition la : bytes := lit "a 1" ++ [nl].
Definition lb : bytes := lit "b 2" ++ [nl].
Definition two_subjects : list plabel :=
  [QArrive 0 la; QArrive 0 lb; QArrive 1 lb; QPick 1; QPut 1; QPick 0; QPut 0;
   QWork 1 (PMsg 1 1 lb); QWork 0 (PMsg 1 1 la); QWork 1 (PPost (Status 204) 2); QArrive 0 lb].
Example C82_case : exists s tr su, prun (pool_cfg 0) (startWriter [5; 100] 2 0 0) two_subjects = Some (s, tr) /\
  kept_all tr = [la; lb; lb] /\ dropped_at 0 tr = [lb] /\ bodies (wtrace 1 tr) = [lb] /\
  map snd (messages (wtrace 0 tr)) = [la] /\ p_jobs s = [] /\ nth_error (p_subs s) 0 = Some su /\ backlog su = [lb] /\ su_dropped su = 1.
Proof. do 3 eexists. split; [vm_compute; reflexivity|]. repeat split; vm_compute; reflexivity. Qed.

(* ------------------------------------------------------------------ *)
(** * C83: order *)

(** The bodies the database stored (answered 2xx), in the order of the answers, over all workers and their retry goroutines. *)
Definition stored (tr : list pobs) : list bytes :=
  flat_map (fun o => match o with
    | BW _ os => flat_map (fun v => match v with
        | VPost _ b r => if ok r then [b] else []
        | VRetry (OEnd _ a WOk) => [snd a]
        | _ => [] end) os
    | _ => [] end) tr.

(** With one subject and one worker the first attempts carry the accepted data in the order of arrival. *)
Theorem C83_in_order_partial : forall c limit cap now ls s tr st su, (1 <= wc_size c)%nat -> 0 <= cap ->
  prun c (startWriter [limit] 1 cap now) ls = Some (s, tr) -> p_ws s = [st] -> p_subs s = [su] ->
  kept_at 0 tr = map snd (messages (wtrace 0 tr)) ++ p_jobs s ++ backlog su /\
  concat (bodies (wtrace 0 tr)) ++ held st = concat (map (accepted (wc_rules c)) (map snd (messages (wtrace 0 tr)))).
Proof. exact pool_in_order. Qed.
Print Assumptions C83_in_order_partial.

(** With two workers the database can store a later message first although nothing fails ... *)
Definition overtaking : list plabel :=
  [QArrive 0 la; QPick 0; QPut 0; QArrive 0 lb; QPick 0; QPut 0;
   QWork 0 (PMsg 1 1 la); QWork 1 (PMsg 1 1 lb); QWork 1 (PPost (Status 204) 2); QWork 0 (PPost (Status 204) 3)].
Theorem C83_two_workers_refuted : exists s tr, prun (pool_cfg 0) (startWriter [100] 2 0 0) overtaking = Some (s, tr) /\
  arrived_at 0 tr = [la; lb] /\ dropped_at 0 tr = [] /\ stored tr = [lb; la].
Proof. do 2 eexists. split; [vm_compute; reflexivity|]. repeat split; vm_compute; reflexivity. Qed.
Print Assumptions C83_two_workers_refuted.

(** ... and with one worker a batch that failed once is stored after its successor. *)
Definition retried_late : list plabel :=
  [QArrive 0 la; QPick 0; QPut 0; QArrive 0 lb; QPick 0; QPut 0;
   QWork 0 (PMsg 1 1 la); QWork 0 (PPost (Status 503) 2); QWork 0 (PHand 3); QWork 0 (PIn 4 4);
   QWork 0 (PMsg 5 5 lb); QWork 0 (PPost (Status 204) 6); QWork 0 (PRetry (LFire 14 14)); QWork 0 (PRetry (LEnd 15 WOk))].
Theorem C83_retry_refuted : exists s tr, prun (pool_cfg 4) (startWriter [100] 1 0 0) retried_late = Some (s, tr) /\
  arrived_at 0 tr = [la; lb] /\ dropped_at 0 tr = [] /\ stored tr = [lb; la].
Proof. do 2 eexists. split; [vm_compute; reflexivity|]. repeat split; vm_compute; reflexivity. Qed.
Print Assumptions C83_retry_refuted.

(** The in-order theorem applies to a run with three messages in three places. *)
Example C83_case : exists s tr st su, prun (pool_cfg 0) (startWriter [100] 1 0 0)
    [QArrive 0 la; QPick 0; QPut 0; QWork 0 (PMsg 1 1 la); QArrive 0 lb; QPick 0; QPut 0; QArrive 0 la] = Some (s, tr) /\
  p_ws s = [st] /\ p_subs s = [su] /\ held st = la /\ p_jobs s = [lb] /\ backlog su = [la].
Proof. do 4 eexists. split; [vm_compute; reflexivity|]. repeat split; vm_compute; reflexivity. Qed.

(* ------------------------------------------------------------------ *)
(** * C84: Stop and the subscription callbacks *)

(** Once all workers have returned, a callback in progress can still finish exactly if the jobs channel has room. *)
Theorem C84_room_partial : forall c s i m, all_stopped s -> callback_holds s i m -> (length (p_jobs s) <= 1024)%nat ->
  ((exists ls s' tr, prun c s ls = Some (s', tr) /\ ~ callback_holds s' i m) <-> (length (p_jobs s) < 1024)%nat).
Proof. exact stop_room. Qed.
Print Assumptions C84_room_partial.

(** With a full channel it blocks for ever, and none of the messages in the channel is ever written: for every message and
    every configuration there is such a run. *)
Theorem C84_callback_leak_refuted : forall c limit m cap now, Z.of_nat (length m) <= limit ->
  exists ls s tr, prun c (startWriter [limit] 1 cap now) ls = Some (s, tr) /\ all_stopped s /\
    kept_all tr = repeat m 1025 /\ posts (wtrace 0 tr) = [] /\
    forall ls' s' tr', prun c s ls' = Some (s', tr') -> callback_holds s' 0 m /\ p_jobs s' = repeat m 1024.
Proof. exact stop_leaks. Qed.
Print Assumptions C84_callback_leak_refuted.

(** Both sides of the first theorem occur. *)
Example C84_case : exists s tr, prun (pool_cfg 0) (startWriter [100] 1 0 0)
    [QArrive 0 la; QPick 0; QStop; QWork 0 PStop] = Some (s, tr) /\ all_stopped s /\ callback_holds s 0 la /\ p_jobs s = [].
Proof.
  do 2 eexists. split; [vm_compute; reflexivity|]. split; [constructor; [reflexivity|constructor]|]. split; [|reflexivity].
  eexists. split; [vm_compute; reflexivity|reflexivity].
Qed.
