(** Property theorem C85: what NATS delivers to a filter or a downsampler is processed or counted as dropped. *)
From Coq Require Import Permutation.
From Verif Require Import Base LinesSpec Rules RulesSpec FilterWorker FilterSpec FilterProofs Assigner NatsSub Feeds P_Filter.
Local Open Scope Z_scope.

(** The filter, at every moment of every history: the messages the client kept are, in order of arrival, those taken by a worker, those in
    the jobs channel and those waiting in the client; all others are counted in nats_dropped; the waiting bytes respect the
    limit; and the actions done and still to do are those of the messages taken. *)
Theorem C85_filter : forall gosort c limit n ls su fs, gexec gosort c (newSub limit, startFilter c n) ls (su, fs) ->
  g_kept ls = map (fun j : job => snd j) (g_taken ls) ++ s_jobs fs ++ backlog su /\
  Permutation (g_arrived ls) (g_kept ls ++ g_dropped ls) /\
  su_dropped su = Z.of_nat (length (g_dropped ls)) /\
  (0 < limit -> Z.of_nat (length (concat (backlog su))) <= limit) /\
  Permutation (g_performed ls ++ flat_map todo_of (s_workers fs)) (flat_map (job_acts gosort c) (g_taken ls)).
Proof. exact filter_feed. Qed.
Print Assumptions C85_filter.

(** When all is at rest: exactly the kept messages were processed, once each, what was published is what these messages give (C28), and the counter
    of processed lines is the number of their lines. *)
Theorem C85_filter_done : forall gosort c limit n ls su fs, sorts gosort -> gexec gosort c (newSub limit, startFilter c n) ls (su, fs) ->
  quiet fs -> backlog su = [] -> Forall (job_bounds c) (g_taken ls) ->
  map (fun j : job => snd j) (g_taken ls) = g_kept ls /\
  Permutation (published (g_performed ls))
    (flat_map (fun j : job => let '(oks, now, m) := j in published (snd (processBatch gosort c oks now (newFilterWorker c) m))) (g_taken ls)) /\
  counter FProcessed (g_performed ls) = length (flat_map lines_of (g_kept ls)).
Proof. exact filter_feed_done. Qed.
Print Assumptions C85_filter_done.

(** The downsampler, per subject: its worker is the one of C32-C38, C57, C69 on the turns made; their messages, the channel and what waits in the client are the
    messages kept, in order of arrival; all others are counted. *)
Theorem C85_downsampler : forall (B E : Type) (newBucket : Z -> B) (addLine : B -> bytes -> B * list E) fail limit period now ls s tr,
  drun B E newBucket addLine fail (startFeed B newBucket limit period now) ls = Some (s, tr) ->
  df_worker B s = worker_run B E newBucket addLine fail (newWorker B newBucket period now) (d_turns B tr) /\
  d_kept B tr = turn_inputs B (d_turns B tr) ++ df_chan B s ++ backlog (df_sub B s) /\
  Permutation (d_arrived B tr) (d_kept B tr ++ d_dropped B tr) /\
  su_dropped (df_sub B s) = Z.of_nat (length (d_dropped B tr)) /\
  (0 < limit -> Z.of_nat (length (concat (backlog (df_sub B s)))) <= limit) /\ (length (df_chan B s) <= 1024)%nat.
Proof. exact downsampler_feed. Qed.
Print Assumptions C85_downsampler.

(** A filter whose client keeps one of two messages; the kept one is processed completely. *)
Example C85_filter_case : exists ls su fs, gexec (@isort) ex_cfg (newSub 10, startFilter ex_cfg 1) ls (su, fs) /\ quiet fs /\ backlog su = [] /\
  g_kept ls = [lit "cpu x=1
"] /\ g_dropped ls = [lit "cpu x=1
cpu x=2
"] /\ su_dropped su = 1 /\ Forall (job_bounds ex_cfg) (g_taken ls) /\
  published (g_performed ls) = [(lit "s0", lit "cpu x=1
")].
Proof.
  set (m1 := lit "cpu x=1
"). set (m2 := lit "cpu x=1
cpu x=2
"). set (j1 := (fun _ : nat => true, 1500000000000000000, m1)).
  exists ([] ++ [GArrive m1 true] ++ [GArrive m2 false] ++ [GPick] ++ [GPut m1] ++ [GPool (LTake 0 j1)] ++
    [GPool (LAct 0 (AInc FProcessed))] ++ [GPool (LAct 0 (AInc FPassed))] ++ [GPool (LAct 0 (ARule 0))] ++
    [GPool (LAct 0 (APublish (lit "s0") m1 true))] ++ [GPool (LDone 0)]).
  do 2 eexists. split; [|split; [|split; [|]]].
  - rewrite !app_assoc. repeat eapply ge_step. apply ge_nil.
    1,2: apply gs_arrive; vm_compute; reflexivity.
    1: apply gs_pick; reflexivity.
    1: apply gs_put; [reflexivity|apply fs_receive; vm_compute; lia].
    1: apply gs_pool; [exact Logic.I|apply fs_take with (st := newFilterWorker ex_cfg); [reflexivity|vm_compute; reflexivity]].
    1-4: apply gs_pool; [exact Logic.I|eapply fs_act; reflexivity].
    apply gs_pool; [exact Logic.I|]. apply fs_done with (st := newFilterWorker ex_cfg). reflexivity.
  - split; [reflexivity|]. constructor; [reflexivity|constructor].
  - reflexivity.
  - split; [reflexivity|]. split; [reflexivity|]. split; [reflexivity|]. split; [|reflexivity].
    constructor; [|constructor]. vm_compute. repeat split; discriminate.
Qed.

(** A downsampler (buckets that just collect their lines) that has taken one message, has one in its channel and one waiting. *)
Definition feed0 := startFeed (list bytes) (fun _ => []) 100 10 0.
Example C85_downsampler_case : exists s tr,
  drun (list bytes) unit (fun _ => []) (fun b l => (b ++ [l], [])) (fun _ => false) feed0
    [DArrive _ (lit "a 1 5"); DPick _; DPut _; DTurn _ (mkTurn _ (Some (lit "a 1 5", fun _ => 5)) 6 (fun _ => []));
     DArrive _ (lit "b 2 6"); DPick _; DPut _; DTurn _ (mkTurn _ None 7 (fun _ => [])); DArrive _ (lit "c 3 7")] = Some (s, tr) /\
  turn_inputs _ (d_turns _ tr) = [lit "a 1 5"] /\ df_chan _ s = [lit "b 2 6"] /\ backlog (df_sub _ s) = [lit "c 3 7"] /\ d_received (d_st _ (df_worker _ s)) = 1.
Proof. do 2 eexists. split; [vm_compute; reflexivity|]. repeat split; vm_compute; reflexivity. Qed.
