(** C70: the averages of every period, from the messages received to InfluxDB. *)
From Verif Require Import Base Text TextSpec NumSpec LinesSpec RulesSpec RulesProofs Avg AvgSpec AvgProofs
  Assigner AssignerSpec DsProofs DsMain Retry RetrySpec Writer WriterSpec EndToEnd DsEnd.
Local Open Scope Z_scope.

(** For every history of messages of good points, clock readings and map iteration orders: what the downsampler
    publishes is, for each period that is over and in order, one line for each series that had points accepted in
    that period, averaging exactly these points ([averages], C37's [series_line]); no line is torn unless it
    exceeds NATS' message size. *)
Theorem C70_averages : forall fo gosort fail p now0 e0 turns, sorts gosort -> 0 < p -> period_end p now0 e0 ->
  Forall (renders fo gosort) turns -> Forall (carries_points fo) turns ->
  let d := worker_run (avgBucket fo) lerr (fun _ => []) (AddLine fo) fail (Assigner.newWorker (avgBucket fo) (fun _ => []) p now0) turns in
  let calls := flat_map (turn_calls (avgBucket fo)) turns in
  let answers := snd (do_calls (avgBucket fo) lerr (fun _ => []) (AddLine fo) (newAssigner (avgBucket fo) (fun _ => []) p now0) calls) in
  exists k (l : list (Z * point)),
    history (avgBucket fo) lerr (fun _ => []) (AddLine fo) p e0 calls answers k (map (fun x => (fst x, point_text (snd x))) l) /\
    Forall (fun x => good_point fo (snd x)) l /\
    (int64 (e0 - p) -> int64 (e0 + k * p) ->
     exists outs, length outs = Z.to_nat k /\
       (forall j ls, nth_error outs j = Some ls -> averages fo p l (e0 + (Z.of_nat j - 1) * p) ls) /\
       concat (d_pub (d_st _ d)) = concat (map (fun ls => concat (map snd ls)) outs) /\
       (Forall (fun ls => Forall (fun x => Z.of_nat (length x) <= 1048576) (lines_of (concat (map snd ls)))) outs ->
          flat_map lines_of (d_pub (d_st _ d)) = flat_map (fun ls => lines_of (concat (map snd ls))) outs)).
Proof. exact downsampled. Qed.
Print Assumptions C70_averages.

(** ... and a writer (without rules) subscribed to the downsampler's output sends exactly these bytes, or still
    holds them. *)
Theorem C70_written : forall fo gosort fail p now0 e0 turns w, sorts gosort -> 0 < p -> period_end p now0 e0 ->
  Forall (renders fo gosort) turns -> Forall (carries_points fo) turns ->
  let d := worker_run (avgBucket fo) lerr (fun _ => []) (AddLine fo) fail (Assigner.newWorker (avgBucket fo) (fun _ => []) p now0) turns in
  plain_writer w -> map snd (messages (ww_trace w)) = d_pub (d_st _ d) ->
  exists k l, history (avgBucket fo) lerr (fun _ => []) (AddLine fo) p e0 (flat_map (turn_calls (avgBucket fo)) turns)
      (snd (do_calls (avgBucket fo) lerr (fun _ => []) (AddLine fo) (newAssigner (avgBucket fo) (fun _ => []) p now0) (flat_map (turn_calls (avgBucket fo)) turns)))
      k (map (fun x => (fst x, point_text (snd x))) l) /\
    (int64 (e0 - p) -> int64 (e0 + k * p) ->
     exists outs, length outs = Z.to_nat k /\
       (forall j ls, nth_error outs j = Some ls -> averages fo p l (e0 + (Z.of_nat j - 1) * p) ls) /\
       concat (bodies (ww_trace w)) ++ held (ww_state w) = concat (map (fun ls => concat (map snd ls)) outs)).
Proof. exact downsampled_written. Qed.
Print Assumptions C70_written.

(** Two points in one message, then the timer twice. *)
Definition de_render (eb : Z * avgBucket fo0) : bytes :=
  bucketBytes fo0 (@isort) (fst eb) (map (fun kf : bytes * fieldPairs fo0 => (kf, map fst (snd kf))) (snd eb)).
Definition de_turns : list (turn (avgBucket fo0)) :=
  [mkTurn _ (Some (lit "m a=t
m a=f
", fun _ => 1510000000000000013)) 1510000000000000013 de_render;
   mkTurn _ None 1510000000000000020 de_render; mkTurn _ None 1510000000000000031 de_render].
Example C70_renders : Forall (renders fo0 (@isort)) de_turns.
Proof.
  assert (R : forall i now, renders fo0 (@isort) (mkTurn _ i now de_render)).
  { intros i now e b. exists (map (fun kf : bytes * fieldPairs fo0 => (kf, map fst (snd kf))) b). split; [|reflexivity]. split.
    - rewrite map_map. cbn [fst]. rewrite map_id. apply Permutation_refl.
    - apply Forall_forall. intros x I. apply in_map_iff in I. destruct I as (kf & <- & _). apply Permutation_refl. }
  repeat (apply Forall_cons; [apply R|]). apply Forall_nil.
Qed.
Example C70_points : Forall (carries_points fo0) de_turns.
Proof.
  apply Forall_cons; [|repeat (apply Forall_cons; [intros data clk line now ts body E; discriminate|]); apply Forall_nil].
  intros data clk line now ts body E I St. inversion E; subst. vm_compute in I.
  destruct St as [(L & _)|(_ & _ & ->)]; [destruct I as [<-|[<-|[]]]; cbn in L; lia|].
  assert (G : forall c, f_parse fo0 [c] = None -> bare [c] -> good_point fo0 (lit "m", [(lit "a", FTok [c])])).
  { intros c P W. split; [free|]. split; [discriminate|]. split; [repeat constructor; auto|]. constructor; [|constructor].
    split; [free|]. apply tok_one; auto. }
  destruct I as [<-|[<-|[]]]; eexists; (split; [apply G|reflexivity]); try reflexivity; word.
Qed.
Example C70_case :
  d_pub (d_st _ (worker_run (avgBucket fo0) lerr (fun _ => []) (AddLine fo0) (fun _ => false)
    (Assigner.newWorker (avgBucket fo0) (fun _ => []) 10 1510000000000000013) de_turns)) = [lit "m a=f 1510000000000000020
"].
Proof. vm_compute. reflexivity. Qed.
