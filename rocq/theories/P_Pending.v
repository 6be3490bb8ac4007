(** C87: nats_max_pending_size. *)
From Verif Require Import Base Config ConfigLoad NatsSub StartStop Pending P_Cluster.
Local Open Scope Z_scope.

(** A filter, downsampler or writer starts exactly when the size is not zero and nothing else it needs fails. *)
Theorem C87_starts_iff : forall c workers subjects size fails, limited c -> (1 <= subjects)%nat -> 0 <= size < two64 ->
  ((exists h, start c workers subjects (with_limits size fails) = SOk h) <->
   size <> 0 /\ Forall (fun k => (exists i, k = CLimits i) \/ fails k = false) (needs c workers subjects)).
Proof. exact starts_iff. Qed.
Print Assumptions C87_starts_iff.

(** At any moment of any history a message is dropped exactly when it does not fit under the configured size together with the
    messages waiting or being handed over (as long as these are less than 2^63 bytes). *)
Theorem C87_dropped_iff : forall size s m, 0 < size < two64 -> sub_hist (newSub (pending_limit size)) s ->
  pending_bytes s + Z.of_nat (length m) < two63 ->
  (snd (sub_arrive s m) = false <-> size < Z.of_nat (length (concat (backlog s))) + Z.of_nat (length m)).
Proof. intros size s m B H F. rewrite <- pending_backlog. exact (hist_drop size s m B H F). Qed.
Print Assumptions C87_dropped_iff.

(** Never more than the configured size is kept waiting. *)
Theorem C87_bound : forall size s, 0 < size < two63 -> sub_hist (newSub (pending_limit size)) s ->
  Z.of_nat (length (concat (backlog s))) <= size.
Proof. intros size s B H. rewrite <- pending_backlog. exact (hist_bound size s B H). Qed.
Print Assumptions C87_bound.

(** So a message larger than the configured size is never taken, however empty the subscription. *)
Theorem C87_too_large : forall size s m, 0 < size < two63 -> sub_hist (newSub (pending_limit size)) s ->
  size < Z.of_nat (length m) -> Z.of_nat (length m) < two63 - size -> snd (sub_arrive s m) = false.
Proof.
  intros size s m B H L F. pose proof (hist_bound size s B H) as X. apply (hist_drop size s m); auto; unfold two63, two64 in *; try lia.
  pose proof (pending_backlog s). lia.
Qed.
Print Assumptions C87_too_large.

(** Non-vacuity. *)
Example C87_zero : start Config.Filter 2 1 (with_limits 0 (fun _ => false)) = SFailed [].
Proof. reflexivity. Qed.
Example C87_started : exists h, start Config.Writer 2 3 (with_limits 1 (fun _ => false)) = SOk h.
Proof. eexists. reflexivity. Qed.
(** Six bytes fit under a limit of ten, the next five do not, four more do; after the first message is done there is room again. *)
Example C87_case :
  let s1 := fst (sub_arrive (newSub (pending_limit 10)) (lit "abcdef")) in
  let s2 := fst (sub_arrive s1 (lit "abcde")) in
  let s3 := fst (sub_arrive s2 (lit "wxyz")) in
  sub_hist (newSub (pending_limit 10)) s3 /\ snd (sub_arrive s1 (lit "abcde")) = false /\ backlog s3 = [lit "abcdef"; lit "wxyz"] /\ su_dropped s3 = 1 /\
  exists s4 s5, sub_op s3 OpPick = Some s4 /\ sub_op s4 OpReturn = Some s5 /\ snd (sub_arrive s4 (lit "x")) = false /\ snd (sub_arrive s5 (lit "abcdef")) = true.
Proof.
  split.
  - eapply sh_step with (o := OpArrive (lit "wxyz")); [|reflexivity]. eapply sh_step with (o := OpArrive (lit "abcde")); [|reflexivity].
    eapply sh_step with (o := OpArrive (lit "abcdef")); [|reflexivity]. apply sh_start.
  - split; [reflexivity|]. split; [reflexivity|]. split; [reflexivity|]. eexists. eexists. split; [reflexivity|]. split; [reflexivity|]. split; reflexivity.
Qed.
