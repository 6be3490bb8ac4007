(** nats_max_pending_size: from the configuration to the subscription's limit. *)
From Verif Require Import Base Config NatsSub StartStop.
Local Open Scope Z_scope.

(** int(c.NATSMaxPendingSize.Bytes()) on a 64-bit machine (filter/filter.go:101, writer/writer.go:106,
    downsampler/downsampler.go:79): the configured uint64, reinterpreted. *)
Definition pending_limit (size : Z) : Z := wrap64 size.

(** nats.go v1.10.0 (from knowledge of the library): SetPendingLimits(-1, bytes) returns ErrInvalidArg when bytes is 0; a
    negative number means no limit. *)
Definition limit_rejected (limit : Z) : bool := limit =? 0.

(** Calls fail as [fails] says, and SetPendingLimits as the configured size makes it. *)
Definition with_limits (size : Z) (fails : call -> bool) : call -> bool :=
  fun k => match k with CLimits _ => limit_rejected (pending_limit size) | _ => fails k end.

(** What can happen to a subscription. *)
Inductive sop := OpArrive (m : bytes) | OpPick | OpReturn.
Definition sub_op (s : sub) (o : sop) : option sub :=
  match o with
  | OpArrive m => Some (fst (sub_arrive s m))
  | OpPick => sub_pick s
  | OpReturn => option_map snd (sub_return s)
  end.
Inductive sub_hist (s0 : sub) : sub -> Prop :=
| sh_start : sub_hist s0 s0
| sh_step s o s' : sub_hist s0 s -> sub_op s o = Some s' -> sub_hist s0 s'.

(** Components that read from NATS with a limit. *)
Definition limited (c : component) : Prop := c = Config.Filter \/ c = Config.Downsampler \/ c = Config.Writer.

(* ------------------------------------------------------------------ *)

Lemma wrap64_cases size : 0 <= size < two64 -> (size < two63 /\ wrap64 size = size) \/ (two63 <= size /\ wrap64 size < 0).
Proof.
  intros H. destruct (Z_lt_ge_dec size two63) as [L|G]; [left|right].
  - split; [exact L|]. apply wrap64_id. unfold int64, minInt64, maxInt64. lia.
  - split; [lia|]. unfold wrap64. replace (size + two63) with (size - two63 + 1 * two64) by (unfold two63, two64; lia).
    rewrite Z.mod_add by discriminate. rewrite Z.mod_small by (unfold two63, two64 in *; lia). unfold two63, two64 in *; lia.
Qed.

Lemma wrap64_zero size : 0 <= size < two64 -> (wrap64 size = 0 <-> size = 0).
Proof. intros H. destruct (wrap64_cases size H) as [[A ->]|[A B]]; [tauto|]. unfold two63 in *. lia. Qed.

Lemma limits_needed c workers subjects : limited c -> (1 <= subjects)%nat -> In (CLimits 0) (needs c workers subjects).
Proof.
  intros [->|[->| ->]] H; cbn [needs]; repeat rewrite in_app_iff.
  - left. right. right. right. left. reflexivity.
  - right. right. apply in_map, in_seq. lia.
  - right. right. apply in_map, in_seq. lia.
Qed.

Lemma starts_iff c workers subjects size fails : limited c -> (1 <= subjects)%nat -> 0 <= size < two64 ->
  ((exists h, start c workers subjects (with_limits size fails) = SOk h) <->
   size <> 0 /\ Forall (fun k => (exists i, k = CLimits i) \/ fails k = false) (needs c workers subjects)).
Proof.
  intros L S1 B. rewrite start_ok, !Forall_forall. split.
  - intros H. split.
    + intros ->. specialize (H _ (limits_needed c workers subjects L S1)). discriminate H.
    + intros k Hk. specialize (H k Hk). destruct k; auto. left. eauto.
  - intros [N H] k Hk. specialize (H k Hk). destruct k; cbn [with_limits]; try (destruct H as [(j & E)|H]; [discriminate E|exact H]).
    unfold limit_rejected, pending_limit. apply Z.eqb_neq. rewrite wrap64_zero by exact B. exact N.
Qed.

Lemma hist_limit s0 s : sub_hist s0 s -> su_limit s = su_limit s0.
Proof.
  induction 1 as [|s o s' _ IH E]; [reflexivity|]. rewrite <- IH. destruct o as [m| |]; cbn [sub_op] in E.
  - injection E as <-. destruct (sub_arrive s m) as [s2 k] eqn:A. apply arrive_backlog in A. apply A.
  - apply pick_backlog in E. apply E.
  - unfold option_map in E. destruct (sub_return s) as [[m s2]|] eqn:R; [|discriminate]. injection E as <-. apply return_backlog in R. apply R.
Qed.

Lemma hist_drop size s m : 0 < size < two64 -> sub_hist (newSub (pending_limit size)) s -> pending_bytes s + Z.of_nat (length m) < two63 ->
  (snd (sub_arrive s m) = false <-> size < pending_bytes s + Z.of_nat (length m)).
Proof.
  intros B H F. pose proof (hist_limit _ _ H) as L. cbn [newSub su_limit] in L. destruct (sub_arrive s m) as [s2 k] eqn:A. apply arrive_backlog in A.
  destruct A as (_ & _ & _ & A). cbn [snd]. rewrite A, L. unfold pending_limit. destruct (wrap64_cases size) as [[X ->]|[X Y]]; lia.
Qed.

Lemma hist_bound size s : 0 < size < two63 -> sub_hist (newSub (pending_limit size)) s -> pending_bytes s <= size.
Proof.
  intros B H. assert (B' : 0 < size < two64) by (unfold two63, two64 in *; lia).
  induction H as [|s o s' H IH E]; [change (0 <= size); lia|]. pose proof (hist_limit _ _ H) as L. cbn [newSub su_limit] in L.
  unfold pending_limit in L. rewrite wrap64_id in L by (unfold int64, minInt64, maxInt64, two63 in *; lia).
  rewrite pending_backlog in *. destruct o as [m| |]; cbn [sub_op] in E.
  - injection E as <-. destruct (sub_arrive s m) as [s2 k] eqn:A. apply arrive_backlog in A. destruct A as (Eb & _ & _ & A). cbn [fst]. rewrite Eb.
    rewrite pending_backlog in A. destruct k; [|rewrite app_nil_r; exact IH]. rewrite concat_app, app_length. cbn [concat]. rewrite app_nil_r.
    destruct (Z_le_gt_dec (Z.of_nat (length (concat (backlog s))) + Z.of_nat (length m)) size) as [X|X]; [lia|]. exfalso.
    assert (true = false) by (apply A; lia). discriminate.
  - apply pick_backlog in E. destruct E as (-> & _). exact IH.
  - unfold option_map in E. destruct (sub_return s) as [[m s2]|] eqn:R; [|discriminate]. injection E as <-. apply return_backlog in R. destruct R as (R & _).
    rewrite R in IH. cbn [concat snd] in *. rewrite app_length in IH. lia.
Qed.
