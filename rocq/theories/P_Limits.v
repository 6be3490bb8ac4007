(** Property C97 (properties.jsonl): a writer accepted by validation does not crash because of its limits. *)
From Verif Require Import Base Timestamps Splitter Config ConfigSpec ConfigProofs Units Limits P_Config.
Local Open Scope Z_scope.

(** A worker panics exactly when batch_max_size is 8 EB or more and it has something to send, or when
    writer_retry_batches is too large for the report channels. *)
Theorem C97_exact_partial : forall c buf, 0 <= c_batch_size c < two64 -> int64 (c_retry_batches c) ->
  worker_panics c buf = true <->
  (buf <> [] /\ 2 ^ 63 <= c_batch_size c) \/ (0 < c_retry_batches c /\ 2 ^ 42 - 1 <= c_retry_batches c mod 2 ^ 62).
Proof. exact worker_iff. Qed.

(** In particular never with sizes below 8 EB and fewer than 2^42 - 1 batches to retry. *)
Theorem C97_reasonable_partial : forall c buf, 0 <= c_batch_size c < 2 ^ 63 -> 0 <= c_retry_batches c < 2 ^ 42 - 1 ->
  worker_panics c buf = false.
Proof.
  intros c buf H1 H2. apply not_true_is_false. change (2 ^ 63) with two63 in H1. change (2 ^ 42 - 1) with 4398046511103 in H2.
  rewrite worker_iff by (unfold int64, minInt64, maxInt64, two63, two64 in *; lia).
  change (2 ^ 62) with 4611686018427387904. change (2 ^ 42 - 1) with 4398046511103. rewrite (Z.mod_small (c_retry_batches c)) by lia. unfold two63 in *. lia.
Qed.

(** Chunks are then those of C10-C12. *)
Theorem C97_chunks : forall n buf, Z.of_nat n < 2 ^ 63 ->
  NextInt (int_of (Z.of_nat n)) buf = match Next n buf with None => NEnd | Some (c, rest) => NChunk c rest end.
Proof.
  intros n buf H. change (2 ^ 63) with two63 in H. unfold int_of. rewrite wrap64_id by (unfold int64, minInt64, maxInt64, two63 in *; lia). apply NextInt_nat.
Qed.

Definition with_retries (m : bytes) (n : Z) : pfile :=
  PFile None (Some m) None None None None None None None None None None None None None None (Some n) None None None None None None None None None None None None None.

(** "An accepted configuration does not crash" is false: sizes and counts that are accepted crash the worker. *)
Theorem C97_refuted :
  (exists c v, UnmarshalSize (lit "8EB") = Some v /\ load FAbsent (with_batch_size (lit "writer") v) = LoadOk c /\ forall buf, buf <> [] -> worker_panics c buf = true) /\
  (exists c, load FAbsent (with_retries (lit "writer") (2 ^ 42)) = LoadOk c /\ worker_panics c [] = true).
Proof.
  split.
  - eexists _, _. split; [vm_compute; reflexivity|]. split; [vm_compute; reflexivity|]. intros [|x buf] H; [congruence|]. vm_compute. reflexivity.
  - eexists. split; [vm_compute; reflexivity|]. vm_compute. reflexivity.
Qed.

Print Assumptions C97_exact_partial.
Print Assumptions C97_reasonable_partial.
Print Assumptions C97_chunks.
Print Assumptions C97_refuted.

(** The defaults are reasonable. *)
Example C97_case : exists c, load FAbsent (with_mode (lit "writer")) = LoadOk c /\ c_batch_size c = 10485760 /\ c_retry_batches c = 1 /\ worker_panics c (lit "cpu x=1") = false.
Proof. eexists. split; [vm_compute; reflexivity|]. vm_compute. auto. Qed.
