(** What a writer's worker does with very large limits: the conversions to int and the sizes of channels
    (writer/writer.go:147-166 and 190, writer/retryworker.go:29-45). *)
From Verif Require Import Base Timestamps Splitter Config ConfigSpec Pending.
Local Open Scope Z_scope.

(** batchsplitter/batch_splitter.go:27-32 New: int(chunkSize) of a datasize.ByteSize, a uint64, on a 64-bit machine. *)
Definition int_of (size : Z) : Z := wrap64 size.

Inductive nres := NEnd | NPanic | NChunk (c rest : bytes).

(** batchsplitter/batch_splitter.go:46-73 Next for any int: a negative chunkSize skips the loop and panics in
    s.buf[:s.chunkSize]. *)
Definition NextInt (chunkSize : Z) (buf : bytes) : nres :=
  match buf with
  | [] => NEnd
  | _ =>
      if Z.of_nat (length buf) <=? chunkSize then NChunk buf []
      else
        let found := if 0 <=? chunkSize then back_nl buf (Z.to_nat chunkSize) else None in
        match found with
        | Some i => NChunk (firstn (i + 1) buf) (skipn (i + 1) buf)
        | None => if chunkSize <? 0 then NPanic else NChunk (firstn (Z.to_nat chunkSize) buf) (skipn (Z.to_nat chunkSize) buf)
        end
  end.

(** runtime/chan.go makechan (from knowledge of Go 1.15 on linux/amd64): whether make(chan T, n) panics, for elements of
    [elem] bytes.  An allocation that is not refused may still exhaust the memory. *)
Definition maxAlloc : Z := 2 ^ 48.
Definition hchanSize : Z := 96.
Definition makechan_panics (elem n : Z) : bool := (n <? 0) || (maxAlloc - hchanSize <? elem * n).

(** writer/retryworker.go:38-39: the report channels, of struct{} and error; only with retries (writer/writer.go:158). *)
Definition retry_panics (batches : Z) : bool :=
  if 0 <? batches then makechan_panics 0 (wrap64 (batches * 4)) || makechan_panics 16 (wrap64 (batches * 4)) else false.

(** writer/writer.go:147-212 worker: starting it, and later sending a batch [buf]. *)
Definition worker_panics (c : cfg) (buf : bytes) : bool :=
  retry_panics (c_retry_batches c) || match NextInt (int_of (c_batch_size c)) buf with NPanic => true | _ => false end.

(** ** Proofs *)
Lemma NextInt_neg z buf : z < 0 -> NextInt z buf = match buf with [] => NEnd | _ => NPanic end.
Proof.
  intros H. unfold NextInt. destruct buf as [|c b]; [reflexivity|]. replace (Z.of_nat (length (c :: b)) <=? z) with false by lia.
  replace (0 <=? z) with false by lia. replace (z <? 0) with true by lia. reflexivity.
Qed.

Lemma NextInt_nat n buf : NextInt (Z.of_nat n) buf = match Next n buf with None => NEnd | Some (c, rest) => NChunk c rest end.
Proof.
  unfold NextInt, Next. destruct buf as [|c b]; [reflexivity|]. replace (Z.of_nat (length (c :: b)) <=? Z.of_nat n) with (Nat.leb (length (c :: b)) n) by (destruct (Nat.leb_spec (length (c :: b)) n), (Z.leb_spec (Z.of_nat (length (c :: b))) (Z.of_nat n)); lia).
  destruct (Nat.leb _ _); [reflexivity|]. replace (0 <=? Z.of_nat n) with true by lia. rewrite Nat2Z.id. destruct (back_nl (c :: b) n); [reflexivity|].
  replace (Z.of_nat n <? 0) with false by lia. reflexivity.
Qed.

Lemma NextInt_panics v buf : 0 <= v < two64 -> NextInt (int_of v) buf = NPanic <-> buf <> [] /\ two63 <= v.
Proof.
  intros H. unfold int_of. destruct (wrap64_cases v H) as [[L ->]|[G N]].
  - rewrite <- (Z2Nat.id v) at 1 by lia. rewrite NextInt_nat. split; [|lia]. destruct (Next _ _) as [[? ?]|]; discriminate.
  - rewrite (NextInt_neg _ _ N). destruct buf; split; try discriminate; try tauto. intros _. split; [discriminate|exact G].
Qed.

Lemma retry_iff n : int64 n -> retry_panics n = true <-> 0 < n /\ 2 ^ 42 - 1 <= n mod 2 ^ 62.
Proof.
  intros I64. unfold retry_panics. destruct (Z.ltb_spec 0 n) as [P|P]; [|split; [discriminate|lia]].
  change (2 ^ 62) with 4611686018427387904. change (2 ^ 42) with 4398046511104.
  unfold int64, minInt64, maxInt64 in I64. unfold two63 in I64.
  pose proof (Z.div_mod n 4611686018427387904 ltac:(lia)) as D. pose proof (Z.mod_pos_bound n 4611686018427387904 ltac:(lia)) as B.
  set (r := n mod 4611686018427387904) in *. set (q := n / 4611686018427387904) in *.
  assert (W : wrap64 (n * 4) = if r <? 2305843009213693952 then 4 * r else 4 * r - 18446744073709551616).
  { unfold wrap64. unfold two63, two64. destruct (Z.ltb_spec r 2305843009213693952) as [Lr|Lr].
    - replace (n * 4 + 9223372036854775808) with (4 * r + 9223372036854775808 + q * 18446744073709551616) by lia. rewrite Z_mod_plus_full, Z.mod_small by lia. lia.
    - replace (n * 4 + 9223372036854775808) with (4 * r + 9223372036854775808 - 18446744073709551616 + (q + 1) * 18446744073709551616) by lia. rewrite Z_mod_plus_full, Z.mod_small by lia. lia. }
  rewrite W. unfold makechan_panics, maxAlloc, hchanSize. change (2 ^ 48 - 96) with 281474976710560. destruct (Z.ltb_spec r 2305843009213693952) as [Lr|Lr].
  - split; [intros X; apply orb_true_iff in X; lia|]. intros [_ X]. apply orb_true_iff. right. lia.
  - split; [intros _; lia|]. intros _. apply orb_true_iff. left. lia.
Qed.

Lemma worker_iff c buf : 0 <= c_batch_size c < two64 -> int64 (c_retry_batches c) ->
  worker_panics c buf = true <-> (buf <> [] /\ two63 <= c_batch_size c) \/ (0 < c_retry_batches c /\ 2 ^ 42 - 1 <= c_retry_batches c mod 2 ^ 62).
Proof.
  intros H1 H2. unfold worker_panics. rewrite orb_true_iff, (retry_iff _ H2), <- (NextInt_panics _ buf H1).
  destruct (NextInt _ buf); split; intros [X|X]; try tauto; try discriminate X; right; reflexivity.
Qed.
