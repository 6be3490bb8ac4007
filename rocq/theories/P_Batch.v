(** Property theorems C10-C15: splitting and batching. *)
From Verif Require Import Base Timestamps NumProofs LinesSpec Splitter SplitterProofs Batch BatchSpec BatchProofs
  Listener ListenerSpec ListenerProofs.
Local Open Scope Z_scope.

(** C10: the loop "for Next() { Chunk() }" ends after at most one iteration per byte, and its
    chunks are the buffer. *)
Theorem C10_split_lossless : forall chunkSize buf, (1 <= chunkSize)%nat ->
  split_loop (length buf) chunkSize buf = (split_all chunkSize buf, []) /\
  concat (split_all chunkSize buf) = buf /\ Forall (fun c => c <> []) (split_all chunkSize buf).
Proof.
  exact (fun cs buf H => conj (split_all_complete cs buf H) (conj (split_all_concat cs buf H) (split_all_nonempty cs buf H))).
Qed.
Print Assumptions C10_split_lossless.

(** Each call of Next: false exactly at the end of the buffer, otherwise a non-empty piece
    taken from the front. *)
Theorem C10_next : forall chunkSize buf, (1 <= chunkSize)%nat ->
  (Next chunkSize buf = None <-> buf = []) /\
  (forall c rest, Next chunkSize buf = Some (c, rest) -> c <> [] /\ c ++ rest = buf).
Proof.
  exact (fun cs buf H => conj (Next_None cs buf)
    (fun c rest E => conj (Next_nonempty cs buf c rest H E) (eq_sym (Next_split cs buf c rest E)))).
Qed.
Print Assumptions C10_next.

(** The positive chunk size is needed: with 0, Next returns empty chunks forever. *)
Theorem C10_zero_chunk_size_spins : Next 0 (lit "a") = Some ([], lit "a").
Proof. exact eq_refl. Qed.

Example C10_case : split_all 5 (lit "ab
cd
efghijk") = [lit "ab
cd
"; lit "efghi"; lit "jk"].
Proof. reflexivity. Qed.

(** C11: false of the code as stated: a newline at index chunkSize gives a longer chunk. *)
Theorem C11_refuted : forall chunkSize, (1 <= chunkSize)%nat ->
  exists buf c, In c (split_all chunkSize buf) /\ (length c = chunkSize + 1)%nat.
Proof. exact oversize_chunk. Qed.
Example C11_case : split_all 3 (lit "abc
d") = [lit "abc
"; lit "d"].
Proof. reflexivity. Qed.
Print Assumptions C11_refuted.

(** What holds: at most one byte more, and then only for a chunk ending in its newline. *)
Theorem C11_size_partial : forall chunkSize buf, (1 <= chunkSize)%nat ->
  Forall (fun c => (length c <= chunkSize)%nat \/ ((length c = chunkSize + 1)%nat /\ exists p, c = p ++ [nl]))
         (split_all chunkSize buf).
Proof. exact split_all_size. Qed.
Print Assumptions C11_size_partial.

(** C12 *)
Theorem C12_lines_kept : forall chunkSize buf, (1 <= chunkSize)%nat ->
  Forall (fun l => (length l <= chunkSize)%nat) (lines_of buf) ->
  flat_map lines_of (split_all chunkSize buf) = lines_of buf /\
  forall l1 c l2, split_all chunkSize buf = l1 ++ c :: l2 -> l2 <> [] -> exists p, c = p ++ [nl].
Proof. exact split_all_lines. Qed.
Print Assumptions C12_lines_kept.

(** What "the lines" are: newline-free text, then a newline; only the last may lack it. *)
Theorem C12_lines_meaning :
  (forall b, concat (lines_of b) = b) /\
  (forall b l, In l (lines_of b) -> l <> [] /\ exists p, ~ In nl p /\ (l = p ++ [nl] \/ l = p)) /\
  (forall p r, ~ In nl p -> lines_of (p ++ nl :: r) = (p ++ [nl]) :: lines_of r).
Proof.
  exact (conj lines_of_concat (conj (fun b l H => conj (lines_of_nonempty b l H) (lines_of_shape b l H)) lines_of_nl_app)).
Qed.
Print Assumptions C12_lines_meaning.

Example C12_case : Forall (fun l => (length l <= 4)%nat) (lines_of (lit "ab
cde
f
")) /\ split_all 4 (lit "ab
cde
f
") = [lit "ab
"; lit "cde
"; lit "f
"].
Proof. split; [repeat constructor; simpl; lia|reflexivity]. Qed.

(** C13 *)
Theorem C13_batch_history : forall capacity now os b es, 0 <= capacity ->
  brun (New capacity now) os = Some (b, es) ->
  Bytes b = a_data (a_run es) /\ Writes b = a_writes (a_run es) /\
  Size b = Z.of_nat (length (a_data (a_run es))) /\ 0 <= Remaining b /\ capacity <= Size b + Remaining b.
Proof. exact batch_history. Qed.
Print Assumptions C13_batch_history.

(** A successful ReadFrom consumes the whole stream, a failed one a prefix of it. *)
Theorem C13_read_complete : forall b a sched body now b' tot rest e, rep b a ->
  ReadFrom b body sched now = Some (b', tot, rest, e) ->
  (body = tot ++ rest /\ (e = ENone -> rest = [])) /\
  rep b' (match tot with [] => a | _ => a_step a (EvWrite tot now) end).
Proof. exact (fun b a sched body now b' tot rest e R => ReadFrom_correct sched b a body now b' tot rest e R). Qed.
Print Assumptions C13_read_complete.

Example C13_case : exists b es, brun (New 2 0)
   [OpAppend (lit "ab") 1; OpReadFrom (lit "xyz") [(2%nat, ENone); (5%nat, EEOF)] 2; OpEnsureNewline; OpAppend [] 3] = Some (b, es) /\
   Bytes b = lit "abxyz
" /\ Writes b = 3.
Proof. do 2 eexists. split; [vm_compute; reflexivity|]. split; reflexivity. Qed.

(** C14 *)
Theorem C14_batch_age : forall capacity now os b es t, 0 <= capacity ->
  brun (New capacity now) os = Some (b, es) ->
  Age b t = match a_first (a_run es) with None => 0 | Some t0 => t - t0 end.
Proof. exact batch_age. Qed.
Print Assumptions C14_batch_age.

Example C14_case : exists b es, brun (New 2 0) [OpAppend (lit "ab") 7; OpReset 9; OpAppend (lit "c") 12; OpAppend (lit "d") 20] = Some (b, es)
  /\ a_first (a_run es) = Some 12 /\ Age b 30 = 18.
Proof. do 2 eexists. split; [vm_compute; reflexivity|]. split; reflexivity. Qed.

(** C15: false of a batch alone, for capacities between 32 KB and 64 KB. *)
Theorem C15_refuted : forall capacity now d, 32768 <= capacity < 65536 -> Z.of_nat (length d) = capacity ->
  Remaining (growIfLow (Append (New capacity now) d now)) < 65536.
Proof. exact no_room. Qed.
Print Assumptions C15_refuted.

(** Exactly when there is room. *)
Theorem C15_room_iff_partial : forall b, Inv b ->
  (65536 <= Remaining (growIfLow b) <->
   65536 <= Remaining b \/ b_cap b < 32768 \/ 65536 <= b_cap b \/ Size b + 65536 <= 2 * b_cap b).
Proof. exact room_iff. Qed.
Print Assumptions C15_room_iff_partial.

(** Every state a UDP listener reaches offers the room, so no datagram is truncated. *)
Theorem C15_udp_listener_has_room : forall pf c now us, 0 <= lc_max_size c ->
  Forall (fun u => Z.of_nat (length (u_data u)) <= 65536) us ->
  65536 <= Remaining (growIfLow (ls_batch (udp_run pf c (newListener c now) us))).
Proof. exact udp_room. Qed.
Print Assumptions C15_udp_listener_has_room.
