(** batch/batch.go and batchsplitter/batch_splitter.go with the memory behind the slice, re-slicing up to the capacity and
    the bounds checks of Go, and that they do what Batch.v, Splitter.v and Limits.v say. *)
From Verif Require Import Base Timestamps GoLang GoInflux Batch BatchProofs Splitter SplitterProofs Limits.
Local Open Scope Z_scope.
Local Open Scope go_scope.

(** batch/batch.go:46-50: b.buf is the first [g_len] bytes of the array [g_mem], whose length is cap(b.buf). *)
Record gbatch := mkG { g_mem : bytes; g_len : Z; g_writes : Z; g_created : Z }.
(** make([]byte, n): zeroed memory.  Not modelled: running out of memory. *)
Definition make (n : Z) : go bytes := if n <? 0 then Panic else Ret (repeat Ascii.zero (Z.to_nat n)).
(** copy(dst[at:], src) (The Go Programming Language Specification: Appending to and copying slices). *)
Definition copy_at (dst : bytes) (i : Z) (src : bytes) : go bytes :=
  d <- slice_from dst i ;;
  let n := Nat.min (length d) (length src) in
  Ret (firstn (Z.to_nat i) dst ++ firstn n src ++ skipn n d).
(** b.buf[:n], allowed up to the capacity. *)
Definition reslice (b : gbatch) (n : Z) : go gbatch :=
  if (0 <=? n) && (n <=? len (g_mem b)) then Ret (mkG (g_mem b) n (g_writes b) (g_created b)) else Panic.
(** batch/batch.go:27-32 New. *)
Definition New_go (capacity now : Z) : go gbatch := m <- make capacity ;; reslice (mkG m 0 0 now) 0.
(** batch/batch.go:58-60 Remaining. *)
Definition Remaining_go (b : gbatch) : Z := len (g_mem b) - g_len b.
(** batch/batch.go:64-66 Bytes. *)
Definition Bytes_go (b : gbatch) : go bytes := slice (g_mem b) 0 (g_len b).
(** batch/batch.go:72-76 CopyBytes. *)
Definition CopyBytes_go (b : gbatch) : go bytes :=
  out <- make (g_len b) ;; v <- Bytes_go b ;; copy_at out 0 v.
(** batch/batch.go:93-97 Reset. *)
Definition Reset_go (b : gbatch) (now : Z) : go gbatch := b <- reslice b 0 ;; Ret (mkG (g_mem b) (g_len b) 0 now).
(** batch/batch.go:184-190 countWrite. *)
Definition countWrite_go (b : gbatch) (now : Z) : gbatch :=
  mkG (g_mem b) (g_len b) (g_writes b + 1) (if g_writes b =? 0 then now else g_created b).
(** batch/batch.go:153-162 grow. *)
Definition grow_go (b : gbatch) : go gbatch :=
  let newSize := len (g_mem b) * 2 in
  let newSize := if newSize <? maxReadSize then len (g_mem b) + maxReadSize else newSize in
  newBuf <- make newSize ;;
  v <- Bytes_go b ;;
  newBuf <- copy_at newBuf 0 v ;;
  reslice (mkG newBuf 0 (g_writes b) (g_created b)) (g_len b).
(** batch/batch.go:143-147 growIfLow. *)
Definition growIfLow_go (b : gbatch) : go gbatch := if Remaining_go b <? maxReadSize then grow_go b else Ret b.
(** batch/batch.go:175-177 *)
Definition grow_body (lenMore : Z) (b : gbatch) : go (iter gbatch gbatch) :=
  if Remaining_go b <? lenMore then b' <- grow_go b ;; Ret (Cont b') else Ret (Leave b).
(** batch/batch.go:173-182 appendImpl. *)
Definition appendImpl_go (b : gbatch) (more : bytes) : go gbatch :=
  let lenMore := len more in
  b <- loop (S (S (length more))) (grow_body lenMore) b ;;
  let lenBatch := g_len b in
  b <- reslice b (lenBatch + lenMore) ;;
  v <- Bytes_go b ;;
  v <- copy_at v lenBatch more ;;
  m <- copy_at (g_mem b) 0 v ;;
  Ret (mkG m (g_len b) (g_writes b) (g_created b)).
(** batch/batch.go:100-103 Append. *)
Definition Append_go (b : gbatch) (more : bytes) (now : Z) : go gbatch := appendImpl_go (countWrite_go b now) more.
(** batch/batch.go:166-171 EnsureNewline. *)
Definition EnsureNewline_go (b : gbatch) : go gbatch :=
  v <- Bytes_go b ;;
  let n := len v in
  if 0 <? n then
    x <- at_ v (n - 1) ;;
    if Ascii.eqb x nl then Ret b else appendImpl_go b [nl]
  else Ret b.
(** What a Read leaves in the window it was given: the data, then possibly garbage (package io: "Even if Read returns
    n < len(p), it may use all of p as scratch space during the call"). *)
Definition fill (got scratch win : bytes) : bytes :=
  firstn (length win) (got ++ scratch ++ skipn (length got + length scratch) win).
(** r.Read(b.buf[len(b.buf):cap(b.buf)]) returning [got]. *)
Definition Read_go (b : gbatch) (got scratch : bytes) : go gbatch :=
  win <- slice (g_mem b) (g_len b) (len (g_mem b)) ;;
  keep <- slice (g_mem b) 0 (g_len b) ;;
  Ret (mkG (keep ++ fill got scratch win) (g_len b) (g_writes b) (g_created b)).
(** batch/batch.go:130-141 ReadOnceFrom. *)
Definition ReadOnceFrom_go (b : gbatch) (d : bytes) (err : rerr) (scratch : bytes) (now : Z) : go (gbatch * bytes * rerr) :=
  b <- growIfLow_go b ;;
  let got := firstn (Z.to_nat (Remaining_go b)) d in
  b <- Read_go b got scratch ;;
  b <- (if 0 <? len got then b' <- reslice b (g_len b + len got) ;; Ret (countWrite_go b' now) else Ret b) ;;
  Ret (b, got, match err with EEOF => ENone | e => e end).
(** batch/batch.go:107-127 ReadFrom; the reader is the one of Batch.ReadFrom_loop, with scratch space. *)
Fixpoint ReadFrom_go (b : gbatch) (body : bytes) (sched : list (nat * rerr)) (scratch : list bytes) (total : bytes) (now : Z)
  : go (option (gbatch * bytes * bytes * rerr)) :=
  match sched with
  | [] => Ret None
  | (k, err) :: sched' =>
      b <- growIfLow_go b ;;
      let n := Nat.min k (Z.to_nat (Remaining_go b)) in
      let got := firstn n body in
      b <- Read_go b got (hd [] scratch) ;;
      b <- (if 0 <? len got then reslice b (g_len b + len got) else Ret b) ;;
      let body := skipn n body in
      let total := total ++ got in
      match (match err, body with EEOF, _ :: _ => ENone | _, _ => err end) with
      | ENone => ReadFrom_go b body sched' (tl scratch) total now
      | _ => Ret (Some (if 0 <? len total then countWrite_go b now else b, total, body, match err with EEOF => ENone | e => e end))
      end
  end.

(** batchsplitter/batch_splitter.go:58-65: i counts down from chunkSize. *)
Definition back_body (buf : bytes) (i : Z) : go (iter Z (option Z)) :=
  if 0 <=? i then
    x <- at_ buf i ;;
    if Ascii.eqb x nl then Ret (Leave (Some (i + 1))) else Ret (Cont (i - 1))
  else Ret (Leave None).
(** batchsplitter/batch_splitter.go:46-73 Next. *)
Definition Next_go (chunkSize : Z) (buf : bytes) : go (option (bytes * bytes)) :=
  if len buf =? 0 then Ret None
  else if len buf <=? chunkSize then Ret (Some (buf, []))
  else
    o <- loop (Z.to_nat chunkSize + 2) (back_body buf) chunkSize ;;
    let i := match o with Some i => i | None => chunkSize end in
    out <- slice buf 0 i ;;
    rest <- slice_from buf i ;;
    Ret (Some (out, rest)).
(** for splitter.Next() { use(splitter.Chunk()) } (listener/listener.go:404-409, writer/writer.go:191-196,
    downsampler/downsampler.go:171-175). *)
Definition split_body (chunkSize : Z) (st : list bytes * bytes) : go (iter (list bytes * bytes) (list bytes)) :=
  let '(out, buf) := st in
  o <- Next_go chunkSize buf ;;
  Ret (match o with None => Leave out | Some (c, rest) => Cont (out ++ [c], rest) end).
Definition split_go (chunkSize : Z) (buf : bytes) : go (list bytes) := loop (S (length buf)) (split_body chunkSize) ([], buf).

(* ------------------------------------------------------------------ *)
(** * Batch *)

(** What Batch.v says about the contents. *)
Definition abs (g : gbatch) : batch := mkBatch (firstn (Z.to_nat (g_len g)) (g_mem g)) (len (g_mem g)) (g_writes g) (g_created g).
Definition gok (g : gbatch) : Prop := 0 <= g_len g <= len (g_mem g).
(** A call gives a well formed batch with these contents. *)
Definition gives (m : go gbatch) (b : batch) : Prop := exists g, m = Ret g /\ gok g /\ abs g = b.

Lemma firstn_len (g : gbatch) : gok g -> length (firstn (Z.to_nat (g_len g)) (g_mem g)) = Z.to_nat (g_len g).
Proof. intros H. unfold gok, len in H. rewrite firstn_length. lia. Qed.
Lemma Size_abs g : gok g -> Size (abs g) = g_len g.
Proof. intros H. unfold Size, abs. cbn [b_buf]. rewrite firstn_len by exact H. unfold gok in H. lia. Qed.
Lemma Remaining_abs g : gok g -> Remaining (abs g) = Remaining_go g.
Proof. intros H. unfold Remaining. rewrite Size_abs by exact H. reflexivity. Qed.
Lemma Bytes_go_ok g : gok g -> Bytes_go g = Ret (Bytes (abs g)).
Proof. intros H. unfold Bytes_go. apply slice_first. exact H. Qed.
Lemma make_ok n : 0 <= n -> make n = Ret (repeat Ascii.zero (Z.to_nat n)).
Proof. intros H. unfold make. replace (n <? 0) with false by lia. reflexivity. Qed.
Lemma reslice_ok g n : 0 <= n <= len (g_mem g) -> reslice g n = Ret (mkG (g_mem g) n (g_writes g) (g_created g)).
Proof. intros H. unfold reslice. replace ((0 <=? n) && (n <=? len (g_mem g))) with true by lia. reflexivity. Qed.
Lemma copy_at_ok (a b c src : bytes) i : i = len a -> length b = length src -> copy_at (a ++ b ++ c) i src = Ret (a ++ src ++ c).
Proof.
  intros -> L. unfold copy_at. rewrite slice_suf by reflexivity. cbn [bind]. f_equal. unfold len. rewrite Nat2Z.id, firstn_app, firstn_all, Nat.sub_diag. cbn [firstn]. rewrite app_nil_r. f_equal.
  rewrite app_length. replace (Nat.min (length b + length c) (length src)) with (length src) by lia. rewrite firstn_all. f_equal. rewrite <- L, skipn_app, skipn_all, Nat.sub_diag. reflexivity.
Qed.
Lemma firstn_exact (a b : bytes) n : n = length a -> firstn n (a ++ b) = a.
Proof. intros ->. rewrite firstn_app, firstn_all, Nat.sub_diag. cbn [firstn]. apply app_nil_r. Qed.

Lemma New_go_ok capacity now : 0 <= capacity -> gives (New_go capacity now) (New capacity now).
Proof.
  intros H. unfold New_go. rewrite make_ok by exact H. cbn [bind]. rewrite reslice_ok by (cbn [g_mem]; pose proof (len_nonneg (repeat Ascii.zero (Z.to_nat capacity))); lia).
  eexists. split; [reflexivity|]. unfold gok, abs, New. cbn [g_mem g_len g_writes g_created]. unfold len. rewrite repeat_length. split; [lia|]. f_equal. lia.
Qed.
Lemma CopyBytes_go_ok g : gok g -> CopyBytes_go g = Ret (Bytes (abs g)).
Proof.
  intros H. unfold CopyBytes_go. rewrite make_ok by apply H. cbn [bind]. rewrite Bytes_go_ok by exact H. cbn [bind].
  pose proof (copy_at_ok [] (repeat Ascii.zero (Z.to_nat (g_len g))) [] (Bytes (abs g)) 0 eq_refl) as X. cbn [app] in X. rewrite !app_nil_r in X. apply X.
  rewrite repeat_length. unfold Bytes, abs. cbn [b_buf]. symmetry. apply firstn_len. exact H.
Qed.
Lemma Reset_go_ok g now : gok g -> gives (Reset_go g now) (Reset (abs g) now).
Proof.
  intros H. unfold Reset_go. rewrite reslice_ok by (pose proof (len_nonneg (g_mem g)); lia). cbn [bind g_mem g_len]. eexists. split; [reflexivity|]. unfold gok, abs, Reset. cbn.
  split; [pose proof (len_nonneg (g_mem g)); lia|reflexivity].
Qed.
Lemma countWrite_go_ok g now : gok g -> gok (countWrite_go g now) /\ abs (countWrite_go g now) = countWrite (abs g) now.
Proof. intros H. split; [exact H|reflexivity]. Qed.
Lemma grow_go_ok g : gok g -> gives (grow_go g) (grow (abs g)).
Proof.
  intros H. unfold grow_go, grow. set (ns := if len (g_mem g) * 2 <? maxReadSize then _ else _). change (b_cap (abs g)) with (len (g_mem g)). fold ns.
  assert (N : g_len g <= ns /\ 0 <= ns) by (unfold gok in H; subst ns; unfold maxReadSize; destruct (_ <? _) eqn:E; lia).
  rewrite make_ok by lia. cbn [bind]. rewrite Bytes_go_ok by exact H. cbn [bind].
  assert (Lb : length (Bytes (abs g)) = Z.to_nat (g_len g)) by (apply firstn_len; exact H).
  change (b_buf (abs g)) with (Bytes (abs g)). change (b_writes (abs g)) with (g_writes g). change (b_created (abs g)) with (g_created g). remember (Bytes (abs g)) as v eqn:Ev. clear Ev.
  assert (Es : repeat Ascii.zero (Z.to_nat ns) = [] ++ repeat Ascii.zero (Z.to_nat (g_len g)) ++ repeat Ascii.zero (Z.to_nat (ns - g_len g)))
    by (cbn [app]; rewrite <- repeat_app; f_equal; unfold gok in H; lia).
  rewrite Es, (copy_at_ok [] _ _ v 0 eq_refl) by (rewrite repeat_length; symmetry; exact Lb). cbn [bind app].
  assert (Lm : len (v ++ repeat Ascii.zero (Z.to_nat (ns - g_len g))) = ns) by (rewrite len_app; unfold len; rewrite repeat_length, Lb; unfold gok in H; lia).
  rewrite reslice_ok by (cbn [g_mem]; rewrite Lm; unfold gok in H; lia). eexists. split; [reflexivity|]. unfold gok, abs. cbn [g_mem g_len g_writes g_created]. rewrite Lm.
  split; [unfold gok in H; lia|]. f_equal. rewrite firstn_exact by (symmetry; exact Lb). symmetry. apply firstn_all2. unfold gok in H. lia.
Qed.
Lemma growIfLow_go_ok g : gok g -> gives (growIfLow_go g) (growIfLow (abs g)).
Proof.
  intros H. unfold growIfLow_go, growIfLow. rewrite Remaining_abs by exact H. destruct (_ <? _); [apply grow_go_ok; exact H|]. exists g. auto.
Qed.

Lemma growIfLow_same g : gok g -> b_buf (growIfLow (abs g)) = b_buf (abs g).
Proof.
  intros H. unfold growIfLow. destruct (_ <? _); [|reflexivity]. cbn [grow b_buf]. apply firstn_all2. change (b_cap (abs g)) with (len (g_mem g)). unfold abs. cbn [b_buf].
  rewrite firstn_len by exact H. unfold gok in H. unfold maxReadSize. destruct (_ <? _) eqn:E; lia.
Qed.

Lemma grow_loop : forall fuel g n, gok g -> n <= Remaining_go g + Z.of_nat fuel * 32768 ->
  n <= Remaining (grow_while fuel (abs g) n) /\ gives (loop (S fuel) (grow_body n) g) (grow_while (S fuel) (abs g) n).
Proof.
  induction fuel as [|f IH]; intros g n H R.
  - cbn [loop]. unfold grow_body at 1. cbn [grow_while]. rewrite Remaining_abs by exact H. replace (Remaining_go g <? n) with false by lia. cbn [bind]. split; [lia|]. exists g. auto.
  - change (loop (S (S f)) (grow_body n) g) with (r <- grow_body n g ;; match r with Cont s' => loop (S f) (grow_body n) s' | Leave v => Ret v end).
    change (grow_while (S (S f)) (abs g) n) with (if Remaining (abs g) <? n then grow_while (S f) (grow (abs g)) n else abs g).
    change (grow_while (S f) (abs g) n) with (if Remaining (abs g) <? n then grow_while f (grow (abs g)) n else abs g).
    unfold grow_body at 1. rewrite Remaining_abs by exact H. destruct (Remaining_go g <? n) eqn:E.
    + destruct (grow_go_ok g H) as (g' & E' & H' & A'). rewrite E'. cbn [bind]. rewrite <- A'. apply IH; [exact H'|].
      rewrite <- Remaining_abs, A' by exact H'. rewrite <- (Remaining_abs g H) in R. assert (Iv : 0 <= b_cap (abs g) /\ Size (abs g) <= b_cap (abs g)) by (rewrite Size_abs by exact H; split; [apply len_nonneg|apply H]).
      unfold Remaining, Size in *. unfold bytes in *. cbn [grow b_cap b_buf]. rewrite firstn_all2 by (unfold maxReadSize; destruct (b_cap (abs g) * 2 <? 65536) eqn:?; lia). unfold maxReadSize. destruct (b_cap (abs g) * 2 <? 65536) eqn:?; lia.
    + cbn [bind]. rewrite Remaining_abs by exact H. split; [lia|]. exists g. auto.
Qed.
Lemma grow_while_more : forall fuel b n, n <= Remaining (grow_while fuel b n) -> grow_while (S fuel) b n = grow_while fuel b n.
Proof.
  induction fuel as [|f IH]; intros b n H.
  - cbn [grow_while] in *. replace (Remaining b <? n) with false by lia. reflexivity.
  - cbn [grow_while] in H |- *. destruct (Remaining b <? n) eqn:E; [|reflexivity]. specialize (IH (grow b) n H). cbn [grow_while] in IH. exact IH.
Qed.

Lemma appendImpl_go_ok g more : gok g -> gives (appendImpl_go g more) (appendImpl (abs g) more).
Proof.
  intros H. unfold appendImpl_go, appendImpl.
  assert (Rm : 0 <= Remaining_go g) by (unfold gok, Remaining_go in *; lia).
  destruct (grow_loop (S (length more)) g (len more) H) as (Room & g1 & E1 & H1 & A1); [unfold len; lia|].
  rewrite (grow_while_more _ _ _ Room) in A1. rewrite E1. cbn [bind]. fold (len more). rewrite <- A1 in Room |- *. rewrite Remaining_abs in Room |- * by exact H1. unfold Remaining_go in *.
  rewrite reslice_ok by (unfold gok in H1; pose proof (len_nonneg more); lia). cbn [bind].
  set (a := firstn (Z.to_nat (g_len g1)) (g_mem g1)). set (r := skipn (Z.to_nat (g_len g1)) (g_mem g1)).
  assert (Em : g_mem g1 = a ++ firstn (length more) r ++ skipn (length more) r) by (rewrite firstn_skipn; symmetry; apply firstn_skipn).
  assert (La : length a = Z.to_nat (g_len g1)) by (apply firstn_len; exact H1).
  assert (Lr : length (firstn (length more) r) = length more) by (rewrite firstn_length; unfold r; rewrite skipn_length; unfold gok, len in *; lia).
  assert (La' : len a = g_len g1) by (unfold len; unfold gok in H1; lia).
  unfold Bytes_go. cbn [g_mem g_len]. rewrite Em at 1. rewrite app_assoc, slice_pre by (rewrite len_app, La'; f_equal; unfold len; lia). cbn [bind].
  pose proof (copy_at_ok a (firstn (length more) r) [] more (g_len g1) (eq_sym La') Lr) as X. rewrite !app_nil_r in X. rewrite X. cbn [bind].
  rewrite Em at 1. rewrite app_assoc. pose proof (copy_at_ok [] (a ++ firstn (length more) r) (skipn (length more) r) (a ++ more) 0 eq_refl) as Y. cbn [app] in Y. rewrite Y by (rewrite !app_length; lia). cbn [bind].
  eexists. split; [reflexivity|]. unfold gok, abs. cbn [g_mem g_len g_writes g_created b_buf b_cap b_writes b_created].
  assert (Lm : len ((a ++ more) ++ skipn (length more) r) = len (g_mem g1)) by (rewrite Em, !len_app; unfold len; lia). rewrite Lm.
  split; [unfold gok in H1; pose proof (len_nonneg more); lia|]. f_equal. rewrite firstn_exact by (rewrite app_length; unfold len; unfold gok in H1; lia). f_equal.
  symmetry. apply firstn_all2. unfold len in *. lia.
Qed.
Lemma Append_go_ok g more now : gok g -> gives (Append_go g more now) (Append (abs g) more now).
Proof. intros H. unfold Append_go, Append. destruct (countWrite_go_ok g now H) as [H1 <-]. apply appendImpl_go_ok. exact H1. Qed.
Lemma EnsureNewline_go_ok g : gok g -> gives (EnsureNewline_go g) (EnsureNewline (abs g)).
Proof.
  intros H. unfold EnsureNewline_go, EnsureNewline. rewrite Bytes_go_ok by exact H. cbn [bind]. unfold Bytes. set (v := b_buf (abs g)).
  replace (0 <? len v) with (Nat.ltb 0 (length v)) by (unfold len; destruct (Nat.ltb_spec 0 (length v)); lia). destruct (Nat.ltb 0 (length v)) eqn:E; [|exists g; auto].
  cbn [andb]. apply Nat.ltb_lt in E. destruct (at_byte v (len v - 1)) as (x & E1 & E2); [unfold len; lia|]. rewrite E1. cbn [bind].
  unfold byte_at. replace (length v - 1)%nat with (Z.to_nat (len v - 1)) by (unfold len; lia). rewrite E2. destruct (Ascii.eqb x nl); cbn [negb]; [exists g; auto|]. apply appendImpl_go_ok. exact H.
Qed.

Lemma fill_length got scratch win : (length got <= length win)%nat -> length (fill got scratch win) = length win.
Proof. intros H. unfold fill. rewrite firstn_length, !app_length, skipn_length. lia. Qed.
Lemma fill_got got scratch win : (length got <= length win)%nat -> firstn (length got) (fill got scratch win) = got.
Proof. intros H. unfold fill. rewrite firstn_firstn. replace (Nat.min (length got) (length win)) with (length got) by lia. apply firstn_exact. reflexivity. Qed.

(** Whatever a Read leaves in the window does not change the contents; taking what it reports to have read appends that. *)
Lemma Read_go_ok g got scratch : gok g -> len got <= Remaining_go g ->
  exists g', Read_go g got scratch = Ret g' /\ gok g' /\ abs g' = abs g /\ g_len g' = g_len g /\
             gives (reslice g' (g_len g' + len got)) (extend (abs g) got).
Proof.
  intros H R. unfold Read_go, Remaining_go in *. set (a := firstn (Z.to_nat (g_len g)) (g_mem g)). set (w := skipn (Z.to_nat (g_len g)) (g_mem g)).
  assert (Em : g_mem g = a ++ w) by (symmetry; apply firstn_skipn).
  assert (La : len a = g_len g) by (unfold len, a; rewrite firstn_len by exact H; unfold gok in H; lia).
  assert (Lw : len w = len (g_mem g) - g_len g) by (rewrite Em, len_app; lia).
  fold (slice_from (g_mem g) (g_len g)). rewrite slice_skip, slice_first by exact H. cbn [bind]. fold a w.
  assert (Lg : (length got <= length w)%nat) by (unfold len in *; lia).
  assert (Lm : len (a ++ fill got scratch w) = len (g_mem g)) by (rewrite len_app; unfold len at 2; rewrite fill_length by exact Lg; unfold len in *; lia).
  eexists. split; [reflexivity|]. cbn [g_len g_mem]. split; [unfold gok; cbn [g_len g_mem]; rewrite Lm; exact H|].
  split; [unfold abs; cbn [g_len g_mem g_writes g_created]; rewrite Lm, firstn_exact by (unfold len in La; lia); reflexivity|]. split; [reflexivity|].
  rewrite reslice_ok by (cbn [g_mem]; rewrite Lm; unfold gok in H; pose proof (len_nonneg got); lia). cbn [g_mem g_writes g_created]. eexists. split; [reflexivity|]. unfold gok, abs, extend. cbn [g_len g_mem g_writes g_created b_buf b_cap b_writes b_created]. rewrite Lm.
  split; [unfold gok in H; pose proof (len_nonneg got); lia|]. f_equal. fold a.
  replace (Z.to_nat (g_len g + len got)) with (length a + length got)%nat by (unfold len in *; unfold gok in H; lia). rewrite firstn_app_2, fill_got by exact Lg. reflexivity.
Qed.

Lemma ReadOnceFrom_go_ok g d err scratch now : gok g -> exists g',
  ReadOnceFrom_go g d err scratch now = Ret (let '(_, got, e) := ReadOnceFrom (abs g) d err now in (g', got, e)) /\ gok g' /\ abs g' = fst (fst (ReadOnceFrom (abs g) d err now)).
Proof.
  intros H. unfold ReadOnceFrom_go, ReadOnceFrom. destruct (growIfLow_go_ok g H) as (g1 & E1 & H1 & A1). rewrite E1. cbn [bind]. rewrite <- A1, Remaining_abs by exact H1.
  set (got := firstn _ d). assert (L : len got <= Remaining_go g1) by (unfold len, got; rewrite firstn_length; unfold gok, Remaining_go in *; lia).
  destruct (Read_go_ok g1 got scratch H1 L) as (g2 & E2 & H2 & A2 & N2 & (g3 & E3 & H3 & A3)). rewrite E2. cbn [bind].
  replace (0 <? len got) with (negb (len got =? 0)) by (pose proof (len_nonneg got); lia). rewrite len_zero. destruct got as [|x got'].
  - cbn [negb bind]. exists g2. auto.
  - cbn [negb]. rewrite E3. cbn [bind]. exists (countWrite_go g3 now). destruct (countWrite_go_ok g3 now H3) as [H4 A4]. rewrite A4, A3. auto.
Qed.

Lemma ReadFrom_go_ok now : forall sched g body scratch total, gok g ->
  match ReadFrom_loop (abs g) body sched total now with
  | None => ReadFrom_go g body sched scratch total now = Ret None
  | Some (b, t, r, e) => exists g', ReadFrom_go g body sched scratch total now = Ret (Some (g', t, r, e)) /\ gok g' /\ abs g' = b
  end.
Proof.
  induction sched as [|[k err] sched IH]; intros g body scratch total H; [reflexivity|]. cbn [ReadFrom_loop ReadFrom_go].
  destruct (growIfLow_go_ok g H) as (g1 & E1 & H1 & A1). rewrite E1. cbn [bind]. rewrite <- A1, Remaining_abs by exact H1. set (n := Nat.min k _). set (got := firstn n body).
  assert (L : len got <= Remaining_go g1) by (unfold len, got; rewrite firstn_length; unfold gok, Remaining_go in *; lia).
  destruct (Read_go_ok g1 got (hd [] scratch) H1 L) as (g2 & E2 & H2 & A2 & N2 & (g3 & E3 & H3 & A3)). rewrite E2. cbn [bind].
  assert (X : exists g4, (if 0 <? len got then reslice g2 (g_len g2 + len got) else Ret g2) = Ret g4 /\ gok g4 /\ abs g4 = extend (abs g1) got).
  { replace (0 <? len got) with (negb (len got =? 0)) by (pose proof (len_nonneg got); lia). rewrite len_zero. clearbody got. destruct got as [|x got'].
    - exists g2. cbn [negb]. rewrite A2. split; [reflexivity|]. split; [exact H2|]. unfold extend. rewrite app_nil_r. reflexivity.
    - exists g3. auto. }
  destruct X as (g4 & E4 & H4 & A4). rewrite E4. cbn [bind]. rewrite <- A4.
  assert (C : forall t : bytes, let g5 := if 0 <? len t then countWrite_go g4 now else g4 in gok g5 /\ abs g5 = match t with [] => abs g4 | _ => countWrite (abs g4) now end).
  { intros t. cbn zeta. replace (0 <? len t) with (negb (len t =? 0)) by (pose proof (len_nonneg t); lia). rewrite len_zero. destruct t; cbn [negb]; auto. }
  destruct (C (total ++ got)) as [H5 A5].
  destruct err, (skipn n body) eqn:Es; first [apply (IH g4 _ (tl scratch) (total ++ got) H4) | eexists; split; [reflexivity|]; split; [exact H5|exact A5]].
Qed.

(* ------------------------------------------------------------------ *)
(** * Splitter *)

Lemma back_loop buf : forall i, (i < length buf)%nat -> forall fuel, (i + 1 < fuel)%nat ->
  loop fuel (back_body buf) (Z.of_nat i) = Ret (match back_nl buf i with Some j => Some (Z.of_nat j + 1) | None => None end).
Proof.
  induction i as [|i IH]; intros L fuel F; (destruct fuel as [|[|f]]; [lia|lia|]).
  - destruct (at_byte buf 0) as (x & E1 & E2); [unfold len; lia|]. change (Z.to_nat 0) with 0%nat in E2. cbn [loop back_nl]. unfold back_body at 1. replace (0 <=? Z.of_nat 0) with true by lia. change (Z.of_nat 0) with 0. rewrite E1. cbn [bind].
    unfold byte_at. rewrite E2. destruct (Ascii.eqb x nl); reflexivity.
  - destruct (at_byte buf (Z.of_nat (S i))) as (x & E1 & E2); [unfold len; lia|]. rewrite Nat2Z.id in E2.
    change (loop (S (S f)) (back_body buf) (Z.of_nat (S i))) with (r <- back_body buf (Z.of_nat (S i)) ;; match r with Cont s' => loop (S f) (back_body buf) s' | Leave v => Ret v end).
    unfold back_body at 1. replace (0 <=? Z.of_nat (S i)) with true by lia. rewrite E1. cbn [bind back_nl]. unfold byte_at at 1. rewrite E2. destruct (Ascii.eqb x nl); [reflexivity|]. cbn [bind].
    replace (Z.of_nat (S i) - 1) with (Z.of_nat i) by lia. apply IH; lia.
Qed.
Lemma back_nl_le buf : forall i j, back_nl buf i = Some j -> (j <= i)%nat.
Proof.
  induction i as [|i IH]; intros j E; cbn [back_nl] in E.
  - destruct (byte_at buf 0 nl); [injection E as <-; lia|discriminate].
  - destruct (byte_at buf (S i) nl); [injection E as <-; lia|]. apply IH in E. lia.
Qed.
Lemma Next_go_ok n buf : Next_go (Z.of_nat n) buf = Ret (Next n buf).
Proof.
  unfold Next_go, Next. rewrite len_zero. destruct buf as [|c buf]; [reflexivity|]. set (s := c :: buf).
  replace (len s <=? Z.of_nat n) with (Nat.leb (length s) n) by (unfold len; destruct (Nat.leb_spec (length s) n); lia). destruct (Nat.leb_spec (length s) n); [reflexivity|].
  rewrite Nat2Z.id, back_loop by lia. cbn [bind]. destruct (back_nl s n) as [j|] eqn:E.
  - apply back_nl_le in E. rewrite slice_first, slice_skip by (unfold len; lia). cbn [bind]. replace (Z.to_nat (Z.of_nat j + 1)) with (j + 1)%nat by lia. reflexivity.
  - rewrite slice_first, slice_skip by (unfold len; lia). cbn [bind]. rewrite Nat2Z.id. reflexivity.
Qed.
(** Any int, as in Limits.v. *)
Lemma Next_go_int z buf : Next_go z buf = match NextInt z buf with NEnd => Ret None | NPanic => Panic | NChunk c r => Ret (Some (c, r)) end.
Proof.
  destruct (Z.leb_spec 0 z).
  - rewrite <- (Z2Nat.id z) by lia. rewrite NextInt_nat, Next_go_ok. destruct (Next (Z.to_nat z) buf) as [[? ?]|]; reflexivity.
  - rewrite NextInt_neg by lia. unfold Next_go. rewrite len_zero. destruct buf as [|c buf]; [reflexivity|]. replace (len (c :: buf) <=? z) with false by (pose proof (len_nonneg (c :: buf)); lia).
    replace (Z.to_nat z + 2)%nat with 2%nat by lia. cbn [loop]. unfold back_body at 1. replace (0 <=? z) with false by lia. cbn [bind]. unfold slice. replace (0 <=? 0) with true by lia. replace (0 <=? z) with false by lia. reflexivity.
Qed.
Lemma split_go_loop n : forall fuel buf out cs, split_loop fuel n buf = (cs, []) ->
  loop (S fuel) (split_body (Z.of_nat n)) (out, buf) = Ret (out ++ cs).
Proof.
  induction fuel as [|f IH]; intros buf out cs E.
  - cbn in E. injection E as <- ->. cbn [loop]. unfold split_body at 1. rewrite Next_go_ok. cbn. rewrite app_nil_r. reflexivity.
  - cbn [split_loop] in E. change (loop (S (S f)) (split_body (Z.of_nat n)) (out, buf)) with (r <- split_body (Z.of_nat n) (out, buf) ;; match r with Cont s' => loop (S f) (split_body (Z.of_nat n)) s' | Leave v => Ret v end).
    unfold split_body at 1. rewrite Next_go_ok. cbn [bind]. destruct (Next n buf) as [[c rest]|]; [|injection E as <- ->; cbn [bind]; rewrite app_nil_r; reflexivity].
    destruct (split_loop f n rest) as [cs' r] eqn:Er. injection E as <- ->. cbn [bind]. rewrite (IH rest (out ++ [c]) cs' Er), <- app_assoc. reflexivity.
Qed.

Lemma split_go_ok n buf : (1 <= n)%nat -> split_go (Z.of_nat n) buf = Ret (split_all n buf).
Proof. intros H. exact (split_go_loop n (length buf) buf [] (split_all n buf) (split_all_complete n buf H)). Qed.
