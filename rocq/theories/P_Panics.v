(** C103: no received data makes a component panic or loop. *)
From Verif Require Import Base Text Convert Timestamps GoLang GoInflux GoBatch GoFilter GoDown GoPipe Batch Splitter Limits Rules FilterWorker Avg Assigner Writer Listener AvgSpec RulesSpec AvgPrint DsMain.
Local Open Scope Z_scope.

(** The parsing functions on any bytes: no index or slice expression out of range, every loop ends, and the result is that
    of the models the other properties are about. *)
Theorem C103_parsing : forall s t : bytes,
  Token_go s t = Ret (Token t s) /\ TokenEscaped_go s t = Ret (TokenEscaped t s) /\ QuotedString_go s = Ret (QuotedString s) /\
  Unescape_go s = Ret (Unescape s) /\ EscapeQuotedString_go s = Ret (EscapeQuotedString s) /\ ToInt_go s = Ret (ToInt s) /\
  ParseTags_go s = Ret (ParseTags s) /\ ExtractTimestamp_go s = Ret (ExtractTimestamp s) /\ ExtractNanos_go s = Ret (ExtractNanos s) /\
  applyTimestampPrecision_go s t = Ret (applyTimestampPrecision s t) /\ newParsedLine_go s = Ret (newParsedLine s).
Proof.
  exact (fun s t => conj (Token_go_ok s t) (conj (TokenEscaped_go_ok s t) (conj (QuotedString_go_ok s) (conj (Unescape_go_ok s) (conj (EscapeQuotedString_go_ok s) (conj (ToInt_go_ok s)
    (conj (ParseTags_go_ok s) (conj (ExtractTimestamp_go_ok s) (conj (ExtractNanos_go_ok s) (conj (applyTimestampPrecision_go_ok s t) (newParsedLine_go_ok s))))))))))).
Qed.
Print Assumptions C103_parsing.
Theorem C103_rules : forall (rs : list rule) (line : bytes), Lookup_go rs line = Ret (match Lookup rs line with Some i => Z.of_nat i | None => -1 end).
Proof. exact Lookup_go_ok. Qed.
Print Assumptions C103_rules.

(** A filter worker given any messages: it handles them all, as FilterWorker.v says. *)
Theorem C103_filter : forall (gosort : forall A : Type, (A -> A -> bool) -> list A -> list A) (c : fcfg) (jobs : list job),
  run_worker_go gosort c (newFilterWorker c) jobs = Ret (run_worker gosort c (newFilterWorker c) jobs).
Proof. exact run_worker_go_ok. Qed.
Print Assumptions C103_filter.

(** A downsampler worker given any messages (of less than 2^63 - 1 bytes in all, so that no field is updated 2^63 times). *)
Theorem C103_downsampler : forall fo (gosort : forall A : Type, (A -> A -> bool) -> list A -> list A), sorts gosort ->
  forall period now fail ts, total (map (msg_of fo) ts) < 2 ^ 63 - 1 -> Forall (fair fo) ts ->
  worker_run_go fo gosort fail (Assigner.newWorker (avgBucket fo) (fun _ => []) period now) ts =
  Ret (worker_run (avgBucket fo) lerr (fun _ => []) (AddLine fo) fail (Assigner.newWorker (avgBucket fo) (fun _ => []) period now) (map (plain_turn fo gosort) ts)).
Proof.
  intros fo gosort P period now fail ts B F. apply (worker_run_go_ok fo gosort (fun l => proj1 (P bytes bltb l AvgPrint.bltb_weak)) fail ts _ 0); [lia|exact B|exact F|].
  split; [|split]; apply bucket_le_nil.
Qed.
Print Assumptions C103_downsampler.

(** A writer given any messages, with a batch size between 1 and 2^63 - 1: what it hands to the database client. *)
Theorem C103_writer : forall c capacity now ws, (1 <= wc_size c)%nat -> Z.of_nat (wc_size c) < 2 ^ 63 -> 0 <= capacity ->
  exists b0 b, New_go capacity now = Ret b0 /\ writer_run_go c b0 ws = Ret (b, snd (writer_run c (New capacity now) ws)) /\ abs b = fst (writer_run c (New capacity now) ws).
Proof.
  intros c capacity now ws L1 L2 L3. destruct (New_go_ok capacity now L3) as (b0 & E & H & A). destruct (writer_run_go_ok c L1 L2 ws b0 H) as (b & E1 & _ & A1). rewrite A in E1, A1. exists b0, b. auto.
Qed.
Print Assumptions C103_writer.

(** A UDP listener given any datagrams and read errors; [scratch] is what the socket leaves in the spare memory. *)
Theorem C103_udp : forall pubfail subject c now us, 0 <= lc_max_size c ->
  exists b0 g, New_go (lc_max_size c) now = Ret b0 /\ udp_run_go pubfail [subject] c (mkGl b0 0 0 0 0 []) us = Ret g /\
               absl g = udp_run pubfail c (newListener c now) (map fst us).
Proof.
  intros pubfail subject c now us L. destruct (New_go_ok (lc_max_size c) now L) as (b0 & E & H & A).
  destruct (udp_run_go_ok pubfail [subject] ltac:(discriminate) c us (mkGl b0 0 0 0 0 []) H) as (g & E1 & _ & A1). exists b0, g. split; [exact E|]. split; [exact E1|]. rewrite A1. unfold absl, newListener. cbn [gl_b gl_received gl_sent gl_rd gl_failed gl_pub]. rewrite A. reflexivity.
Qed.
Print Assumptions C103_udp.

(** An HTTP listener given any requests in any interleaving. *)
Theorem C103_http : forall pubfail subject c t0 qs labs, 0 <= lc_max_size c ->
  exists h0 h, hinit_go c t0 qs = Ret h0 /\ hrun_go pubfail [subject] c h0 labs = Ret h /\ absh h = hrun pubfail c (hinit c t0 qs) (map fst labs).
Proof.
  intros pubfail subject c t0 qs labs L. destruct (hinit_go_ok c t0 qs L) as (h0 & E & H & A).
  destruct (hrun_go_ok pubfail [subject] ltac:(discriminate) c labs h0 H) as (h & E1 & _ & A1). exists h0, h. rewrite A in A1. auto.
Qed.
Print Assumptions C103_http.

(** The splitter panics exactly for a negative limit (C97) and some data, and otherwise always finishes for a limit of at
    least one byte. *)
Theorem C103_splitter : forall z buf, (Next_go z buf = Panic <-> z < 0 /\ buf <> []) /\ (1 <= z -> split_go z buf = Ret (split_all (Z.to_nat z) buf)).
Proof.
  intros z buf. split.
  - rewrite Next_go_int. destruct (Z.ltb_spec z 0) as [N|N].
    + rewrite NextInt_neg by exact N. destruct buf; split; try discriminate; try tauto. intros _. split; [exact N|discriminate].
    + rewrite <- (Z2Nat.id z) at 1 by lia. rewrite NextInt_nat. split; [|lia]. destruct (Next (Z.to_nat z) buf) as [[? ?]|]; discriminate.
  - intros L. rewrite <- (Z2Nat.id z) at 1 by lia. apply split_go_ok. lia.
Qed.
Print Assumptions C103_splitter.

(** What the definitions refuse. *)
Example C103_index : at_ (lit "ab") 2 = Panic /\ at_ (lit "ab") (-1) = Panic /\ at_ (lit "ab") 1 = Ret "b"%char.
Proof. repeat split. Qed.
Example C103_slice : GoLang.slice (lit "abc") 2 1 = Panic /\ GoLang.slice (lit "abc") 0 4 = Panic /\ GoLang.slice (lit "abc") (-1) 2 = Panic /\ GoLang.slice (lit "abc") 1 3 = Ret (lit "bc").
Proof. repeat split. Qed.
Example C103_div : div 5 0 = Panic /\ div (-7) 2 = Ret (-3).
Proof. split; reflexivity. Qed.
Example C103_loop : loop 3 (fun n : nat => Ret (@Cont nat unit (S n))) O = Unfinished.
Proof. reflexivity. Qed.
Example C103_odd_lines : map (fun l => ParseTags_go (lit l)) [""; ","; "\"; "a,"; "a,="; "a,b=\ "; "\,=,"]%string = map (fun l => Ret (ParseTags (lit l))) [""; ","; "\"; "a,"; "a,="; "a,b=\ "; "\,=,"]%string.
Proof. vm_compute. reflexivity. Qed.
Example C103_field : update_body fo0 ([], [], lit " x=") = Ret (Leave ([], [EMissingValue])).
Proof. vm_compute. reflexivity. Qed.
Example C103_batch_case : match New_go 4 0 with Ret b => match Append_go b (lit "hello") 1 with Ret b => match ReadOnceFrom_go b (lit "xy") ENone (lit "garbage") 2 with
  Ret (b, _, _) => Bytes_go b | _ => Panic end | _ => Panic end | _ => Panic end = Ret (lit "helloxy").
Proof. vm_compute. reflexivity. Qed.

(** Hypotheses of C103_downsampler: turns whose maps are gone through in the order of insertion. *)
Definition in_order_of (b : avgBucket fo0) : list (bytes * fieldPairs fo0 * list bytes) := map (fun e => (e, map fst (snd e))) b.
Definition ex_turn (m : bytes) : gturn fo0 := mkGTurn fo0 (Some (m, fun _ => 7)) 8 in_order_of.
Example C103_turns : Forall (fair fo0) [ex_turn (lit "cpu,h=a x=1i,y=2i 5"); ex_turn (lit "cpu,h=a x=")] /\ sorts (@isort).
Proof.
  assert (F : forall m, fair fo0 (ex_turn m)).
  { intros m b _. cbn [ex_turn gt_order]. unfold in_order_of. split; [rewrite map_map; cbn; rewrite map_id; apply Permutation_refl|]. apply Forall_map. apply Forall_forall. intros e _. apply Permutation_refl. }
  split; [constructor; [apply F|constructor; [apply F|constructor]]|exact RulesProofs.isort_sorts].
Qed.
Example C103_down_case : match worker_run_go fo0 (@isort) (fun _ => false) (Assigner.newWorker (avgBucket fo0) (fun _ => []) 10 5) [ex_turn (lit "cpu,h=a x=1i,y=2i 15000000000000000"); ex_turn (lit "cpu,h=a x=")] with
  Ret d => (d_received (d_st _ d), d_invalid_lines (d_st _ d), d_invalid_ts (d_st _ d)) | _ => (0, 0, 0) end = (2, 1, 1).
Proof. vm_compute. reflexivity. Qed.
Example C103_filter_case : match run_worker_go (@isort) (mkFcfg 1000 [mkRule (MBasic (lit "cpu")) (lit "s")] (lit "junk")) (newFilterWorker (mkFcfg 1000 [mkRule (MBasic (lit "cpu")) (lit "s")] (lit "junk")))
  [(fun _ => true, 1500000000000000000, lit "cpu,b=1,a=2 x=1
mem x=1
,")] with Ret (_, acts) => length acts | _ => O end = 8%nat.
Proof. vm_compute. reflexivity. Qed.
