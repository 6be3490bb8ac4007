(** The cases of /repo/batch/batch_small_test.go, /repo/batchsplitter/batch_splitter_test.go and
    /repo/downsampler/assigner_small_test.go run on the model: evidence that the model agrees with the code, not part of
    any proof. *)
From Verif Require Import ConfTac Base Convert Batch Splitter Assigner.
Local Open Scope Z_scope.

Definition seen (b : batch) (now : Z) : Z * Z * Z * Z * bytes := (Size b, Remaining b, Writes b, Age b now, Bytes b).

(** batch/batch_small_test.go TestNew, TestAppend, TestAppendGrow, TestReset *)
Example conf_New : seen (New 64 5) 5 = (0, 64, 0, 0, []).
Proof. vm_compute. reflexivity. Qed.
Example conf_Append : let b := Append (New 10 5) (lit "foo") 5 in seen b 5 = (3, 7, 1, 0, lit "foo") /\ seen (Append b (lit "bar") 5) 5 = (6, 4, 2, 0, lit "foobar").
Proof. vm_compute. auto. Qed.
Example conf_AppendGrow : let b := Append (New 2 5) (lit "foo") 5 in
  seen b 5 = (3, maxReadSize + 2 - 3, 1, 0, lit "foo") /\ seen (Append b (lit "bar") 5) 5 = (6, maxReadSize - 4, 2, 0, lit "foobar").
Proof. vm_compute. auto. Qed.
Example conf_Reset : seen (Reset (Append (New 10 5) (lit "foo") 5) 5) 5 = (0, 10, 0, 0, []).
Proof. vm_compute. reflexivity. Qed.
(** TestReadFrom, TestReadFromNoData, TestReadOnceFrom, TestReadOnceNoData: bytes.Reader gives all it has and then EOF. *)
Example conf_ReadFrom :
  (match ReadFrom (New 10 5) (lit "foo") [(3%nat, ENone); (0%nat, EEOF)] 5 with Some (b, d, rest, e) => Some (seen b 5, d, e) | None => None end) =
    Some ((3, maxReadSize + 10 - 3, 1, 0, lit "foo"), lit "foo", ENone) /\
  (match ReadFrom (New 10 5) [] [(0%nat, EEOF)] 5 with Some (b, d, rest, e) => Some (Size b, Writes b, d, e) | None => None end) = Some (0, 0, [], ENone).
Proof. vm_compute. auto. Qed.
Example conf_ReadOnceFrom :
  (let '(b, d, e) := ReadOnceFrom (New 10 5) (lit "foo") ENone 5 in (seen b 5, d, e)) = ((3, maxReadSize + 10 - 3, 1, 0, lit "foo"), lit "foo", ENone) /\
  (let '(b, d, e) := ReadOnceFrom (New 10 5) [] EEOF 5 in (Size b, Writes b, d, e)) = (0, 0, [], ENone).
Proof. vm_compute. auto. Qed.
(** TestEnsureNewline *)
Example conf_EnsureNewline : let b0 := EnsureNewline (New 64 5) in let b1 := EnsureNewline (Append b0 (lit "foo") 5) in
  let b2 := EnsureNewline (Append b1 (lit "bar" ++ [nl]) 5) in
  Bytes b0 = [] /\ Bytes b1 = lit "foo" ++ [nl] /\ Bytes b2 = lit "foo" ++ [nl] ++ lit "bar" ++ [nl] /\ Writes b2 = 2.
Proof. vm_compute. auto. Qed.
(** TestAge, in seconds from the start *)
Definition sec : Z := 1000000000.
Example conf_Age : let b0 := New 10 0 in let b1 := Append b0 (lit "foo") (120 * sec) in let b2 := Append b1 (lit "bar") (180 * sec) in
  let b3 := Reset b2 (300 * sec) in let b4 := Append b3 (lit "foo") (301 * sec) in
  [Age b0 0; Age b0 (60 * sec); Age b0 (120 * sec); Age b1 (120 * sec); Age b1 (180 * sec); Age b2 (180 * sec); Age b2 (240 * sec);
   Age b3 (300 * sec); Age b4 (301 * sec); Age b4 (302 * sec)] =
  [0; 0; 0; 0; 60 * sec; 60 * sec; 120 * sec; 0; 0; sec].
Proof. vm_compute. reflexivity. Qed.

(** batchsplitter/batch_splitter_test.go: TestEmpty, TestNoSplit, TestNoSplitWithLines, TestNoSplitExact, TestChunks,
    TestChunksExact, TestLineTooLong, TestMultiLineTooLong *)
Definition ln (s : bytes) : bytes := s ++ [nl].
Example conf_splitter : Forall (fun c => split_all (fst (fst c)) (snd (fst c)) = snd c) [
  ((100%nat, []), []);
  ((100%nat, ln (lit "abcdefghij")), [ln (lit "abcdefghij")]);
  ((100%nat, ln (lit "abcd") ++ ln (lit "efg") ++ lit "hij"), [ln (lit "abcd") ++ ln (lit "efg") ++ lit "hij"]);
  ((12%nat, ln (lit "abcd") ++ ln (lit "efg") ++ lit "hij"), [ln (lit "abcd") ++ ln (lit "efg") ++ lit "hij"]);
  ((6%nat, ln (lit "1111") ++ ln (lit "2222") ++ ln (lit "333")), [ln (lit "1111"); ln (lit "2222"); ln (lit "333")]);
  ((5%nat, ln (lit "1111") ++ ln (lit "2222") ++ ln (lit "3333")), [ln (lit "1111"); ln (lit "2222"); ln (lit "3333")]);
  ((3%nat, lit "01234567"), [lit "012"; lit "345"; lit "67"]);
  ((3%nat, ln (lit "0123456") ++ ln (lit "88") ++ lit "99"), [lit "012"; lit "345"; ln (lit "6"); ln (lit "88"); lit "99"])].
Proof. table. Qed.

(** downsampler/assigner_small_test.go.  The clock starts at a full minute (2018-08-28 14:11 UTC). *)
Definition t0 : Z := 1535465460 * sec.
Definition fakeNew (_ : Z) : list bytes := [].
Definition fakeAdd (b : list bytes) (l : bytes) : list bytes * list unit := (b ++ [l], []).
Definition line_at (text : bytes) (t : Z) : bytes := text ++ lit " " ++ FormatInt t ++ [nl].
Definition asg := assigner (list bytes).
Definition a0 : asg := newAssigner (list bytes) fakeNew (60 * sec) t0.
(** Steps of a test: an Update at a time with the number of errors of each kind, a Bytes with the lines expected, an
    UntilNext. *)
Inductive cstep := CUp (data : bytes) (old new other : nat) | CAdv (s : Z) | COut (lines : list bytes) | CUntil (s : Z).
Definition is_old (e : uerr unit) : bool := match e with UTooOld _ _ => true | _ => false end.
Definition is_new (e : uerr unit) : bool := match e with UTooNew _ _ => true | _ => false end.
Fixpoint beqls (a b : list bytes) : bool := match a, b with [], [] => true | x :: a', y :: b' => beqs x y && beqls a' b' | _, _ => false end.
Fixpoint asteps (add : list bytes -> bytes -> list bytes * list unit) (a : asg) (now : Z) (ss : list cstep) : bool :=
  match ss with
  | [] => true
  | CUp data o n k :: r => let (a', es) := Assigner.Update (list bytes) unit add a data (fun _ => now) in
      Nat.eqb (length (filter is_old es)) o && Nat.eqb (length (filter is_new es)) n && Nat.eqb (length es) (o + n + k) && asteps add a' now r
  | CAdv s :: r => asteps add a (now + s * sec) r
  | COut ls :: r => let (a', out) := emit (list bytes) fakeNew a now in
      beqls ls (match out with None => [] | Some eb => snd eb end) && asteps add a' now r
  | CUntil s :: r => (UntilNext (list bytes) a now =? s * sec) && asteps add a now r
  end.
Definition up (text : bytes) (s : Z) : cstep := CUp (line_at text (t0 + s * sec)) 0 0 0.

(** TestAssignerEmpty, TestTooOld, TestTooNew *)
Example conf_asg_empty : asteps fakeAdd a0 t0 (COut [] :: concat (repeat [CAdv 60; COut []] 10)) = true.
Proof. vm_compute. reflexivity. Qed.
Example conf_asg_old : asteps fakeAdd a0 t0 [CUp (line_at (lit "x") (t0 - 61 * sec)) 1 0 0] = true.
Proof. vm_compute. reflexivity. Qed.
Example conf_asg_new : asteps fakeAdd a0 t0 [CUp (line_at (lit "x") (t0 + 120 * sec)) 0 1 0] = true.
Proof. vm_compute. reflexivity. Qed.
(** TestPrevSlot, TestCurrSlot, TestNextSlot *)
Definition abc : list bytes := [lit "a"; lit "b"; lit "c"].
Example conf_asg_prev : asteps fakeAdd a0 t0 [up (lit "a") (-30); up (lit "b") (-60); up (lit "c") (-1); COut []; CAdv 59; COut []; CAdv 1; COut abc; COut []] = true.
Proof. vm_compute. reflexivity. Qed.
Example conf_asg_curr : asteps fakeAdd a0 t0 [up (lit "a") 0; up (lit "b") 30; up (lit "c") 59; COut []; CAdv 60; COut []; CAdv 59; COut []; CAdv 1; COut abc; COut []] = true.
Proof. vm_compute. reflexivity. Qed.
Example conf_asg_next : asteps fakeAdd a0 t0 [up (lit "a") 60; up (lit "b") 90; up (lit "c") 119; COut []; CAdv 60; COut []; CAdv 60; COut []; CAdv 59; COut []; CAdv 1; COut abc; COut []] = true.
Proof. vm_compute. reflexivity. Qed.
(** TestAllSlots, TestMultipleInputLines *)
Example conf_asg_all : asteps fakeAdd a0 t0 [up (lit "a") (-1); up (lit "b") 0; up (lit "c") 60; COut []; CAdv 60; COut [lit "a"]; CAdv 60; COut [lit "b"]; CAdv 60; COut [lit "c"]; CAdv 60; COut []] = true.
Proof. vm_compute. reflexivity. Qed.
Example conf_asg_multi : asteps fakeAdd a0 t0 [
  CUp (concat (map (fun x => line_at (fst x) (t0 + snd x * sec)) [(lit "a0", -1); (lit "a1", -20); (lit "b0", 0); (lit "b1", 10); (lit "c0", 60); (lit "c1", 90)])) 0 0 0;
  CAdv 60; COut [lit "a0"; lit "a1"]; CAdv 60; COut [lit "b0"; lit "b1"]; CAdv 60; COut [lit "c0"; lit "c1"]; CAdv 60; COut []] = true.
Proof. vm_compute. reflexivity. Qed.
(** TestNoTimestamp, TestBucketErrors, TestUntilNext *)
Example conf_asg_no_ts : asteps fakeAdd a0 t0 [CUp (lit "x") 0 0 0; CAdv 60; COut []; CAdv 60; COut [lit "x"]] = true.
Proof. vm_compute. reflexivity. Qed.
Example conf_asg_errors : asteps (fun b _ => (b, [tt])) a0 t0 [CUp (line_at (lit "x") t0) 0 0 1; CUp (line_at (lit "y") t0) 0 0 1] = true.
Proof. vm_compute. reflexivity. Qed.
Example conf_asg_until : asteps fakeAdd a0 t0 [CUntil 60; CAdv 30; CUntil 30; CAdv 29; CUntil 1; CAdv 1; CUntil 0; COut []; CUntil 60; CAdv 1; CUntil 59] = true.
Proof. vm_compute. reflexivity. Qed.
