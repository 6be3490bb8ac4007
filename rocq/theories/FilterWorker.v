(** Model of filter/worker.go and of the worker pool of filter/filter.go. *)
From Verif Require Import Base Text Timestamps Rules.
Local Open Scope Z_scope.

(** filter/filter.go:31-41: the counters shared by the workers. *)
Inductive fstat := FPassed | FProcessed | FRejected | FInvalidTime | FFailedPublish.

(** What a worker does to the outside world: bump a shared counter, bump a rule's counter,
    publish (with the result NATS gave). *)
Inductive act :=
| AInc (s : fstat)
| ARule (i : nat)
| APublish (subject data : bytes) (ok : bool).

(** filter/worker.go:28-39: the constant part of a worker. *)
Record fcfg := mkFcfg { fc_delta : Z; fc_rules : list rule; fc_junk : bytes }.

(** filter/worker.go:36-37: the buffers of a worker. *)
Record fstate := mkFstate { f_batches : list bytes; f_junk : bytes }.

(** filter/worker.go:54-69 (newWorker): one empty buffer per rule, one for junk. *)
Definition newFilterWorker (c : fcfg) : fstate := mkFstate (repeat [] (length (fc_rules c))) [].

(** bytes.SplitAfter(b, "\n"). *)
Fixpoint SplitAfter (b : bytes) : list bytes :=
  match b with
  | [] => [[]]
  | c :: r =>
      if Ascii.eqb c nl then [nl] :: SplitAfter r
      else match SplitAfter r with
           | [] => [[c]]
           | l :: ls => (c :: l) :: ls
           end
  end.

(** filter/worker.go:165. *)
Definition minTsLen : nat := 18.

(** filter/worker.go:167-178 extractTimestamp. *)
Definition filterTimestamp (line : bytes) (defaultTs : Z) : Z :=
  if Nat.leb (length line) (minTsLen + 6) then defaultTs
  else let (out, _) := ExtractNanos line in if out =? -1 then defaultTs else out.

(** w.batches[idx].Write(b). *)
Fixpoint write_nth (l : list bytes) (i : nat) (b : bytes) : list bytes :=
  match l, i with
  | [], _ => []
  | x :: l', O => (x ++ b) :: l'
  | x :: l', S j => x :: write_nth l' j b
  end.

Section Worker.
  Variable gosort : forall A : Type, (A -> A -> bool) -> list A -> list A.
  Variable c : fcfg.

  (** filter/worker.go:114-135 processLine. *)
  Definition processLine (st : fstate) (rawLine : bytes) : fstate * list act :=
    match newParsedLine rawLine with
    | None => (st, [])
    | Some pl =>
        let line := SortTags gosort pl in
        match LookupParsed (fc_rules c) line with
        | None => (mkFstate (f_batches st) (f_junk st ++ Escaped line), [AInc FRejected])
        | Some idx =>
            (mkFstate (write_nth (f_batches st) idx (Escaped line)) (f_junk st), [AInc FPassed; ARule idx])
        end
    end.

  (** filter/worker.go:93-108: the loop of processBatch. *)
  Fixpoint process_lines (now minTs maxTs : Z) (st : fstate) (ls : list bytes) : fstate * list act :=
    match ls with
    | [] => (st, [])
    | line :: ls' =>
        match line with
        | [] => process_lines now minTs maxTs st ls'
        | _ =>
            let ts := filterTimestamp line now in
            let (st1, a1) := if (minTs <? ts) && (ts <? maxTs) then processLine st line
                             else (st, [AInc FInvalidTime]) in
            let (st2, a2) := process_lines now minTs maxTs st1 ls' in
            (st2, AInc FProcessed :: a1 ++ a2)
        end
    end.

  (** filter/worker.go:153-161 publish. *)
  Definition publish (subject data : bytes) (ok : bool) : list act :=
    APublish subject data ok :: if ok then [] else [AInc FFailedPublish].

  (** filter/worker.go:137-144: the loop of sendOff; [oks k] is the outcome of the k-th
      publish. *)
  Fixpoint send_rules (oks : nat -> bool) (k : nat) (subjects : list bytes) (batches : list bytes)
    : list bytes * list act * nat :=
    match subjects, batches with
    | s :: ss, b :: bs =>
        match b with
        | [] => let '(bs', a, k') := send_rules oks k ss bs in ([] :: bs', a, k')
        | _ => let '(bs', a, k') := send_rules oks (S k) ss bs in ([] :: bs', publish s b (oks k) ++ a, k')
        end
    | _, _ => (batches, [], k)
    end.

  (** filter/worker.go:137-151 sendOff. *)
  Definition sendOff (oks : nat -> bool) (st : fstate) : fstate * list act :=
    let '(bs, a, k) := send_rules oks 0 (Subjects (fc_rules c)) (f_batches st) in
    match f_junk st with
    | [] => (mkFstate bs [], a)
    | j => (mkFstate bs [], a ++ publish (fc_junk c) j (oks k))
    end.

  (** filter/worker.go:88-112 processBatch; [now] is time.Now().UnixNano(); int64 arithmetic. *)
  Definition processBatch (oks : nat -> bool) (now : Z) (st : fstate) (batch : bytes) : fstate * list act :=
    let minTs := wrap64 (now - fc_delta c) in
    let maxTs := wrap64 (now + fc_delta c) in
    let (st1, a1) := process_lines now minTs maxTs st (SplitAfter batch) in
    let (st2, a2) := sendOff oks st1 in
    (st2, a1 ++ a2).

  (** One message: publish outcomes, clock reading, data. *)
  Definition job := ((nat -> bool) * Z * bytes)%type.

  (** filter/worker.go:72-86 run, for the messages this worker receives. *)
  Fixpoint run_worker (st : fstate) (jobs : list job) : fstate * list act :=
    match jobs with
    | [] => (st, [])
    | (oks, now, m) :: js =>
        let (st1, a1) := processBatch oks now st m in
        let (st2, a2) := run_worker st1 js in
        (st2, a1 ++ a2)
    end.

  (* ---------------------------------------------------------------- *)
  (** * The pool: filter/filter.go:44-113 and :142-159 *)

  (** A worker goroutine: waiting in select, in the middle of a batch with actions still to
      come, or returned. *)
  Inductive wstate := WIdle (st : fstate) | WBusy (st : fstate) (todo : list act) | WExited.

  (** The jobs channel, the workers, everything done so far (in order), and whether stop is
      closed. *)
  Record fsys := mkFsys { s_jobs : list bytes; s_workers : list wstate; s_done : list act; s_stop : bool }.

  (** filter/filter.go:70: make(chan []byte, 1024). *)
  Definition jobs_cap : nat := 1024.

  (** filter/filter.go:71-86: start n workers. *)
  Definition startFilter (n : nat) : fsys :=
    mkFsys [] (repeat (WIdle (newFilterWorker c)) n) [] false.

  Fixpoint set_nth {A} (l : list A) (i : nat) (x : A) : list A :=
    match l, i with
    | [], _ => []
    | _ :: l', O => x :: l'
    | y :: l', S j => y :: set_nth l' j x
    end.

  (** What happens in one step. *)
  Inductive flabel :=
  | LReceive (m : bytes)                 (* the NATS callback puts a message on jobs *)
  | LTake (w : nat) (j : job)            (* a worker takes the next message *)
  | LAct (w : nat) (a : act)             (* a worker performs its next action *)
  | LDone (w : nat)                      (* a worker returns to select *)
  | LStop                                (* Stop closes the stop channel *)
  | LExit (w : nat).                     (* a worker sees stop *)

  Inductive fstep : fsys -> flabel -> fsys -> Prop :=
  | fs_receive q ws d s m : (length q < jobs_cap)%nat ->
      fstep (mkFsys q ws d s) (LReceive m) (mkFsys (q ++ [m]) ws d s)
  | fs_take q ws d s w st oks now m st' acts :
      nth_error ws w = Some (WIdle st) -> processBatch oks now st m = (st', acts) ->
      fstep (mkFsys (m :: q) ws d s) (LTake w (oks, now, m)) (mkFsys q (set_nth ws w (WBusy st' acts)) d s)
  | fs_act q ws d s w st a todo :
      nth_error ws w = Some (WBusy st (a :: todo)) ->
      fstep (mkFsys q ws d s) (LAct w a) (mkFsys q (set_nth ws w (WBusy st todo)) (d ++ [a]) s)
  | fs_done q ws d s w st :
      nth_error ws w = Some (WBusy st []) ->
      fstep (mkFsys q ws d s) (LDone w) (mkFsys q (set_nth ws w (WIdle st)) d s)
  | fs_stop q ws d : fstep (mkFsys q ws d false) LStop (mkFsys q ws d true)
  | fs_exit q ws d w st :
      nth_error ws w = Some (WIdle st) ->
      fstep (mkFsys q ws d true) (LExit w) (mkFsys q (set_nth ws w WExited) d true).

  Inductive fexec : fsys -> list flabel -> fsys -> Prop :=
  | fe_nil s : fexec s [] s
  | fe_step s l s' ls s'' : fexec s ls s' -> fstep s' l s'' -> fexec s (ls ++ [l]) s''.
End Worker.
