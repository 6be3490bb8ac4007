(** The cases of /repo/stats/stats_small_test.go and the scenarios of the *_medium_test.go files of the filter, the
    listener, the writer, its retry worker and the downsampler run on the model, with the clock readings the tests wait
    for: evidence that the model agrees with the code, not part of any proof.  Not covered: the benchmarks, and the
    cases which fill 1 MB buffers. *)
From Coq Require Import QArith.
From Verif Require Import Base Text Convert RulesSpec Rules FilterWorker Batch Splitter Stats Retry Writer Listener Avg Assigner ConfAvg.
Local Open Scope Z_scope.

Definition cms : Z := 1000000.
Definition cln (s : bytes) : bytes := s ++ [nl].

(* ------------------------------------------------------------------ *)
(** * stats/stats_small_test.go *)

Definition foo : bytes := lit "foo".
Definition bar : bytes := lit "bar".
Definition returned (names : list bytes) (ops : list sop) : option (list Z) :=
  match run names [ops] (repeat 0%nat (2 * length ops)) with Some (_, log) => Some (map snd log) | None => None end.
(** TestBasics, TestMax *)
Example conf_stats_basics : returned [foo; bar] [SGet foo; SGet bar; SInc foo; SGet foo; SInc foo; SGet foo; SInc foo; SInc foo; SGet foo; SGet bar] =
  Some [0; 0; 1; 1; 2; 2; 3; 4; 4; 0].
Proof. vm_compute. reflexivity. Qed.
Example conf_stats_max : returned [foo] [SGet foo; SMax foo 0; SGet foo; SMax foo 4; SGet foo; SMax foo 3; SGet foo; SMax foo 5; SGet foo] =
  Some [0; 0; 0; 4; 4; 4; 4; 5; 5].
Proof. vm_compute. reflexivity. Qed.
(** TestInvalid, TestSnapshot *)
Example conf_stats_invalid : [returned [foo] [SGet bar]; returned [foo] [SInc bar]; returned [foo] [SMax bar 1]; returned [foo] [SGet foo]] =
  [None; None; None; Some [0]].
Proof. vm_compute. reflexivity. Qed.
Example conf_stats_snapshot : let names := [foo; bar; lit "qaz"] in
  match run names [[SInc foo; SInc bar; SInc bar]] [0; 0; 0]%nat with Some (s, _) => map (count names s) names = [1; 2; 0] | None => False end.
Proof. vm_compute. reflexivity. Qed.

(* ------------------------------------------------------------------ *)
(** * filter/filter_medium_test.go *)

Definition conf_f (delta : Z) : fcfg := mkFcfg delta [mkRule (MBasic (lit "hello")) (lit "hello-subject")] (lit "filter-junkyard").
Definition is_pub (a : act) : list (bytes * bytes) := match a with APublish s d _ => [(s, d)] | _ => [] end.
Definition n_of (f : act -> bool) (l : list act) : Z := Z.of_nat (length (filter f l)).
Definition inc (s : fstat) (a : act) : bool :=
  match a, s with AInc FPassed, FPassed | AInc FProcessed, FProcessed | AInc FRejected, FRejected | AInc FInvalidTime, FInvalidTime
                | AInc FFailedPublish, FFailedPublish => true | _, _ => false end.
Definition trig (a : act) : bool := match a with ARule 0 => true | _ => false end.
(** What the subscribers receive, and passed, processed, rejected, invalid_time, failed_nats_publish, triggered. *)
Definition filtered (delta now : Z) (data : bytes) : list (bytes * bytes) * list Z :=
  let acts := snd (run_worker (@isort) (conf_f delta) (newFilterWorker (conf_f delta)) [(fun _ => true, now, data)]) in
  (flat_map is_pub acts, [n_of (inc FPassed) acts; n_of (inc FProcessed) acts; n_of (inc FRejected) acts; n_of (inc FInvalidTime) acts;
                          n_of (inc FFailedPublish) acts; n_of trig acts]).
Definition fnow : Z := 1535465460123456789.

(** TestFilterWorker *)
Example conf_filter_worker : let hello := cln (lit "hello,host=gopher01") in let goodbye := cln (lit "goodbye,host=gopher01") in
  filtered (600000 * cms) fnow (hello ++ goodbye ++ hello) =
  ([(lit "hello-subject", hello ++ hello); (lit "filter-junkyard", goodbye)], [2; 3; 1; 0; 0; 2]).
Proof. vm_compute. reflexivity. Qed.
(** TestInvalidTimeStamps *)
Example conf_filter_times : let l2 := cln (lit "hello,instance=2 foo=1 " ++ FormatInt fnow) in let l3 := lit "hello,instance=2 foo=3" in
  filtered (10000 * cms) (fnow + 1000) (cln (lit "hello,instance=0 foo=0 " ++ FormatInt (fnow - 11000 * cms)) ++
    cln (lit "hello,instance=1 foo=0 " ++ FormatInt (fnow + 11000 * cms)) ++ l2 ++ l3) = ([(lit "hello-subject", l2 ++ l3)], [2; 4; 0; 2; 0; 2]).
Proof. vm_compute. reflexivity. Qed.
(** TestTagSorting *)
Example conf_filter_tags :
  fst (filtered (600000 * cms) fnow (cln (lit "hello,host=gopher01,abc=xyz x=22") ++ cln (lit "goodbye,dc=nyc,host=gopher01 x=22") ++
    cln (lit "hello,abc=xyz,host=gopher01 x=22") ++ cln (lit "goodbye,host=gopher01,dc=nyc,foo=bar x=22") ++
    cln (lit "hello,mega=y,abc=xyz,host=gopher01 x=22"))) =
  [(lit "hello-subject", cln (lit "hello,abc=xyz,host=gopher01 x=22") ++ cln (lit "hello,abc=xyz,host=gopher01 x=22") ++
                         cln (lit "hello,abc=xyz,host=gopher01,mega=y x=22"));
   (lit "filter-junkyard", cln (lit "goodbye,dc=nyc,host=gopher01 x=22") ++ cln (lit "goodbye,dc=nyc,foo=bar,host=gopher01 x=22"))].
Proof. vm_compute. reflexivity. Qed.

(* ------------------------------------------------------------------ *)
(** * writer/retryworker_medium_test.go: times in ms, every step 1 ms after the time it waits for *)

(** The writes attempted and the number of errors reported. *)
Definition retried (batches ttl interval : Z) (ls : list (rlabel bytes)) : option (list bytes * Z * nat) :=
  match rrun batches ttl interval (newRetry 0) ls with
  | Some (s, os) => Some (flat_map (fun o => match o with OStart _ a => [a] | _ => [] end) os, r_errs s, length (r_q s))
  | None => None
  end.
(** TestRetryWorkerBasics: a batch is written once. *)
Example conf_retry_basic : retried 1 30000 100 [LIn 1 1 foo; LFire 102 102; LEnd 103 WOk] = Some ([foo], 0, 0%nat).
Proof. vm_compute. reflexivity. Qed.
(** TestRetryWorkerTriesUntilTimeout: three attempts in 1 s, the fourth firing of the timer finds the batch expired, and
    then no timer is set. *)
Definition until_timeout : list (rlabel bytes) :=
  [LIn 1 1 foo; LFire 252 252; LEnd 253 WTemp; LFire 504 504; LEnd 505 WTemp; LFire 756 756; LEnd 757 WTemp; LFire 1008 1008].
Example conf_retry_timeout : retried 1 1000 250 until_timeout = Some ([foo; foo; foo], 3, 0%nat) /\
  (forall t t', retried 1 1000 250 (until_timeout ++ [LFire t t']) = None).
Proof. split; [vm_compute; reflexivity|intros t t'; vm_compute; reflexivity]. Qed.
(** TestRetryWorkerMultipleBatches: in the order sent, one per interval. *)
Example conf_retry_multi : let qaz := lit "qaz" in
  retried 3 2000 250 [LIn 1 1 foo; LIn 2 2 bar; LIn 3 3 qaz; LFire 252 252; LEnd 253 WOk; LFire 504 504; LEnd 505 WOk;
                      LFire 756 756; LEnd 757 WOk] = Some ([foo; bar; qaz], 0, 0%nat).
Proof. vm_compute. reflexivity. Qed.
(** TestRetryWorkerLimitsBatches *)
Example conf_retry_limit : let qaz := lit "qaz" in
  retried 2 2000 100 [LIn 1 1 foo; LIn 2 2 bar; LIn 3 3 qaz; LFire 102 102; LEnd 103 WOk; LFire 204 204; LEnd 205 WOk] =
  Some ([bar; qaz], 0, 0%nat).
Proof. vm_compute. reflexivity. Qed.
(** TestRetryWorkerPermanentErrors, TestRetryWorkerMixedErrors *)
Example conf_retry_errors : retried 1 1000 100 [LIn 1 1 foo; LFire 102 102; LEnd 103 WPerm] = Some ([foo], 1, 0%nat) /\
  retried 1 1000 100 [LIn 1 1 foo; LFire 102 102; LEnd 103 WTemp; LFire 204 204; LEnd 205 WPerm] = Some ([foo; foo], 2, 0%nat).
Proof. vm_compute. auto. Qed.

(* ------------------------------------------------------------------ *)
(** * writer/writer_medium_test.go *)

Definition conf_w (count : Z) (size : nat) (age : Z) (rules : list rule) (retry : Z) : wcfg := mkWC count size age rules retry 5000 250.
(** The bodies posted (first attempts and retries), and received, write_requests, failed_writes. *)
Definition posted (c : wcfg) (ls : list wlabel) : option (list bytes * list Z) :=
  match wrun c (Writer.newWorker 131072 0) ls with
  | Some (s, os) => Some (flat_map (fun o => match o with VPost _ b _ => [b] | VRetry (OStart _ a) => [snd a] | _ => [] end) os,
                          [w_received s; w_requests s; w_failed s])
  | None => None
  end.
Definition line1 : bytes := lit "To be, or not to be: that is the question:".
Definition line2 : bytes := lit "The slings and arrows of outrageous fortune,".
(** TestBasicWriter, with two of the messages *)
Example conf_writer_basic : posted (conf_w 1 1000 300000 [] 0) [PMsg 1 1 line1; PPost (Status 204) 2; PMsg 3 3 line2; PPost (Status 204) 4] =
  Some ([line1; line2], [2; 2; 0]).
Proof. vm_compute. reflexivity. Qed.
(** TestBatchMBLimitOvershoot: 4 messages of 30 bytes, limit 100: bodies of 100 and 20 bytes. *)
Definition xs (n : nat) : bytes := repeat "x"%char n.
Example conf_writer_overshoot : let c := conf_w 9999 100 300000 [] 0 in
  posted c [PMsg 1 1 (xs 30); PMsg 2 2 (xs 30); PMsg 3 3 (xs 30); PMsg 4 4 (xs 30); PPost (Status 204) 5; PPost (Status 204) 6] =
    Some ([xs 100; xs 20], [4; 1; 0]) /\
  posted c [PMsg 1 1 (xs 30); PMsg 2 2 (xs 30); PMsg 3 3 (xs 30); PPost (Status 204) 5] = None.
Proof. vm_compute. auto. Qed.
(** TestBatchTimeLimit: nothing before the batch is a second old. *)
Example conf_writer_age : let c := conf_w 9999 1000 1000 [] 0 in
  posted c [PMsg 1 1 foo; PTick 1001; PPost (Status 204) 1002; PTick 2001; PTick 3001] = Some ([foo], [1; 1; 0]) /\
  posted c [PMsg 1 1 foo; PTick 1000; PPost (Status 204) 1002] = None.
Proof. vm_compute. auto. Qed.
(** TestWriteRetries: 502, 503, then success: 3 requests, 2 failed, and the line written. *)
Definition candle : bytes := lit "Out, out, brief candle!".
Example conf_writer_retries : posted (conf_w 1 1000 300000 [] 1)
  [PMsg 1 1 candle; PPost (Status 502) 2; PHand 3; PIn 4 4; PRetry (LFire 255 255); PTookWrite 256; PRetry (LEnd 257 (Write (Status 503)));
   PTookErr 258; PRetry (LFire 508 508); PTookWrite 509; PRetry (LEnd 510 (Write (Status 204)))] = Some ([candle; candle; candle], [1; 3; 2]).
Proof. vm_compute. reflexivity. Qed.
(** TestBasicFilterRule, TestBatchedInput, TestRegexFilterRule (bar$), TestNegativeRegexFilterRule (dropped$) *)
Definition ends_in (s l : bytes) : bool := beqs (skipn (length l - length s) l) s.
Example conf_writer_rules : let dropped := lit "should be dropped" in let kept := lit "foo bar" in
  map (fun m => posted (conf_w 1 1000 300000 [mkRule m []] 0) [PMsg 1 1 dropped; PMsg 2 2 kept; PPost (Status 204) 3])
    [MBasic foo; MRegex (ends_in bar); MNegRegex (ends_in (lit "dropped"))] = repeat (Some ([kept], [2; 1; 0])) 3 /\
  posted (conf_w 1 1000 300000 [mkRule (MBasic foo) []] 0) [PMsg 1 1 (cln dropped ++ kept); PPost (Status 204) 3] = Some ([kept], [1; 1; 0]).
Proof. vm_compute. auto. Qed.

(* ------------------------------------------------------------------ *)
(** * listener/listener_medium_test.go: times in ms *)

Definition poetry : list bytes := map cln [
  lit "Midnight Song of the Seasons: Autumn Song"; lit "The autumn wind enters through the window,";
  lit "The gauze curtain starts to flutter and fly."; lit "I raise my head and look at the bright moon,";
  lit "And send my feelings a thousand miles in its light."].
Definition got1 (d : bytes) (t : Z) : udp_in := mkU d ENone t t t.
Definition nothing (t : Z) : udp_in := mkU [] ETimeout t t t.
Definition conf_l (count age size : Z) : lconf := mkLConf count age size.
Definition listened (c : lconf) (us : list udp_in) : list bytes * list Z :=
  let s := udp_run (fun _ => false) c (newListener c 0) us in (ls_pub s, [ls_received s; ls_sent s; ls_read_errors s; ls_failed s]).
(** TestBatching, TestWhatComesAroundGoesAround, TestBatchAge, TestMissingNewline *)
Example conf_listener_batching : listened (conf_l 5 60000 1048576) (map (fun l => got1 l 1) poetry) = ([concat poetry], [5; 1; 0; 0]).
Proof. vm_compute. reflexivity. Qed.
Example conf_listener_around : listened (conf_l 1 60000 1048576) (map (fun l => got1 l 1) poetry) = (poetry, [5; 5; 0; 0]).
Proof. vm_compute. reflexivity. Qed.
Example conf_listener_age : let c := conf_l 9999 1000 1048576 in let us := [got1 (nth 0 poetry []) 1; nothing 500; nothing 1000] in
  listened c us = ([], [1; 0; 0; 0]) /\ listened c (us ++ [nothing 1001; nothing 2001; nothing 3001]) = ([nth 0 poetry []], [1; 1; 0; 0]).
Proof. vm_compute. auto. Qed.
Example conf_listener_newline : let one := lit "one" ++ [nl] ++ lit "two" in
  fst (listened (conf_l 4 60000 1048576) [got1 one 1; got1 (lit "three") 2; got1 (lit "four" ++ [nl]) 3; got1 (lit "five") 4]) =
  [cln (lit "one") ++ cln (lit "two") ++ cln (lit "three") ++ cln (lit "four") ++ cln (lit "five")].
Proof. vm_compute. reflexivity. Qed.
(** TestHTTPListener, one POST after the other; TestHTTPListenerBigPOST; TestHTTPListenerWithPrecision *)
Definition post (precision body : bytes) : hreq := mkReq precision body [(length body, ENone); (0%nat, EEOF)] false false.
Definition served (c : lconf) (qs : list hreq) (steps : nat) : list bytes * list Z :=
  let h := hrun (fun _ => false) c (hinit c 0 qs) (flat_map (fun i => repeat (LReq i, 1) steps) (seq 0 (length qs))) in
  (ls_pub (h_l h), [ls_received (h_l h); ls_sent (h_l h); ls_read_errors (h_l h); ls_failed (h_l h)]).
Example conf_http : served (conf_l 1 60000 1048576) (map (post []) poetry) 3 = (poetry, [5; 5; 0; 0]).
Proof. vm_compute. reflexivity. Qed.
Example conf_http_big : let buf := repeat "000"%char 1224 in
  served (conf_l 10 60000 1024) [mkReq [] buf [(512%nat, ENone); (512%nat, ENone); (200%nat, ENone); (0%nat, EEOF)] false false] 3 = ([buf], [1; 1; 0; 0]).
Proof. vm_compute. reflexivity. Qed.
Definition trimmed (l : bytes) : bytes := firstn (length l - 1) l.
Definition with_ts (unit : Z) (i : nat) (l : bytes) : bytes :=
  match i with O => l | _ => cln (trimmed l ++ lit " " ++ FormatInt ((1500000000 + Z.of_nat i) * unit)) end.
Example conf_http_precision :
  let lines u := concat (map (fun p => with_ts u (fst p) (snd p)) (combine (seq 0 5) poetry)) in
  served (conf_l 1 60000 1048576) [post (lit "s") (lines 1)] 8 = ([lines 1000000000], [1; 1; 0; 0]).
Proof. vm_compute. reflexivity. Qed.
(** TestBatchAgeHTTPListener *)
Example conf_http_age : let c := conf_l 9999 1000 1048576 in let q := post [] (nth 0 poetry []) in
  let h := hrun (fun _ => false) c (hinit c 0 [q]) [(LReq 0, 1); (LReq 0, 2); (LAge, 1000)] in
  ls_pub (h_l h) = [] /\ h_wake h = 1001 /\ ls_pub (h_l (hrun (fun _ => false) c h [(LAge, 1001)])) = [nth 0 poetry []].
Proof. vm_compute. auto. Qed.

(* ------------------------------------------------------------------ *)
(** * downsampler/downsampler_medium_test.go TestDownsampler: period 1 s, all lines in one period *)

Definition ds_floats : list (bytes * Q) := [(lit "1.5", (3 # 2)%Q); (lit "2.5", (5 # 2)%Q); (lit "2", 2%Q)].
Definition ds_parse (s : bytes) : option Q := match find (fun p => beqs (fst p) s) ds_floats with Some p => Some (snd p) | None => None end.
Definition ds_format (q : Q) : bytes := match find (fun p => Qeq_bool (snd p) q) ds_floats with Some p => fst p | None => lit "?" end.
Definition foD : floatOps := mkFloatOps Q Qplus Qminus Qdiv inject_Z ds_parse ds_format.
Definition ds_now : Z := 1535465460300000000.
Definition ds_render (eb : Z * avgBucket foD) : bytes := bucketBytes foD (@isort) (fst eb) (map (fun x => (x, map fst (snd x))) (snd eb)).
Definition ds_run (data : bytes) (ticks : list Z) :=
  let d := worker_run (avgBucket foD) lerr (fun _ => []) (AddLine foD) (fun _ => false)
             (Assigner.newWorker (avgBucket foD) (fun _ => []) 1000000000 (ds_now - 1000))
             (mkTurn _ (Some (data, fun k => ds_now + Z.of_nat k)) (ds_now + 100) ds_render :: map (fun t => mkTurn _ None t ds_render) ticks) in
  let s := d_st _ d in (d_pub s, [d_received s; d_sent s; d_invalid_lines s; d_invalid_ts s; d_failed s]).
Definition ds_at (l : bytes) : bytes := cln (l ++ lit " 1535465461000000000").
Definition ds_ticks : list Z := [1535465461000000001; 1535465462000000001; 1535465463000000001; 1535465464000000001].
(** The model's bucket prints in the order of first appearance, one of the map iteration orders. *)
Example conf_ds_subject0 : ds_run (cln (lit "string,host=host0 value=""foo bar""") ++ cln (lit "nums,host=host0 x=111i,y=1.5") ++
    cln (lit "string,host=host0 value=""bar foo""") ++ cln (lit "bool,host=0 b=true") ++ cln (lit "string,host=host0 value=""foo bar""") ++
    cln (lit "bool,host=1 b=false") ++ cln (lit "nums,host=host0 x=333i,y=2.5") ++ cln (lit "bool,host=0 b=false") ++ cln (lit "bool,host=1 b=true") ++
    cln (lit "too_old_timestamp 123")) ds_ticks =
  ([ds_at (lit "string,host=host0 value=""foo bar""") ++ ds_at (lit "nums,host=host0 x=222i,y=2") ++ ds_at (lit "bool,host=0 b=false") ++
    ds_at (lit "bool,host=1 b=true")], [1; 1; 0; 1; 0]).
Proof. vm_compute. reflexivity. Qed.
Example conf_ds_subject1 : ds_run (cln (lit "string,host=host\ 0 value=""one""") ++ cln (lit "int,host=host\ 0 xyz=111i") ++
    cln (lit "string,host=host\ 0 value=""two""") ++ cln (lit "string,host=host\ 0 value=""three""") ++ cln (lit "int,host=host\ 0 xyz=333i") ++
    cln (lit "too_new_timestamp 9223372036854775807") ++ cln (lit "invalid x")) ds_ticks =
  ([ds_at (lit "string,host=host\ 0 value=""three""") ++ ds_at (lit "int,host=host\ 0 xyz=222i")], [1; 1; 1; 1; 0]).
Proof. vm_compute. reflexivity. Qed.
