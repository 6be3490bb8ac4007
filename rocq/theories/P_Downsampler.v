(** Property theorems C32-C38, C57: the downsampler. *)
From Verif Require Import Base Text TextSpec TextProofs NumSpec NumProofs LinesSpec RulesSpec RulesProofs Splitter SplitterProofs
  Avg AvgSpec AvgProofs AvgNum AvgPrint AvgExact Assigner AssignerSpec AssignerProofs DsProofs DsMain.
Local Open Scope Z_scope.

(** C32: for every bucket implementation, positive period, start time and history of Update and
    Bytes calls with arbitrary clock readings: the answers are those of the reference [history],
    and the three buckets hold exactly the accepted lines of their periods. *)
Theorem C32_buckets : forall (B E : Type) (newBucket : Z -> B) (addLine : B -> bytes -> B * list E) p now0 e0 calls,
  0 < p -> period_end p now0 e0 ->
  let (a, answers) := do_calls B E newBucket addLine (newAssigner B newBucket p now0) calls in
  exists k l, history B E newBucket addLine p e0 calls answers k l /\ 0 <= k /\
    a_prev B a = (e0 + (k - 1) * p, contents B E newBucket addLine p l (e0 + (k - 1) * p)) /\
    a_curr B a = (e0 + k * p, contents B E newBucket addLine p l (e0 + k * p)) /\
    a_next B a = (e0 + (k + 1) * p, contents B E newBucket addLine p l (e0 + (k + 1) * p)).
Proof. exact buckets_ok. Qed.
Print Assumptions C32_buckets.

(** A line stands for one time and one text only, and every start time has its period. *)
Theorem C32_stamp_unique : forall line now ts body ts' body',
  stamped line now ts body -> stamped line now ts' body' -> ts = ts' /\ body = body'.
Proof. exact (stamped_fun unit unit (fun _ => tt) (fun b _ => (b, [])) 1 0 eq_refl). Qed.
Print Assumptions C32_stamp_unique.
Theorem C32_period_exists : forall p now, 0 < p -> exists e, period_end p now e.
Proof. exact period_exists. Qed.

(** With a period that divides a day the periods are aligned to midnight UTC (the end is a multiple of the period since the Unix epoch); periods of a week start on
    Mondays (5 January 1970 was one). *)
Theorem C32_aligned : forall p now e, 0 < p -> period_end p now e -> e - p <= now < e /\
  ((p | 86400 * 1000000000) -> (p | e)) /\
  (p = 7 * 86400 * 1000000000 -> (p | e - 4 * 86400 * 1000000000)).
Proof. exact period_aligned. Qed.
Print Assumptions C32_aligned.
(** A minute: the instant 1510000013 s is in the period ending at 1510000020 s. *)
Example C32_case_minute : period_end 60000000000 1510000013000000000 1510000020000000000 /\ (60000000000 | 86400 * 1000000000).
Proof. split; [vm_compute; intuition congruence|]. exists 1440. reflexivity. Qed.

Definition ex_add (b : list bytes) (l : bytes) : list bytes * list bytes := if beqs l (lit "bad") then (b, [l]) else (b ++ [l], []).
Example C32_case :
  let cs := [CUpdate (lit "a x=1 1510000000000000000
b x=1 1510000000000000005

c x=1 1510000000000000030
bad 1510000000000000011
d x=1 1509999999999999970
e") (fun _ => 1510000000000000015); CBytes 1510000000000000019; CBytes 1510000000000000020] in
  snd (do_calls (list bytes) bytes (fun _ => []) ex_add (newAssigner (list bytes) (fun _ => []) 10 1510000000000000013) cs) =
  [AErrors [UTooNew (lit "c x=1 1510000000000000030"); ULine (lit "bad") (lit "bad 1510000000000000011"); UTooOld (lit "d x=1 1509999999999999970")];
   ANothing; ABucket (1510000000000000010, [lit "a x=1"; lit "b x=1"])].
Proof. vm_compute. reflexivity. Qed.
Example C32_period : period_end 10 1510000000000000013 1510000000000000020.
Proof. vm_compute. intuition congruence. Qed.

(** C33: the j-th bucket emitted is that of the j-th period, counted from the one before the start;
    it is emitted at a reading not before the end of the following period, and it contains every
    line of that period accepted in the whole history - before or after. *)
Theorem C33_in_order_once : forall (B E : Type) (newBucket : Z -> B) (addLine : B -> bytes -> B * list E) p now0 e0 calls,
  0 < p -> period_end p now0 e0 ->
  let answers := snd (do_calls B E newBucket addLine (newAssigner B newBucket p now0) calls) in
  exists k l, history B E newBucket addLine p e0 calls answers k l /\
    Z.of_nat (length (emitted calls answers)) = k /\
    (forall j now e b, nth_error (emitted calls answers) j = Some (now, (e, b)) ->
       e = e0 + (Z.of_nat j - 1) * p /\ e + p <= now /\ b = contents B E newBucket addLine p l e) /\
    Forall (fun x => e0 - 2 * p <= fst x < e0 + (k + 1) * p) l.
Proof. exact emitted_ok. Qed.
Print Assumptions C33_in_order_once.

(** After waiting for UntilNext a bucket is emitted, and not earlier. *)
Theorem C33_timer : forall (B E : Type) (newBucket : Z -> B) (addLine : B -> bytes -> B * list E) p now0 e0 calls now now',
  0 < p -> period_end p now0 e0 -> now <= now' ->
  let a := fst (do_calls B E newBucket addLine (newAssigner B newBucket p now0) calls) in
  (now + UntilNext B a now <= now' -> exists a' eb, emit B newBucket a now' = (a', Some eb)) /\
  (now' < now + UntilNext B a now -> emit B newBucket a now' = (a, None)).
Proof. exact timer_ok. Qed.
Print Assumptions C33_timer.

(** C34: false of the code: the average of 0, 1, ..., n is printed as 0, for every n. *)
Theorem C34_refuted : forall fo n, Z.of_nat n < maxInt64 ->
  let pts := map (fun i => (lit "m,t=1", [(lit "f", FInt (FormatIntText (Z.of_nat i)) (Z.of_nat i))])) (seq 0 (S n)) in
  Forall (good_point fo) pts /\
  exists v, field_in fo (bucket_of fo pts) (lit "m,t=1") (lit "f") = Some v /\ valueBytes fo v = lit "0i" /\
    2 * zsum (map Z.of_nat (seq 0 (S n))) = Z.of_nat n * Z.of_nat (S n).
Proof. exact drift_ok. Qed.
Print Assumptions C34_refuted.

(** Also false when differences overflow: -2 and 2^63-1. *)
Theorem C34_overflow_refuted : int_running (-2) 1 [Some maxInt64] = -4611686018427387905.
Proof. exact eq_refl. Qed.

(** Proved: when all integers received lie within a window of width below 2^63, the result lies in
    the window, and differs from the mean by at most (n-1)/2 - a bound attained above. *)
Theorem C34_bounded_partial : forall z os lo hi,
  let zs := z :: somes os in let n := Z.of_nat (length zs) in let avg := int_running z 1 os in
  int64 lo -> int64 hi -> hi - lo <= maxInt64 -> Forall (fun x => lo <= x <= hi) zs -> n <= maxInt64 ->
  lo <= avg <= hi /\ 2 * Z.abs (n * avg - zsum zs) <= n * (n - 1).
Proof. exact bounded_average. Qed.
Print Assumptions C34_bounded_partial.
Theorem C34_constant_partial : forall z os c, int64 z -> Forall (fun y => y = z) (somes os) -> int_running z c os = z.
Proof. exact (fun z os c I F => constant z os I F c). Qed.
Print Assumptions C34_constant_partial.
(** ... and that running average is what the field of an integer series prints. *)
Theorem C34_prints_average_partial : forall fo pts k n t z vs, Forall (good_point fo) pts ->
  values k n pts = FInt t z :: vs ->
  exists v os txt, field_in fo (bucket_of fo pts) k n = Some v /\ Forall2 reads_int vs os /\
    dec_text (int_running z 1 os) txt /\ valueBytes fo v = txt ++ lit "i".
Proof. exact int_field. Qed.
Print Assumptions C34_prints_average_partial.
Example C34_case : int_running 10 1 [Some 20; None; Some 33] = 21.
Proof. reflexivity. Qed.

(** C35 *)
Theorem C35_last_value : forall fo pts k n v vs, Forall (good_point fo) pts -> values k n pts = v :: vs ->
  exists fv, field_in fo (bucket_of fo pts) k n = Some fv /\
    (forall s, v = FStr s -> valueBytes fo fv = dq :: esc_spec [dq] (last (map vraw vs) s) ++ [dq]) /\
    (forall t, v = FTok t -> valueBytes fo fv = last (map vraw vs) t).
Proof. exact last_field. Qed.
Print Assumptions C35_last_value.

Example C35_case : values (lit "cpu,h=a") (lit "b") ex_pts = [FTok (lit "t"); FTok (lit "f")] /\
  field_in fo0 (bucket_of fo0 ex_pts) (lit "cpu,h=a") (lit "b") = Some (VRaw fo0 (lit "f")).
Proof. vm_compute. auto. Qed.

(** C36: false of the code for a series already present. *)
Theorem C36_refuted : forall fo,
  let b := bucket_of fo [(lit "m", [(lit "a", FInt (lit "1") 1)])] in
  let r := AddLine fo b (lit "m a=5i,b") in
  good_point fo (lit "m", [(lit "a", FInt (lit "1") 1)]) /\ snd r <> [] /\
  field_in fo b (lit "m") (lit "a") = Some (VInt fo 1 1) /\ field_in fo (fst r) (lit "m") (lit "a") = Some (VInt fo 3 2).
Proof. exact partial_line. Qed.
Print Assumptions C36_refuted.

(** Proved: nothing changes for a series not yet present; other series never change; a single
    field of the wrong type changes nothing. *)
Theorem C36_new_series_partial : forall fo b line,
  mget b (fst (TokenEscaped (lit " ") line)) = None -> snd (AddLine fo b line) <> [] -> fst (AddLine fo b line) = b.
Proof. exact reject_unknown. Qed.
Print Assumptions C36_new_series_partial.
Theorem C36_other_series_partial : forall fo b line k,
  k <> fst (TokenEscaped (lit " ") line) -> mget (fst (AddLine fo b line)) k = mget b k.
Proof. exact other_series. Qed.
Print Assumptions C36_other_series_partial.
Theorem C36_single_field_partial : forall fo b k n v, good_point fo (k, [(n, v)]) ->
  snd (AddLine fo b (point_text (k, [(n, v)]))) <> [] -> fst (AddLine fo b (point_text (k, [(n, v)]))) = b.
Proof. exact reject_field. Qed.
Print Assumptions C36_single_field_partial.

(** What a line with several fields does, accepted or not: exactly what the same fields do as lines of their own -
    so exactly the rejected fields are left out. *)
Theorem C36_field_by_field_partial : forall fo b k fs, good_point fo (k, fs) ->
  AddLine fo b (point_text (k, fs)) = add_lines fo b (map (fun f => point_text (k, [f])) fs).
Proof. exact field_by_field. Qed.
Print Assumptions C36_field_by_field_partial.
(** And a line torn off in a field name is reported and has the effect of the fields before the tear. *)
Theorem C36_torn_partial : forall fo b k fs g fields, good_point fo (k, fs) -> mget b k = Some fields -> ~ In eqs g ->
  fst (AddLine fo b (point_text (k, fs) ++ comma :: g)) = fst (AddLine fo b (point_text (k, fs))) /\
  snd (AddLine fo b (point_text (k, fs) ++ comma :: g)) <> [].
Proof. exact torn_line. Qed.
Print Assumptions C36_torn_partial.

Example C36_case : let r := AddLine fo0 (bucket_of fo0 ex_pts) (lit "cpu,h=a z=4.5") in
  snd r <> [] /\ fst r = bucket_of fo0 ex_pts /\ snd (AddLine fo0 (bucket_of fo0 ex_pts) (lit "cpu,h=b z=1i,y")) <> [].
Proof. vm_compute. intuition discriminate. Qed.

(** C37 *)
Theorem C37_output : forall fo gosort pts ts order, sorts gosort -> Forall (good_point fo) pts -> int64 ts ->
  iteration_of fo (bucket_of fo pts) order ->
  exists ls, NoDup (map fst ls) /\ (forall k, In k (map fst ls) <-> exists pt, In pt pts /\ fst pt = k) /\
    Forall (fun kl => series_line fo pts ts (fst kl) (snd kl)) ls /\
    bucketBytes fo gosort ts order = concat (map snd ls).
Proof. exact (fun fo gs pts ts order Hs F I O => print_ok fo gs Hs pts ts order F I O). Qed.
Print Assumptions C37_output.

(** Also for arbitrary, malformed input lines. *)
Theorem C37_output_any_lines : forall fo gosort lines ts order, sorts gosort -> int64 ts ->
  iteration_of fo (bucket_from fo lines) order ->
  exists out : list (bytes * bytes), Permutation (map fst (bucket_from fo lines)) (map fst out) /\ NoDup (map fst out) /\
    bucketBytes fo gosort ts order = concat (map snd out) /\
    Forall (fun kl => exists (fields : list (bytes * bytes)) tstxt,
      (forall i j a b, (i < j)%nat -> nth_error (map fst fields) i = Some a -> nth_error (map fst fields) j = Some b -> bltb a b = true) /\
      (forall n, In n (map fst fields) <-> field_in fo (bucket_from fo lines) (fst kl) n <> None) /\
      Forall (fun f => exists v, field_in fo (bucket_from fo lines) (fst kl) (fst f) = Some v /\ snd f = valueBytes fo v) fields /\
      dec_text ts tstxt /\
      snd kl = fst kl ++ sp :: (match fields with [] => [] | _ => join_comma (map (fun f => fst f ++ eqs :: snd f) fields) ++ [sp] end) ++ tstxt ++ [nl]) out.
Proof. exact (fun fo gs ls ts order Hs I O => print_any fo gs Hs ls ts order I O). Qed.
Print Assumptions C37_output_any_lines.

Example C37_points_good : Forall (good_point fo0) ex_pts.
Proof. exact ex_pts_good. Qed.
Example C37_case : exists order, iteration_of fo0 (bucket_of fo0 ex_pts) order /\
  bucketBytes fo0 (@isort) 1500 order = lit "mem s=""x \""y\"""" 1500
cpu,h=a b=f,z=15i 1500
".
Proof. exact ex_output. Qed.

(** C38: false of the code: after a boolean, a string is printed without quotes. *)
Theorem C38_refuted : forall fo gosort, sorts gosort -> f_parse fo (lit "t") = None ->
  let pts := [(lit "m", [(lit "f", FTok (lit "t"))]); (lit "m", [(lit "f", FStr (lit "a b"))])] in
  Forall (good_point fo) pts /\
  (forall order, iteration_of fo (bucket_of fo pts) order -> bucketBytes fo gosort 1500 order = lit "m f=a b 1500
") /\
  (forall v, good_val fo v -> vtext v <> lit "a b").
Proof. exact unquoted_ok. Qed.
Print Assumptions C38_refuted.
(** Also: a line without fields is accepted and printed without fields. *)
Theorem C38_no_fields_refuted : forall fo gosort order,
  iteration_of fo (bucket_from fo [lit "m"]) order -> bucketBytes fo gosort 1500 order = lit "m 1500
".
Proof. exact no_fields_ok. Qed.

(** Proved: when each field keeps its type, the output consists of well-formed points again, one
    per series, all stamped with the end of the period. *)
Theorem C38_consistent_partial : forall fo gosort pts ts order, sorts gosort -> formats_well fo ->
  Forall (good_point fo) pts -> consistent pts -> int64 ts -> iteration_of fo (bucket_of fo pts) order ->
  exists outs lines, Forall (good_point fo) outs /\ NoDup (map fst outs) /\
    Forall2 (stamped_line ts) outs lines /\ bucketBytes fo gosort ts order = concat lines.
Proof. exact (fun fo gs pts ts order Hs Hf F C I O => print_good fo gs Hs pts ts order Hf F (consistent_settled fo pts C) I O). Qed.
Print Assumptions C38_consistent_partial.

(** The same with much less: fields may change their type, as long as none starts as a boolean and ends as a string that cannot
    stand without quotes. *)
Theorem C38_settled_partial : forall fo gosort pts ts order, sorts gosort -> formats_well fo ->
  Forall (good_point fo) pts -> settled fo pts -> int64 ts -> iteration_of fo (bucket_of fo pts) order ->
  exists outs lines, Forall (good_point fo) outs /\ NoDup (map fst outs) /\
    Forall2 (stamped_line ts) outs lines /\ bucketBytes fo gosort ts order = concat lines.
Proof. exact (fun fo gs pts ts order Hs Hf F C I O => print_good fo gs Hs pts ts order Hf F C I O). Qed.
Print Assumptions C38_settled_partial.

(** That condition is exact for each field: the text printed for it is that of some well-formed value if and only if the field
    did not start as a boolean and end as such a string. *)
Theorem C38_field_iff : forall fo k n pts txt, formats_well fo -> Forall (good_point fo) pts -> summarises fo (values k n pts) txt ->
  ((exists v, good_val fo v /\ vtext v = txt) <->
   forall t vs s, values k n pts = FTok t :: vs -> last vs (FTok t) = FStr s -> exists v, good_val fo v /\ vtext v = s).
Proof. exact (fun fo k n pts txt Hf F H => summary_iff fo _ txt Hf (good_values fo k n pts F) H). Qed.
Print Assumptions C38_field_iff.

(** A field that goes from number to string and one that goes from string to number: settled, not consistent. *)
Example C38_settled_case : let pts := [(lit "m", [(lit "f", FNum (lit "1")); (lit "g", FStr (lit "a b"))]); (lit "m", [(lit "f", FStr (lit "a b")); (lit "g", FNum (lit "1"))])] in
  settled fo1 pts /\ ~ consistent pts.
Proof.
  intros pts. split.
  - intros k n t vs s E _. exfalso. unfold values, pts in E. cbn [flat_map fst snd] in E.
    destruct (beqs (lit "m") k); [|discriminate]. destruct (beqs (lit "f") n); [discriminate|]. destruct (beqs (lit "g") n); discriminate.
  - intros C. assert (K : kind (FNum (lit "1")) = kind (FStr (lit "a b"))) by (apply (C (lit "m") (lit "f")); vm_compute; auto). discriminate.
Qed.

Example C38_case : formats_well fo1 /\ consistent ex_pts.
Proof. exact (conj fo1_formats ex_consistent). Qed.

(** C57: the worker's messages and counters in terms of the assigner's answers. *)
Theorem C57_accounting : forall (B E : Type) (newBucket : Z -> B) (addLine : B -> bytes -> B * list E) fail p now0 turns,
  let d := worker_run B E newBucket addLine fail (newWorker B newBucket p now0) turns in
  let (a, answers) := do_calls B E newBucket addLine (newAssigner B newBucket p now0) (flat_map (turn_calls B) turns) in
  d_asg B d = a /\ exists bufs,
    Forall2 (fun (eb : Z * (Z * B)) buf => exists t, In t turns /\ buf = t_render B t (snd eb)) (emitted (flat_map (turn_calls B) turns) answers) bufs /\
    d_received (d_st B d) = Z.of_nat (length (filter (fun t => match t_in B t with Some _ => true | None => false end) turns)) /\
    d_invalid_ts (d_st B d) = Z.of_nat (length (filter (is_ts_error E) (all_errors B E answers))) /\
    d_invalid_lines (d_st B d) = Z.of_nat (length (filter (fun e => negb (is_ts_error E e)) (all_errors B E answers))) /\
    d_sent (d_st B d) = Z.of_nat (length (filter (fun b : bytes => match b with [] => false | _ => true end) bufs)) /\
    concat (d_pub (d_st B d)) = concat bufs /\
    Forall (fun m => m <> [] /\ Z.of_nat (length m) <= 1048577) (d_pub (d_st B d)) /\
    (Forall (fun b => Forall (fun l => Z.of_nat (length l) <= 1048576) (lines_of b)) bufs ->
       flat_map lines_of (d_pub (d_st B d)) = flat_map lines_of bufs) /\
    d_failed (d_st B d) = Z.of_nat (length (filter fail (seq 0 (length (d_pub (d_st B d)))))).
Proof. exact worker_ok. Qed.
Print Assumptions C57_accounting.

Example C57_case :
  let turns := [mkTurn (list bytes) (Some (lit "a x=1 1510000000000000005
bad 1510000000000000005
z x=1 5", fun _ => 1510000000000000015)) 1510000000000000019 (fun _ => lit "never");
    mkTurn (list bytes) None 1510000000000000020 (fun eb => concat (snd eb))] in
  d_st (list bytes) (worker_run (list bytes) bytes (fun _ => []) ex_add (fun _ => true) (newWorker (list bytes) (fun _ => []) 10 1510000000000000013) turns)
  = mkDS 1 1 1 1 1 [lit "a x=1"].
Proof. vm_compute. reflexivity. Qed.
