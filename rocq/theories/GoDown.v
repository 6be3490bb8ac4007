(** downsampler/avgbucket.go, assigner.go and downsampler.go's worker with the bounds checks, map lookups and divisions of
    Go, and that they do what Avg.v and Assigner.v say.

    Simplified: strconv and sort do not panic; constant indices into the array of three buckets are checked by the compiler. *)
From Verif Require Import Base Text TextProofs Convert Timestamps GoLang GoInflux GoBatch Avg AvgProofs Splitter SplitterProofs Assigner.
Local Open Scope Z_scope.
Local Open Scope go_scope.

Section Down.
  Variable fo : floatOps.
  Variable gosort : forall A : Type, (A -> A -> bool) -> list A -> list A.

  (** downsampler/avgbucket.go:177-178, 204-207: the tests, the slice and convert.ToInt. *)
  Definition parse_int_go (v : bytes) : go (option Z) :=
    if 2 <=? len v then
      x <- at_ v (len v - 1) ;;
      if Ascii.eqb x "i"%char then b <- slice v 0 (len v - 1) ;; ToInt_go b else Ret None
    else Ret None.
  (** downsampler/avgbucket.go:176-192 newFieldValue. *)
  Definition newFieldValue_go (v : bytes) : go (fieldValue fo) :=
    o <- parse_int_go v ;;
    match o with
    | Some iv => Ret (VInt fo iv 1)
    | None => Ret (match f_parse fo v with Some fv => VFloat fo fv 1 | None => VRaw fo v end)
    end.
  (** downsampler/avgbucket.go:203-258: the update methods. *)
  Definition updateValue_go (v : fieldValue fo) (b : bytes) : go (option (fieldValue fo)) :=
    match v with
    | VInt _ avg count =>
        o <- parse_int_go b ;;
        match o with
        | None => Ret None
        | Some bi =>
            let count := wrap64 (count + 1) in
            q <- div (wrap64 (bi - avg)) count ;;
            Ret (Some (VInt fo (wrap64 (avg + q)) count))
        end
    | _ => Ret (updateValue fo v b)
    end.
  (** downsampler/avgbucket.go:118-127 and 131-140. *)
  Definition put_field_go (fp : fieldPairs fo) (name : bytes) (quoted : bool) (rawValue : bytes) : go (fieldPairs fo * list lerr) :=
    match mget fp name with
    | None => v <- (if quoted then Ret (VString fo rawValue) else newFieldValue_go rawValue) ;; Ret (mset fp name v, [])
    | Some v =>
        o <- updateValue_go v rawValue ;;
        match o with None => Ret (fp, [EWrongType]) | Some v' => Ret (mset fp name v', []) end
    end.
  (** downsampler/avgbucket.go:94-144 update: one iteration; the state is the map, the errors and the rest of the line. *)
  Definition update_body (st : fieldPairs fo * list lerr * bytes) : go (iter (fieldPairs fo * list lerr * bytes) (fieldPairs fo * list lerr)) :=
    let '(fp, errs, raw) := st in
    if len raw =? 0 then Ret (Leave (fp, errs))
    else
      raw <- slice_from raw 1 ;;
      '(name, raw) <- TokenEscaped_go raw (lit "=") ;;
      bad <- (if len raw =? 0 then Ret true else x <- at_ raw 0 ;; Ret (negb (Ascii.eqb x eqs))) ;;
      if bad : bool then Ret (Leave (fp, errs ++ [EInvalidField]))
      else
        raw <- slice_from raw 1 ;;
        if len raw =? 0 then Ret (Leave (fp, errs ++ [EMissingValue]))
        else
          y <- at_ raw 0 ;;
          if Ascii.eqb y dq then
            q <- QuotedString_go raw ;;
            match q with
            | QOk value raw => '(fp, e) <- put_field_go fp name true value ;; Ret (Cont (fp, errs ++ e, raw))
            | _ => Ret (Leave (fp, errs ++ [EQuoted]))
            end
          else
            '(value, raw) <- Token_go raw (lit ",") ;;
            '(fp, e) <- put_field_go fp name false value ;;
            Ret (Cont (fp, errs ++ e, raw)).
  Definition updateFields_go (fp : fieldPairs fo) (raw : bytes) : go (fieldPairs fo * list lerr) :=
    loop (S (length raw)) update_body (fp, [], raw).
  (** downsampler/avgbucket.go:44-60 AddLine. *)
  Definition AddLine_go (b : avgBucket fo) (line : bytes) : go (avgBucket fo * list lerr) :=
    '(key, raw) <- TokenEscaped_go line (lit " ") ;;
    match mget b key with
    | Some fields => '(fields', errs) <- updateFields_go fields raw ;; Ret (mset b key fields', errs)
    | None =>
        '(fields', errs) <- updateFields_go [] raw ;;
        Ret (match errs with [] => (mset b key fields', []) | _ => (b, errs) end)
    end.

  (** downsampler/avgbucket.go:218-259 *)
  Definition valueBytes_go (v : fieldValue fo) : go bytes :=
    match v with VString _ b => EscapeQuotedString_go b | _ => Ret (valueBytes fo v) end.
  (** downsampler/avgbucket.go:157-167: a name that is not in the map would give a nil fieldValue, and calling its method a
      panic. *)
  Fixpoint fields_loop_go (fp : fieldPairs fo) (names : list bytes) : go bytes :=
    match names with
    | [] => Ret []
    | n :: ns =>
        v <- match mget fp n with Some v => valueBytes_go v | None => Panic end ;;
        r <- fields_loop_go fp ns ;;
        Ret (n ++ [eqs] ++ v ++ match ns with [] => r | _ => comma :: r end)
    end.
  (** downsampler/avgbucket.go:146-169 bytes. *)
  Definition fieldsBytes_go (fp : fieldPairs fo) (names : list bytes) : go bytes :=
    if len fp =? 0 then Ret [] else fields_loop_go fp (gosort bytes bltb names).
  (** downsampler/avgbucket.go:62-78 Bytes. *)
  Fixpoint bucketBytes_go (ts : Z) (order : list (bytes * fieldPairs fo * list bytes)) : go bytes :=
    match order with
    | [] => Ret []
    | (key, fields, names) :: order' =>
        fb <- fieldsBytes_go fields names ;;
        r <- bucketBytes_go ts order' ;;
        Ret (key ++ [sp] ++ (if 0 <? len fb then fb ++ [sp] else []) ++ FormatInt (wrap64 ts) ++ [nl] ++ r)
    end.

  Notation asg := (assigner (avgBucket fo)).
  Notation uer := (uerr lerr).
  (** downsampler/assigner.go:167-173 extractTimestamp. *)
  Definition assignTimestamp_go (line : bytes) (now : Z) : go (Z * bytes) :=
    '(nanos, offset) <- ExtractTimestamp_go line ;;
    if offset <? 0 then Ret (now, line) else l <- slice line 0 (offset - 1) ;; Ret (nanos, l).
  (** downsampler/assigner.go:152-162 findBucket: which bucket, or the error. *)
  Definition findBucket_go (a : asg) (ts : Z) (origLine : bytes) : go (Z + uer) :=
    if ts <? a_tmin _ a then Ret (inr (UTooOld lerr origLine))
    else
      r <- range [fst (a_prev _ a); fst (a_curr _ a); fst (a_next _ a)] 0 (fun i e _ => Ret (if ts <? e then Leave i else Cont tt)) tt ;;
      Ret (match r with Leave i => inl i | Cont _ => inr (UTooNew lerr origLine) end).
  (** downsampler/assigner.go:95-114 Update: one line, added to the bucket found. *)
  Definition update_line_go (a : asg) (origLine : bytes) (now : Z) : go (asg * list uer) :=
    '(ts, line) <- assignTimestamp_go origLine now ;;
    f <- findBucket_go a ts origLine ;;
    match f with
    | inr e => Ret (a, [e])
    | inl i =>
        let bs := [a_prev _ a; a_curr _ a; a_next _ a] in
        '(end_, b) <- at_ bs i ;;
        '(b', errs) <- AddLine_go b line ;;
        bs <- put bs i (end_, b') ;;
        p <- at_ bs 0 ;; c <- at_ bs 1 ;; n <- at_ bs 2 ;;
        Ret (mkAsg _ (a_period _ a) p c n (a_tmin _ a), map (fun e => ULine lerr e origLine) errs)
    end.
  Fixpoint update_lines_go (a : asg) (ls : list bytes) (clk : nat -> Z) : go (asg * list uer) :=
    match ls with
    | [] => Ret (a, [])
    | line :: ls' =>
        if len line <? 1 then update_lines_go a ls' clk
        else
          '(a1, e1) <- update_line_go a line (clk O) ;;
          '(a2, e2) <- update_lines_go a1 ls' (fun k => clk (S k)) ;;
          Ret (a2, e1 ++ e2)
    end.
  Definition Update_go (a : asg) (lines : bytes) (clk : nat -> Z) : go (asg * list uer) := update_lines_go a (Split lines) clk.

  (** One turn of the worker: a message with the clock readings of its lines, or the timer; the clock reading of Bytes; and
      the order in which the maps of the emitted bucket are gone through. *)
  Record gturn := mkGTurn { gt_in : option (bytes * (nat -> Z)); gt_now : Z; gt_order : avgBucket fo -> list (bytes * fieldPairs fo * list bytes) }.
  (** downsampler/downsampler.go:143-179. *)
  Definition worker_turn_go (fail : nat -> bool) (d : dstate (avgBucket fo)) (t : gturn) : go (dstate (avgBucket fo)) :=
    '(a1, st1) <-
      match gt_in t with
      | None => Ret (d_asg _ d, d_st _ d)
      | Some (data, clk) =>
          let s := d_st _ d in
          let s := mkDS (d_received s + 1) (d_sent s) (d_invalid_lines s) (d_invalid_ts s) (d_failed s) (d_pub s) in
          '(a1, errs) <- Update_go (d_asg _ d) data clk ;;
          Ret (a1, fold_left (count_error lerr) errs s)
      end ;;
    let '(a2, out) := emit (avgBucket fo) (fun _ => []) a1 (gt_now t) in
    buf <- match out with None => Ret [] | Some (e, b) => bucketBytes_go e (gt_order t b) end ;;
    if 0 <? len buf then
      cs <- split_go (Z.of_nat dsMax) buf ;;
      let s := fold_left (dpublish fail) cs st1 in
      Ret (mkD _ a2 (mkDS (d_received s) (d_sent s + 1) (d_invalid_lines s) (d_invalid_ts s) (d_failed s) (d_pub s)))
    else Ret (mkD _ a2 st1).
  Fixpoint worker_run_go (fail : nat -> bool) (d : dstate (avgBucket fo)) (ts : list gturn) : go (dstate (avgBucket fo)) :=
    match ts with [] => Ret d | t :: ts' => d' <- worker_turn_go fail d t ;; worker_run_go fail d' ts' end.

  (** The same turn for Assigner.v. *)
  Definition plain_turn (t : gturn) : turn (avgBucket fo) :=
    mkTurn _ (gt_in t) (gt_now t) (fun eb => bucketBytes fo gosort (fst eb) (gt_order t (snd eb))).

  (* ---------------------------------------------------------------- *)

  (** Counts of integer fields between 1 and [n]. *)
  Definition count_le (n : Z) (v : fieldValue fo) : Prop := match v with VInt _ _ c => 1 <= c <= n | _ => True end.
  Definition fields_le (n : Z) (fp : fieldPairs fo) : Prop := NoDup (map fst fp) /\ forall k v, mget fp k = Some v -> count_le n v.
  Definition bucket_le (n : Z) (b : avgBucket fo) : Prop := NoDup (map fst b) /\ forall k fp, mget b k = Some fp -> fields_le n fp.
  Definition asg_le (n : Z) (a : asg) : Prop := bucket_le n (snd (a_prev _ a)) /\ bucket_le n (snd (a_curr _ a)) /\ bucket_le n (snd (a_next _ a)).

  Lemma count_le_mono n m v : n <= m -> count_le n v -> count_le m v.
  Proof. destruct v; cbn; lia || auto. Qed.
  Lemma fields_le_mono n m fp : n <= m -> fields_le n fp -> fields_le m fp.
  Proof. intros L [N H]. split; [exact N|]. intros k v E. exact (count_le_mono n m v L (H k v E)). Qed.
  Lemma bucket_le_mono n m b : n <= m -> bucket_le n b -> bucket_le m b.
  Proof. intros L [N H]. split; [exact N|]. intros k v E. exact (fields_le_mono n m v L (H k v E)). Qed.
  Lemma asg_le_mono n m a : n <= m -> asg_le n a -> asg_le m a.
  Proof. intros L (A & B & C). (split; [|split]); apply (bucket_le_mono n m _ L); assumption. Qed.
  Lemma fields_le_nil n : fields_le n [].
  Proof. split; [constructor|discriminate]. Qed.
  Lemma bucket_le_nil n : bucket_le n [].
  Proof. split; [constructor|discriminate]. Qed.
  Lemma fields_le_set n fp k v : fields_le n fp -> count_le n v -> fields_le n (mset fp k v).
  Proof.
    intros [N H] C. split; [apply mset_nodup; exact N|]. intros k' v' E. rewrite mget_mset in E. destruct (beqs k k'); [injection E as <-; exact C|exact (H k' v' E)].
  Qed.
  Lemma bucket_le_set n b k v : bucket_le n b -> fields_le n v -> bucket_le n (mset b k v).
  Proof.
    intros [N H] C. split; [apply mset_nodup; exact N|]. intros k' v' E. rewrite mget_mset in E. destruct (beqs k k'); [injection E as <-; exact C|exact (H k' v' E)].
  Qed.

  Lemma last_split (v : bytes) : v <> [] -> v = removelast v ++ [last v "000"%char].
  Proof. intros H. apply app_removelast_last. exact H. Qed.
  Lemma parse_int_go_ok v : parse_int_go v = Ret (parse_int v).
  Proof.
    unfold parse_int_go, parse_int, int_body. fold (len v). destruct (2 <=? len v) eqn:E; [|reflexivity]. cbn [andb].
    assert (N : v <> []) by (intros ->; discriminate E). assert (L : len (removelast v) = len v - 1) by (rewrite (last_split v N) at 2; rewrite len_app, len_cons, len_nil; lia).
    rewrite (last_split v N) at 1. rewrite at_app by lia. cbn [bind]. destruct (Ascii.eqb _ _); [|reflexivity].
    rewrite (last_split v N) at 1. rewrite slice_pre by lia. cbn [bind]. apply ToInt_go_ok.
  Qed.
  Lemma newFieldValue_go_ok v : newFieldValue_go v = Ret (newFieldValue fo v).
  Proof. unfold newFieldValue_go, newFieldValue. rewrite parse_int_go_ok. cbn [bind]. destruct (parse_int v); reflexivity. Qed.
  Lemma newFieldValue_le n v : 1 <= n -> count_le n (newFieldValue fo v).
  Proof. intros H. unfold newFieldValue. destruct (parse_int v); [cbn; lia|]. destruct (f_parse fo v); exact I. Qed.
  Lemma updateValue_go_ok n v b : n < maxInt64 -> count_le n v ->
    updateValue_go v b = Ret (updateValue fo v b) /\ forall v', updateValue fo v b = Some v' -> count_le (n + 1) v'.
  Proof.
    intros Hn C. destruct v as [avg c|avg c|s|s]; cbn [updateValue_go updateValue count_le] in *.
    - rewrite parse_int_go_ok. cbn [bind]. destruct (parse_int b) as [bi|]; [|split; [reflexivity|discriminate]].
      assert (W : wrap64 (c + 1) = c + 1) by (apply wrap64_id; unfold int64, minInt64, maxInt64, two63 in *; lia). rewrite W. unfold div. replace (c + 1 =? 0) with false by lia. cbn [bind].
      split; [reflexivity|]. intros v' E. injection E as <-. cbn [count_le]. lia.
    - split; [reflexivity|]. destruct (f_parse fo b); [|discriminate]. intros v' E. injection E as <-. exact I.
    - split; [reflexivity|]. intros v' E. injection E as <-. exact I.
    - split; [reflexivity|]. intros v' E. injection E as <-. exact I.
  Qed.
  Lemma put_field_go_ok n fp name q raw : 0 <= n < maxInt64 -> fields_le n fp ->
    put_field_go fp name q raw = Ret (put_field fo fp name q raw) /\ fields_le (n + 1) (fst (put_field fo fp name q raw)).
  Proof.
    intros Hn F. unfold put_field_go, put_field. pose proof (fields_le_mono n (n + 1) fp ltac:(lia) F) as F'. destruct (mget fp name) as [v|] eqn:E.
    - destruct (updateValue_go_ok n v raw ltac:(lia) (proj2 F name v E)) as [E1 C1]. rewrite E1. cbn [bind]. destruct (updateValue fo v raw) as [v'|]; (split; [reflexivity|]); cbn [fst].
      + apply fields_le_set; [exact F'|]. apply C1. reflexivity.
      + exact F'.
    - destruct q; [|rewrite newFieldValue_go_ok]; cbn [bind]; (split; [reflexivity|]); cbn [fst]; (apply fields_le_set; [exact F'|]); [exact I|]. apply newFieldValue_le. lia.
  Qed.

  Lemma update_loop_go_ok : forall fuel fp errs raw n, (length raw < fuel)%nat -> 0 <= n -> n + len raw < maxInt64 -> fields_le n fp ->
    loop fuel update_body (fp, errs, raw) = Ret (let (fp', e) := update_loop fo fuel fp raw in (fp', errs ++ e)) /\ fields_le (n + len raw) (fst (update_loop fo fuel fp raw)).
  Proof.
    induction fuel as [|f IH]; intros fp errs raw n L Hn B F; [lia|]. cbn [update_loop].
    change (loop (S f) update_body (fp, errs, raw)) with (r <- update_body (fp, errs, raw) ;; match r with Cont s' => loop f update_body s' | Leave v => Ret v end).
    unfold update_body at 1. rewrite len_zero. destruct raw as [|c0 raw1].
    { cbn [bind fst]. rewrite app_nil_r. split; [reflexivity|]. apply (fields_le_mono n); [rewrite len_nil; lia|exact F]. }
    assert (F' : fields_le (n + len (c0 :: raw1)) fp) by (apply (fields_le_mono n); [pose proof (len_nonneg (c0 :: raw1)); lia|exact F]).
    rewrite slice_one. cbn [bind]. rewrite TokenEscaped_go_ok. cbn [bind]. destruct (TokenEscaped (lit "=") raw1) as [name raw2] eqn:Et.
    apply TokenEscaped_split in Et. assert (L2 : (length raw2 <= length raw1)%nat) by (rewrite <- Et, app_length; lia). clear Et.
    rewrite len_zero. destruct raw2 as [|c raw3]; [cbn [bind fst]; split; [reflexivity|exact F']|].
    rewrite at_zero. cbn [bind]. destruct (Ascii.eqb c eqs); cbn [negb]; [|split; [reflexivity|exact F']].
    rewrite slice_one. cbn [bind]. rewrite len_zero. destruct raw3 as [|d raw3']; [split; [reflexivity|exact F']|].
    set (raw3 := d :: raw3') in *. change (at_ raw3 0) with (@Ret ascii d). cbn [bind]. cbn [length] in L, L2.
    assert (Step : forall q value raw4, (length raw4 <= length raw3)%nat ->
      (r <- ('(fp, e) <- put_field_go fp name q value ;; Ret (Cont (fp, errs ++ e, raw4))) ;; match r with Cont s' => loop f update_body s' | Leave v => Ret v end) =
        Ret (let (fp', e) := (let (fp1, e1) := put_field fo fp name q value in let (fp2, e2) := update_loop fo f fp1 raw4 in (fp2, e1 ++ e2)) in (fp', errs ++ e)) /\
      fields_le (n + len (c0 :: raw1)) (fst (let (fp1, e1) := put_field fo fp name q value in let (fp2, e2) := update_loop fo f fp1 raw4 in (fp2, e1 ++ e2)))).
    { intros q value raw4 L4. unfold len in B |- *. cbn [length] in B |- *.
      destruct (put_field_go_ok n fp name q value ltac:(lia) F) as [E1 F1]. rewrite E1. cbn [bind]. destruct (put_field fo fp name q value) as [fp1 e1]. cbn [fst] in F1.
      destruct (IH fp1 (errs ++ e1) raw4 (n + 1)) as [E2 F2]; [lia|lia|unfold len; lia|exact F1|]. cbn [bind]. rewrite E2. destruct (update_loop fo f fp1 raw4) as [fp2 e2]. cbn [fst] in *.
      rewrite app_assoc. split; [reflexivity|]. apply (fields_le_mono (n + 1 + len raw4)); [unfold len; lia|exact F2]. }
    destruct (Ascii.eqb d dq).
    - rewrite QuotedString_go_ok. cbn [bind]. destruct (QuotedString raw3) as [value raw4| | |] eqn:Eq; try (split; [reflexivity|exact F']).
      apply (Step true value raw4). apply quoted_len in Eq. lia.
    - rewrite Token_go_ok. cbn [bind]. destruct (Token (lit ",") raw3) as [value raw4] eqn:Eq. apply (Step false value raw4). exact (Token_len _ _ _ _ Eq).
  Qed.
  Lemma updateFields_go_ok fp raw n : 0 <= n -> n + len raw < maxInt64 -> fields_le n fp ->
    updateFields_go fp raw = Ret (updateFields fo fp raw) /\ fields_le (n + len raw) (fst (updateFields fo fp raw)).
  Proof.
    intros Hn B F. unfold updateFields_go, updateFields. destruct (update_loop_go_ok (S (length raw)) fp [] raw n ltac:(lia) Hn B F) as [E G]. split; [|exact G]. refine (eq_trans E _).
    destruct (update_loop fo (S (length raw)) fp raw). reflexivity.
  Qed.
  Lemma AddLine_go_ok b line n : 0 <= n -> n + len line < maxInt64 -> bucket_le n b ->
    AddLine_go b line = Ret (AddLine fo b line) /\ bucket_le (n + len line) (fst (AddLine fo b line)).
  Proof.
    intros Hn B F. unfold AddLine_go, AddLine. rewrite TokenEscaped_go_ok. cbn [bind]. destruct (TokenEscaped (lit " ") line) as [key raw] eqn:Et. apply TokenEscaped_split in Et.
    assert (L : len raw <= len line) by (rewrite <- Et, len_app; pose proof (len_nonneg key); lia). pose proof (bucket_le_mono n (n + len line) b ltac:(pose proof (len_nonneg line); lia) F) as F'.
    destruct (mget b key) as [fields|] eqn:Eg.
    - destruct (updateFields_go_ok fields raw n Hn ltac:(lia) (proj2 F key fields Eg)) as [E1 G]. rewrite E1. cbn [bind]. destruct (updateFields fo fields raw) as [f' errs]. cbn [fst] in *. split; [reflexivity|].
      apply bucket_le_set; [exact F'|]. apply (fields_le_mono (n + len raw)); [lia|exact G].
    - destruct (updateFields_go_ok [] raw n Hn ltac:(lia) (fields_le_nil n)) as [E1 G]. rewrite E1. cbn [bind]. destruct (updateFields fo [] raw) as [f' errs]. cbn [fst] in *. split; [reflexivity|].
      destruct errs; cbn [fst]; [|exact F']. apply bucket_le_set; [exact F'|]. apply (fields_le_mono (n + len raw)); [lia|exact G].
  Qed.

  Lemma valueBytes_go_ok v : valueBytes_go v = Ret (valueBytes fo v).
  Proof. destruct v; cbn; try reflexivity. apply EscapeQuotedString_go_ok. Qed.
  Lemma fields_loop_go_ok fp : forall names, incl names (map fst fp) -> fields_loop_go fp names = Ret (fields_loop fo fp names).
  Proof.
    induction names as [|k ns IH]; intros H; [reflexivity|]. cbn [fields_loop_go fields_loop]. destruct (mget fp k) as [v|] eqn:E.
    - rewrite valueBytes_go_ok. cbn [bind]. rewrite IH by (intros x Hx; apply H; right; exact Hx). cbn [bind]. destruct ns; reflexivity.
    - exfalso. apply mget_None in E. apply E, H. left. reflexivity.
  Qed.
  Hypothesis sort_perm : forall l, Permutation l (gosort bytes bltb l).
  Lemma fieldsBytes_go_ok fp names : Permutation (map fst fp) names -> fieldsBytes_go fp names = Ret (fieldsBytes fo gosort fp names).
  Proof.
    intros P. unfold fieldsBytes_go, fieldsBytes. rewrite len_zero. destruct fp as [|e fp]; [reflexivity|]. apply fields_loop_go_ok. intros x Hx.
    apply (Permutation_in _ (Permutation_sym P)). apply (Permutation_in _ (Permutation_sym (sort_perm names))). exact Hx.
  Qed.
  Lemma bucketBytes_go_ok ts : forall order, Forall (fun e => Permutation (map fst (snd (fst e))) (snd e)) order -> bucketBytes_go ts order = Ret (bucketBytes fo gosort ts order).
  Proof.
    induction order as [|[[key fields] names] order IH]; intros H; [reflexivity|]. inversion H; subst. cbn [fst snd] in *. cbn [bucketBytes_go bucketBytes]. rewrite fieldsBytes_go_ok by assumption. cbn [bind].
    rewrite IH by assumption. cbn [bind]. f_equal. f_equal. f_equal. replace (0 <? len (fieldsBytes fo gosort fields names)) with (negb (len (fieldsBytes fo gosort fields names) =? 0)) by (pose proof (len_nonneg (fieldsBytes fo gosort fields names)); lia).
    rewrite len_zero. destruct (fieldsBytes fo gosort fields names); reflexivity.
  Qed.

  Lemma assignTimestamp_go_ok line now : assignTimestamp_go line now = Ret (assignTimestamp line now) /\ len (snd (assignTimestamp line now)) <= len line.
  Proof.
    unfold assignTimestamp_go, assignTimestamp. rewrite ExtractTimestamp_go_ok. cbn [bind]. destruct (ExtractTimestamp line) as [nanos off] eqn:E. apply extract_offset in E.
    destruct (off <? 0) eqn:O; [split; [reflexivity|cbn; lia]|]. rewrite slice_first by lia. cbn [bind snd]. split; [reflexivity|]. unfold len. rewrite firstn_length. lia.
  Qed.
  Notation update_line' := (update_line (avgBucket fo) lerr (AddLine fo)).
  Lemma update_line_go_ok a line now n : 0 <= n -> n + len line < maxInt64 -> asg_le n a ->
    update_line_go a line now = Ret (update_line' a line now) /\ asg_le (n + len line) (fst (update_line' a line now)).
  Proof.
    intros Hn B F. unfold update_line_go, update_line. destruct (assignTimestamp_go_ok line now) as [E1 L1]. rewrite E1. cbn [bind]. destruct (assignTimestamp line now) as [ts l]. cbn [snd] in L1.
    pose proof (asg_le_mono n (n + len line) a ltac:(pose proof (len_nonneg line); lia) F) as F'. destruct F as (Fp & Fc & Fn). destruct F' as (Gp & Gc & Gn).
    assert (Add : forall eb : Z * avgBucket fo, bucket_le n (snd eb) -> AddLine_go (snd eb) l = Ret (AddLine fo (snd eb) l) /\ bucket_le (n + len line) (fst (AddLine fo (snd eb) l))).
    { intros eb H. destruct (AddLine_go_ok (snd eb) l n Hn ltac:(lia) H) as [E G]. split; [exact E|]. apply (bucket_le_mono (n + len l)); [lia|exact G]. }
    unfold findBucket_go. destruct (ts <? a_tmin _ a); [split; [reflexivity|(split; [|split]); assumption]|]. cbn [range bind].
    destruct (ts <? fst (a_prev _ a)).
    { cbn [bind]. rewrite at_zero. cbn [bind]. destruct (Add (a_prev _ a) Fp) as [E2 G2]. destruct (a_prev _ a) as [e b]. cbn [fst snd] in *. rewrite E2. cbn [bind]. destruct (AddLine fo b l) as [b' errs]. cbn. split; [reflexivity|(split; [|split]); first [assumption|exact G2]]. }
    cbn [bind range]. destruct (ts <? fst (a_curr _ a)).
    { cbn [bind]. change (at_ [a_prev _ a; a_curr _ a; a_next _ a] (0 + 1)) with (Ret (a_curr _ a)). cbn [bind]. destruct (Add (a_curr _ a) Fc) as [E2 G2]. destruct (a_curr _ a) as [e b]. cbn [fst snd] in *. rewrite E2. cbn [bind]. destruct (AddLine fo b l) as [b' errs]. cbn. split; [reflexivity|(split; [|split]); first [assumption|exact G2]]. }
    cbn [bind range]. destruct (ts <? fst (a_next _ a)).
    { cbn [bind]. change (at_ [a_prev _ a; a_curr _ a; a_next _ a] (0 + 1 + 1)) with (Ret (a_next _ a)). cbn [bind]. destruct (Add (a_next _ a) Fn) as [E2 G2]. destruct (a_next _ a) as [e b]. cbn [fst snd] in *. rewrite E2. cbn [bind]. destruct (AddLine fo b l) as [b' errs]. cbn. split; [reflexivity|(split; [|split]); first [assumption|exact G2]]. }
    split; [reflexivity|(split; [|split]); assumption].
  Qed.
  (** Bytes in the lines. *)
  Definition total (ls : list bytes) : Z := fold_right (fun l s => len l + s) 0 ls.
  Lemma total_nonneg ls : 0 <= total ls.
  Proof. induction ls as [|l ls IH]; [cbn; lia|]. change (total (l :: ls)) with (len l + total ls). pose proof (len_nonneg l). lia. Qed.
  Notation update_lines' := (update_lines (avgBucket fo) lerr (AddLine fo)).
  Lemma update_lines_go_ok : forall ls a clk n, 0 <= n -> n + total ls < maxInt64 -> asg_le n a ->
    update_lines_go a ls clk = Ret (update_lines' a ls clk) /\ asg_le (n + total ls) (fst (update_lines' a ls clk)).
  Proof.
    induction ls as [|line ls IH]; intros a clk n Hn B F.
    - split; [reflexivity|]. cbn. apply (asg_le_mono n); [lia|exact F].
    - change (total (line :: ls)) with (len line + total ls) in *. cbn [update_lines_go update_lines]. replace (len line <? 1) with (len line =? 0) by (pose proof (len_nonneg line); lia). rewrite len_zero.
      destruct line as [|c line]; [exact (IH a clk n Hn B F)|]. pose proof (total_nonneg ls).
      destruct (update_line_go_ok a (c :: line) (clk 0%nat) n Hn ltac:(lia) F) as [E1 G1]. rewrite E1. cbn [bind]. destruct (update_line' a (c :: line) (clk 0%nat)) as [a1 e1]. cbn [fst] in G1.
      destruct (IH a1 (fun k => clk (S k)) (n + len (c :: line)) ltac:(pose proof (len_nonneg (c :: line)); lia) ltac:(lia) G1) as [E2 G2]. rewrite E2. cbn [bind].
      destruct (update_lines' a1 ls (fun k => clk (S k))) as [a2 e2]. cbn [fst] in *. split; [reflexivity|]. replace (n + (len (c :: line) + total ls)) with (n + len (c :: line) + total ls) by lia. exact G2.
  Qed.
  Lemma Split_total s : total (Split s) <= len s.
  Proof.
    induction s as [|c s IH]; [cbn; lia|]. cbn [Split]. rewrite len_cons. destruct (Ascii.eqb c nl).
    - change (total ([] :: Split s)) with (len (@nil ascii) + total (Split s)). rewrite len_nil. lia.
    - destruct (Split s) as [|l ls]; [change (total [[c]]) with 1; pose proof (len_nonneg s); lia|]. change (total ((c :: l) :: ls)) with (len (c :: l) + total ls). change (total (l :: ls)) with (len l + total ls) in IH. rewrite len_cons. lia.
  Qed.
  Lemma Update_go_ok a data clk n : 0 <= n -> n + len data < maxInt64 -> asg_le n a ->
    Update_go a data clk = Ret (Update (avgBucket fo) lerr (AddLine fo) a data clk) /\ asg_le (n + len data) (fst (Update (avgBucket fo) lerr (AddLine fo) a data clk)).
  Proof.
    intros Hn B F. pose proof (Split_total data). destruct (update_lines_go_ok (Split data) a clk n Hn ltac:(lia) F) as [E G]. split; [exact E|]. apply (asg_le_mono (n + total (Split data))); [lia|exact G].
  Qed.

  Definition msg_of (t : gturn) : bytes := match gt_in t with Some (data, _) => data | None => [] end.
  (** The maps are gone through in some order. *)
  Definition fair (t : gturn) : Prop := forall b, NoDup (map fst b) -> iteration_of fo b (gt_order t b).
  Notation worker_turn' := (worker_turn (avgBucket fo) lerr (fun _ => []) (AddLine fo)).

  Lemma emit_le n a now : asg_le n a -> asg_le n (fst (emit (avgBucket fo) (fun _ => []) a now)) /\ forall e b, snd (emit (avgBucket fo) (fun _ => []) a now) = Some (e, b) -> bucket_le n b.
  Proof.
    intros (Fp & Fc & Fn). unfold emit. destruct (now <? fst (a_curr _ a)); cbn [fst snd].
    - split; [(split; [|split]); assumption|discriminate].
    - split; [(split; [|split]); cbn [a_prev a_curr a_next snd]; first [assumption|apply bucket_le_nil]|]. intros e b E. injection E as E. rewrite E in Fp. exact Fp.
  Qed.
  Lemma worker_turn_go_ok fail d t n : 0 <= n -> n + len (msg_of t) < maxInt64 -> fair t -> asg_le n (d_asg _ d) ->
    worker_turn_go fail d t = Ret (worker_turn' fail d (plain_turn t)) /\ asg_le (n + len (msg_of t)) (d_asg _ (worker_turn' fail d (plain_turn t))).
  Proof.
    intros Hn B O F. unfold worker_turn_go, worker_turn. cbn [plain_turn t_in t_now t_render]. unfold msg_of in *.
    assert (Tail : forall a1 st1, asg_le (n + len (msg_of t)) a1 ->
      (let '(a2, out) := emit (avgBucket fo) (fun _ => []) a1 (gt_now t) in
       buf <- match out with None => Ret [] | Some (e, b) => bucketBytes_go e (gt_order t b) end ;;
       if 0 <? len buf then
         cs <- split_go (Z.of_nat dsMax) buf ;;
         let s := fold_left (dpublish fail) cs st1 in
         Ret (mkD _ a2 (mkDS (d_received s) (d_sent s + 1) (d_invalid_lines s) (d_invalid_ts s) (d_failed s) (d_pub s)))
       else Ret (mkD _ a2 st1)) =
      Ret (let (a2, out) := emit (avgBucket fo) (fun _ => []) a1 (gt_now t) in
           let buf := match out with None => [] | Some eb => bucketBytes fo gosort (fst eb) (gt_order t (snd eb)) end in
           match buf with [] => mkD _ a2 st1 | _ => let s := fold_left (dpublish fail) (split_all dsMax buf) st1 in mkD _ a2 (mkDS (d_received s) (d_sent s + 1) (d_invalid_lines s) (d_invalid_ts s) (d_failed s) (d_pub s)) end) /\
      asg_le (n + len (msg_of t)) (d_asg _ (let (a2, out) := emit (avgBucket fo) (fun _ => []) a1 (gt_now t) in
           let buf := match out with None => [] | Some eb => bucketBytes fo gosort (fst eb) (gt_order t (snd eb)) end in
           match buf with [] => mkD _ a2 st1 | _ => let s := fold_left (dpublish fail) (split_all dsMax buf) st1 in mkD _ a2 (mkDS (d_received s) (d_sent s + 1) (d_invalid_lines s) (d_invalid_ts s) (d_failed s) (d_pub s)) end))).
    { intros a1 st1 G1. destruct (emit_le _ a1 (gt_now t) G1) as [G2 G3]. destruct (emit (avgBucket fo) (fun _ => []) a1 (gt_now t)) as [a2 out]. cbn [fst snd] in *.
      assert (Eb : match out with None => Ret [] | Some (e, b) => bucketBytes_go e (gt_order t b) end = Ret (match out with None => [] | Some eb => bucketBytes fo gosort (fst eb) (gt_order t (snd eb)) end)).
      { destruct out as [[e b]|]; [|reflexivity]. cbn [fst snd]. apply bucketBytes_go_ok. apply (O b). apply (G3 e b eq_refl). }
      rewrite Eb. cbn [bind]. set (buf := match out with None => [] | Some eb => bucketBytes fo gosort (fst eb) (gt_order t (snd eb)) end). clearbody buf. replace (0 <? len buf) with (negb (len buf =? 0)) by (pose proof (len_nonneg buf); lia). rewrite len_zero.
      destruct buf as [|c buf]; cbn [negb]; [split; [reflexivity|exact G2]|]. rewrite split_go_ok by (unfold dsMax; lia). cbn [bind]. split; [reflexivity|exact G2]. }
    unfold msg_of in *. destruct (gt_in t) as [[data clk]|].
    - destruct (Update_go_ok (d_asg _ d) data clk n Hn B F) as [E1 G1]. rewrite E1. cbn [bind]. destruct (Update (avgBucket fo) lerr (AddLine fo) (d_asg _ d) data clk) as [a1 errs]. cbn [fst] in G1. apply Tail. exact G1.
    - cbn [bind]. apply Tail. rewrite len_nil, Z.add_0_r. exact F.
  Qed.
  Theorem worker_run_go_ok fail : forall ts d n, 0 <= n -> n + total (map msg_of ts) < maxInt64 -> Forall fair ts -> asg_le n (d_asg _ d) ->
    worker_run_go fail d ts = Ret (worker_run (avgBucket fo) lerr (fun _ => []) (AddLine fo) fail d (map plain_turn ts)).
  Proof.
    induction ts as [|t ts IH]; intros d n Hn B O F; [reflexivity|]. inversion O; subst. cbn [map] in B. change (total (msg_of t :: map msg_of ts)) with (len (msg_of t) + total (map msg_of ts)) in B. pose proof (total_nonneg (map msg_of ts)).
    cbn [worker_run_go map]. destruct (worker_turn_go_ok fail d t n Hn ltac:(lia) ltac:(assumption) F) as [E G]. rewrite E. cbn [bind]. unfold worker_run. cbn [fold_left].
    apply (IH _ (n + len (msg_of t))); [pose proof (len_nonneg (msg_of t)); lia|lia|assumption|exact G].
  Qed.
End Down.
