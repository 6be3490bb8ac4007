(** influx/*.go and convert/convert.go statement by statement, with every index and slice expression (GoLang.v), and that
    each function returns what the functions of Text.v, Convert.v and Timestamps.v say: no panic, no endless loop. *)
From Verif Require Import Base Text TextProofs Convert Timestamps GoLang.
Local Open Scope Z_scope.
Local Open Scope go_scope.

(* ------------------------------------------------------------------ *)
(** * influx/unescape.go *)

(** influx/unescape.go:39-56: one iteration; the state is i, j, out. *)
Definition unescape_body (inp : bytes) (st : Z * Z * bytes) : go (iter (Z * Z * bytes) bytes) :=
  let '(i, j, out) := st in
  let inLen := len inp in
  if inLen <=? i then r <- slice out 0 j ;; Ret (Leave r)
  else
    let ii := i + 1 in
    a <- at_ inp i ;;
    esc <- (if Ascii.eqb a bsl && (ii <? inLen) then b <- at_ inp ii ;; Ret (if memb [comma; dq; sp; eqs] b then Some b else None)
            else Ret None) ;;
    match esc with
    | Some b => out' <- put out j b ;; Ret (Cont (i + 2, j + 1, out'))
    | None => out' <- put out j a ;; Ret (Cont (ii, j + 1, out'))
    end.
(** influx/unescape.go:26-57. *)
Definition Unescape_go (inp : bytes) : go bytes :=
  if negb (memb inp bsl) then Ret inp
  else loop (S (length inp)) (unescape_body inp) (0, 0, repeat "000"%char (length inp)).

Lemma loop_step {S R} n (body : S -> go (iter S R)) s o : body s = Ret o -> loop (Datatypes.S n) body s = match o with Cont s' => loop n body s' | Leave v => Ret v end.
Proof. intros E. cbn [loop]. rewrite E. reflexivity. Qed.

Lemma unescape_go_loop : forall n rest pre done junk i j, (length rest < n)%nat -> (length rest <= length junk)%nat -> i = len pre -> j = len done ->
  loop n (unescape_body (pre ++ rest)) (i, j, done ++ junk) = Ret (done ++ unescape_loop rest).
Proof.
  induction n as [|n IH]; intros rest pre done junk i j L J -> ->; [lia|]. destruct rest as [|a rest].
  - rewrite (loop_step _ _ _ (Leave done)); [cbn [unescape_loop]; rewrite app_nil_r; reflexivity|]. unfold unescape_body.
    rewrite app_nil_r. replace (len pre <=? len pre) with true by lia. rewrite slice_pre by reflexivity. reflexivity.
  - destruct junk as [|x junk]; [cbn in J; lia|]. cbn [length] in L, J. pose proof (len_nonneg rest) as P.
    assert (One : forall i' pre' rest' y, (length rest' <= length rest)%nat -> pre ++ a :: rest = pre' ++ rest' -> i' = len pre' ->
      unescape_body (pre ++ a :: rest) (len pre, len done, done ++ x :: junk) = Ret (Cont (i', len done + 1, done ++ y :: junk)) ->
      loop (S n) (unescape_body (pre ++ a :: rest)) (len pre, len done, done ++ x :: junk) = Ret ((done ++ [y]) ++ unescape_loop rest')).
    { intros i' pre' rest' y L' E Ei B. rewrite (loop_step _ _ _ _ B). rewrite E. replace (done ++ y :: junk) with ((done ++ [y]) ++ junk) by (rewrite <- app_assoc; reflexivity).
      apply IH; [lia|lia|exact Ei|]. rewrite len_app, len_cons, len_nil. lia. }
    assert (B0 : forall o, (a' <- at_ (pre ++ a :: rest) (len pre) ;;
        esc <- (if Ascii.eqb a' bsl && (len pre + 1 <? len (pre ++ a :: rest)) then b <- at_ (pre ++ a :: rest) (len pre + 1) ;; Ret (if memb [comma; dq; sp; eqs] b then Some b else None) else Ret None) ;;
        match esc with
        | Some b => out' <- put (done ++ x :: junk) (len done) b ;; Ret (Cont (len pre + 2, len done + 1, out'))
        | None => out' <- put (done ++ x :: junk) (len done) a' ;; Ret (Cont (len pre + 1, len done + 1, out'))
        end) = o -> unescape_body (pre ++ a :: rest) (len pre, len done, done ++ x :: junk) = o).
    { intros o <-. unfold unescape_body. replace (len (pre ++ a :: rest) <=? len pre) with false by (rewrite len_app, len_cons; lia). reflexivity. }
    rewrite at_app in B0 by reflexivity. cbn [bind] in B0. destruct rest as [|b rest].
    + replace (len pre + 1 <? len (pre ++ [a])) with false in B0 by (rewrite len_app, len_cons, len_nil; lia). rewrite andb_false_r in B0. cbn [bind] in B0.
      rewrite put_app in B0 by reflexivity. cbn [bind] in B0.
      rewrite (One (len pre + 1) (pre ++ [a]) [] a); [cbn [unescape_loop]; rewrite app_nil_r; reflexivity|cbn; lia|rewrite <- app_assoc; reflexivity|rewrite len_app, len_cons, len_nil; lia|].
      apply B0. reflexivity.
    + rewrite len_cons in P. pose proof (len_nonneg rest) as P'.
      replace (len pre + 1 <? len (pre ++ a :: b :: rest)) with true in B0 by (rewrite len_app, !len_cons; lia). rewrite andb_true_r in B0.
      replace (at_ (pre ++ a :: b :: rest) (len pre + 1)) with (Ret b) in B0
        by (symmetry; replace (pre ++ a :: b :: rest) with ((pre ++ [a]) ++ b :: rest) by (rewrite <- app_assoc; reflexivity); apply at_app; rewrite len_app, len_cons, len_nil; lia).
      cbn [unescape_loop]. unfold unescapable. destruct (Ascii.eqb a bsl) eqn:Ea; cbn [andb bind] in *.
      * destruct (memb [comma; dq; sp; eqs] b) eqn:Eb; cbn [bind] in B0; rewrite put_app in B0 by reflexivity; cbn [bind] in B0.
        -- rewrite (One (len pre + 2) (pre ++ [a; b]) rest b); [rewrite <- app_assoc; reflexivity|cbn [length]; lia|rewrite <- app_assoc; reflexivity|rewrite len_app, !len_cons, len_nil; lia|apply B0; reflexivity].
        -- rewrite (One (len pre + 1) (pre ++ [a]) (b :: rest) a); [rewrite <- app_assoc; reflexivity|lia|rewrite <- app_assoc; reflexivity|rewrite len_app, len_cons, len_nil; lia|apply B0; reflexivity].
      * rewrite put_app in B0 by reflexivity. cbn [bind] in B0.
        rewrite (One (len pre + 1) (pre ++ [a]) (b :: rest) a); [rewrite <- app_assoc; reflexivity|lia|rewrite <- app_assoc; reflexivity|rewrite len_app, len_cons, len_nil; lia|apply B0; reflexivity].
Qed.
Lemma Unescape_go_ok inp : Unescape_go inp = Ret (Unescape inp).
Proof.
  unfold Unescape_go, Unescape. destruct (memb inp bsl); [|reflexivity]. cbn [negb].
  apply (unescape_go_loop (S (length inp)) inp [] [] (repeat "000"%char (length inp))); [lia|rewrite repeat_length; lia|reflexivity|reflexivity].
Qed.

(* ------------------------------------------------------------------ *)
(** * influx/token.go *)

(** influx/token.go:39-43 and 60-65: for _, c := range until { if s[i] == c ... }: whether the loop body is left. *)
Definition until_loop (s until : bytes) (i : Z) : go (iter unit unit) :=
  range until 0 (fun _ c _ => x <- at_ s i ;; Ret (if Ascii.eqb x c then Leave tt else Cont tt)) tt.
(** influx/token.go:49-66: one iteration; the state is i, escaped. *)
Definition token_body (s until : bytes) (st : Z * bool) : go (iter (Z * bool) (bytes * bytes * bool)) :=
  let '(i0, escaped) := st in
  let i := i0 + 1 in
  if len s <=? i then Ret (Leave (s, [], escaped))
  else
    p <- at_ s (i - 1) ;;
    if Ascii.eqb p bsl then Ret (Cont (i, true))
    else
      o <- until_loop s until i ;;
      match o with
      | Leave _ => out <- slice s 0 i ;; rem <- slice_from s i ;; Ret (Leave (out, rem, escaped))
      | Cont _ => Ret (Cont (i, escaped))
      end.
(** influx/token.go:36-68 token. *)
Definition token_go (s until : bytes) : go (bytes * bytes * bool) :=
  if len s =? 1 then
    o <- until_loop s until 0 ;;
    match o with Leave _ => Ret ([], s, false) | Cont _ => Ret (s, [], false) end
  else loop (S (length s)) (token_body s until) (0, false).
(** influx/token.go:21-27 Token. *)
Definition Token_go (s until : bytes) : go (bytes * bytes) :=
  '(tok, remainder, escaped) <- token_go s until ;;
  tok' <- (if escaped then Unescape_go tok else Ret tok) ;;
  Ret (tok', remainder).
(** influx/token.go:31-34 TokenEscaped. *)
Definition TokenEscaped_go (s until : bytes) : go (bytes * bytes) :=
  '(tok, remainder, _) <- token_go s until ;; Ret (tok, remainder).

Lemma until_loop_ok s until i x : at_ s i = Ret x -> until_loop s until i = Ret (if memb until x then Leave tt else Cont tt).
Proof.
  intros E. unfold until_loop. set (f := fun (_ : Z) (c : ascii) (_ : unit) => x <- at_ s i ;; Ret (if Ascii.eqb x c then Leave tt else Cont tt)).
  assert (F : forall k c u, f k c u = Ret (if Ascii.eqb x c then Leave tt else Cont tt)) by (intros k c u; unfold f; rewrite E; reflexivity).
  clearbody f. generalize 0. induction until as [|c until IH]; intros k; [reflexivity|]. cbn [range memb existsb]. rewrite F. cbn [bind].
  destruct (Ascii.eqb x c); [reflexivity|]. exact (IH (k + 1)).
Qed.

Lemma token_go_loop s until : forall n rest pre prev esc, (length rest < n)%nat -> s = pre ++ prev :: rest ->
  loop n (token_body s until) (len pre, esc) =
  Ret (let (k, e) := token_scan until prev rest esc in (pre ++ prev :: firstn k rest, skipn k rest, e)).
Proof.
  induction n as [|n IH]; intros rest pre prev esc L E; [lia|]. destruct rest as [|c rest].
  - rewrite (loop_step n (token_body s until) (len pre, esc) (Leave (s, [], esc))); [rewrite E; reflexivity|]. unfold token_body. replace (len s <=? len pre + 1) with true; [reflexivity|].
    rewrite E, len_app, len_cons, len_nil. lia.
  - cbn [length] in L. pose proof (len_nonneg rest) as P.
    assert (L1 : (len s <=? len pre + 1) = false) by (rewrite E, len_app, !len_cons; lia).
    assert (A1 : at_ s (len pre + 1 - 1) = Ret prev) by (rewrite E; apply at_app; lia).
    assert (A2 : at_ s (len pre + 1) = Ret c).
    { rewrite E. replace (pre ++ prev :: c :: rest) with ((pre ++ [prev]) ++ c :: rest) by (rewrite <- app_assoc; reflexivity). apply at_app. rewrite len_app, len_cons, len_nil. lia. }
    assert (E2 : s = (pre ++ [prev]) ++ c :: rest) by (rewrite E, <- app_assoc; reflexivity).
    assert (Lp : len (pre ++ [prev]) = len pre + 1) by (rewrite len_app, len_cons, len_nil; lia).
    cbn [token_scan]. destruct (Ascii.eqb prev bsl) eqn:Ep.
    + rewrite (loop_step n (token_body s until) (len pre, esc) (Cont (len pre + 1, true))) by (unfold token_body; rewrite L1, A1; cbn [bind]; rewrite Ep; reflexivity).
      rewrite <- Lp, (IH rest _ c true) by (try exact E2; lia). destruct (token_scan until c rest true) as [k e]. cbn [firstn skipn]. rewrite <- app_assoc. reflexivity.
    + assert (B : token_body s until (len pre, esc) = if memb until c then Ret (Leave (pre ++ [prev], c :: rest, esc)) else Ret (Cont (len pre + 1, esc))).
      { unfold token_body. rewrite L1, A1. cbn [bind]. rewrite Ep, (until_loop_ok _ _ _ _ A2). cbn [bind]. destruct (memb until c); [|reflexivity].
        rewrite E2, slice_pre by lia. cbn [bind]. rewrite slice_suf by lia. reflexivity. }
      destruct (memb until c).
      * rewrite (loop_step n (token_body s until) (len pre, esc) _ B). reflexivity.
      * rewrite (loop_step n (token_body s until) (len pre, esc) _ B). rewrite <- Lp, (IH rest _ c esc) by (try exact E2; lia). destruct (token_scan until c rest esc) as [k e]. cbn [firstn skipn]. rewrite <- app_assoc. reflexivity.
Qed.
Lemma token_go_ok s until : token_go s until = Ret (let (n, e) := token until s in (firstn n s, skipn n s, e)).
Proof.
  unfold token_go. destruct s as [|c [|d s]].
  - reflexivity.
  - change (len [c] =? 1) with true. cbn [token]. rewrite (until_loop_ok [c] until 0 c eq_refl). cbn [bind]. destruct (memb until c); reflexivity.
  - replace (len (c :: d :: s) =? 1) with false by (rewrite !len_cons; pose proof (len_nonneg s); lia).
    rewrite (token_go_loop (c :: d :: s) until _ (d :: s) [] c false) by (cbn [length]; try lia; reflexivity).
    cbn [token]. destruct (token_scan until c (d :: s) false) as [k e]. reflexivity.
Qed.
Lemma Token_go_ok s until : Token_go s until = Ret (Token until s).
Proof.
  unfold Token_go, Token. rewrite token_go_ok. destruct (token until s) as [n e]. cbn [bind]. destruct e; [rewrite Unescape_go_ok|]; reflexivity.
Qed.
Lemma TokenEscaped_go_ok s until : TokenEscaped_go s until = Ret (TokenEscaped until s).
Proof. unfold TokenEscaped_go, TokenEscaped. rewrite token_go_ok. destruct (token until s) as [n e]. reflexivity. Qed.

(** influx/token.go:85-101: one iteration of QuotedString; the state is i, escaped. *)
Definition quoted_body (s : bytes) (st : Z * bool) : go (iter (Z * bool) qres) :=
  let '(i0, escaped) := st in
  let i := i0 + 1 in
  if len s <=? i then Ret (Leave QMissing)
  else
    c <- at_ s i ;;
    if Ascii.eqb c dq then
      p <- at_ s (i - 1) ;;
      if Ascii.eqb p bsl then Ret (Cont (i, true))
      else
        out <- slice s 1 i ;;
        out' <- (if escaped then Unescape_go out else Ret out) ;;
        rest <- slice_from s (i + 1) ;;
        Ret (Leave (QOk out' rest))
    else Ret (Cont (i, escaped)).
(** influx/token.go:74-102 QuotedString. *)
Definition QuotedString_go (s : bytes) : go qres :=
  if len s <? 2 then Ret QTooShort
  else
    c <- at_ s 0 ;;
    if negb (Ascii.eqb c dq) then Ret QNoQuote
    else loop (S (length s)) (quoted_body s) (0, false).

Lemma quoted_go_loop s q : forall n rest acc prev esc pre, (length rest < n)%nat -> s = q :: rev acc ++ rest -> q :: rev acc = pre ++ [prev] ->
  loop n (quoted_body s) (len pre, esc) = Ret (quoted_scan prev rest acc esc).
Proof.
  induction n as [|n IH]; intros rest acc prev esc pre L E Ep; [lia|].
  assert (E1 : s = (pre ++ [prev]) ++ rest) by (rewrite <- Ep; exact E).
  assert (Lp : len (pre ++ [prev]) = len pre + 1) by (rewrite len_app, len_cons, len_nil; lia).
  destruct rest as [|c rest].
  - rewrite (loop_step n (quoted_body s) (len pre, esc) (Leave QMissing)); [reflexivity|]. unfold quoted_body. replace (len s <=? len pre + 1) with true; [reflexivity|]. rewrite E1, app_nil_r. lia.
  - cbn [length] in L. pose proof (len_nonneg rest) as P.
    assert (L1 : (len s <=? len pre + 1) = false) by (rewrite E1, len_app, len_cons; lia).
    assert (A1 : at_ s (len pre + 1) = Ret c) by (rewrite E1; apply at_app; lia).
    assert (A2 : at_ s (len pre + 1 - 1) = Ret prev) by (rewrite E1, <- app_assoc; apply at_app; lia).
    assert (Nx : forall esc', loop n (quoted_body s) (len pre + 1, esc') = Ret (quoted_scan c rest (c :: acc) esc')).
    { intros esc'. rewrite <- Lp, <- Ep. apply IH; [lia|rewrite E; cbn [rev]; rewrite <- app_assoc; reflexivity|reflexivity]. }
    cbn [quoted_scan]. destruct (Ascii.eqb c dq) eqn:Ec.
    + destruct (Ascii.eqb prev bsl) eqn:Eb.
      * rewrite (loop_step n (quoted_body s) (len pre, esc) (Cont (len pre + 1, true))) by (unfold quoted_body; rewrite L1, A1; cbn [bind]; rewrite Ec, A2; cbn [bind]; rewrite Eb; reflexivity). apply Nx.
      * assert (S1 : slice s 1 (len pre + 1) = Ret (rev acc)).
        { rewrite E. apply (slice_mid [q] (rev acc) (c :: rest) 1); [reflexivity|]. rewrite <- Lp, <- Ep, len_cons, len_cons, len_nil. lia. }
        assert (S2 : slice_from s (len pre + 1 + 1) = Ret rest).
        { replace s with ((pre ++ [prev] ++ [c]) ++ rest) by (rewrite E1, <- !app_assoc; reflexivity). apply slice_suf. rewrite !len_app, !len_cons, len_nil. lia. }
        rewrite (loop_step n (quoted_body s) (len pre, esc) (Leave (QOk (if esc then Unescape (rev acc) else rev acc) rest))); [reflexivity|].
        unfold quoted_body. rewrite L1, A1. cbn [bind]. rewrite Ec, A2. cbn [bind]. rewrite Eb, S1. cbn [bind]. destruct esc; [rewrite Unescape_go_ok|]; cbn [bind]; rewrite S2; reflexivity.
    + rewrite (loop_step n (quoted_body s) (len pre, esc) (Cont (len pre + 1, esc))) by (unfold quoted_body; rewrite L1, A1; cbn [bind]; rewrite Ec; reflexivity). apply Nx.
Qed.
Lemma QuotedString_go_ok s : QuotedString_go s = Ret (QuotedString s).
Proof.
  unfold QuotedString_go. destruct s as [|c [|d s]]; [reflexivity|reflexivity|]. pose proof (len_nonneg s) as P.
  replace (len (c :: d :: s) <? 2) with false by (rewrite !len_cons; lia). cbn [at_ Z.ltb Z.compare Z.to_nat nth_error bind QuotedString].
  destruct (Ascii.eqb c dq); [|reflexivity]. cbn [negb]. apply (quoted_go_loop _ c _ (d :: s) [] c false []); [cbn [length]; lia|reflexivity|reflexivity].
Qed.

(* ------------------------------------------------------------------ *)
(** * influx/escape.go *)

(** copy(dst[i:], src). *)
Definition copy_into (dst : bytes) (i : Z) (src : bytes) : go bytes :=
  pre <- slice dst 0 i ;; d <- slice_from dst i ;; Ret (pre ++ firstn (length d) src ++ skipn (length src) d).
(** influx/escape.go:35-58 EscapeQuotedString: the other branch has no index expression. *)
Definition EscapeQuotedString_go (inp : bytes) : go bytes :=
  if Nat.eqb (countBytes [dq] inp) 0 then
    let out := repeat "000"%char (length inp + 2) in
    out1 <- put out 0 dq ;;
    out2 <- put out1 (len out1 - 1) dq ;;
    copy_into out2 1 inp
  else Ret (dq :: escape_loop [dq] inp ++ [dq]).
Lemma EscapeQuotedString_go_ok inp : EscapeQuotedString_go inp = Ret (EscapeQuotedString inp).
Proof.
  unfold EscapeQuotedString_go, EscapeQuotedString. destruct (Nat.eqb (countBytes [dq] inp) 0); [|reflexivity].
  replace (repeat "000"%char (length inp + 2)) with ([] ++ "000"%char :: repeat "000"%char (length inp) ++ ["000"%char])
    by (cbn [app]; replace (length inp + 2)%nat with (S (length inp + 1)) by lia; cbn [repeat]; rewrite repeat_app; reflexivity).
  rewrite put_app by reflexivity. cbn [bind app].
  rewrite (put_app (dq :: repeat "000"%char (length inp)) "000"%char [] dq) by (rewrite !len_cons, len_app, len_cons, len_nil; lia). cbn [bind app].
  unfold copy_into. change (dq :: repeat "000"%char (length inp) ++ [dq]) with ([dq] ++ (repeat "000"%char (length inp) ++ [dq])) at 1.
  rewrite slice_pre by reflexivity. cbn [bind].
  rewrite slice_one. cbn [bind app]. rewrite app_length, repeat_length. cbn [length]. rewrite firstn_all2 by lia.
  rewrite skipn_app, skipn_all2 by (rewrite repeat_length; lia). rewrite repeat_length, Nat.sub_diag. reflexivity.
Qed.

(* ------------------------------------------------------------------ *)
(** * convert/convert.go *)

(** convert/convert.go:41-60: range loop and result, without index expressions. *)
Definition toint_rest (negative : bool) (s : bytes) : option Z :=
  match toint_loop s 0 with
  | None => None
  | Some n => if negative then if two63 <? n then None else Some (wrap64 (- wrap64 n)) else if maxInt64 <? n then None else Some (wrap64 n)
  end.
(** convert/convert.go:27-61 ToInt. *)
Definition ToInt_go (s : bytes) : go (option Z) :=
  if len s <? 1 then Ret None
  else
    c <- at_ s 0 ;;
    if Ascii.eqb c "-"%char then
      s' <- slice_from s 1 ;;
      if len s' <? 1 then Ret None else Ret (toint_rest true s')
    else Ret (toint_rest false s).
Lemma ToInt_go_ok s : ToInt_go s = Ret (ToInt s).
Proof.
  unfold ToInt_go, ToInt. destruct s as [|c s]; [reflexivity|]. pose proof (len_nonneg s).
  replace (len (c :: s) <? 1) with false by (rewrite len_cons; lia). rewrite at_zero. cbn [bind]. destruct (Ascii.eqb c "-"%char); [|reflexivity].
  rewrite slice_one. cbn [bind]. destruct s as [|d s]; [reflexivity|]. pose proof (len_nonneg s). replace (len (d :: s) <? 1) with false by (rewrite len_cons; lia). reflexivity.
Qed.

(* ------------------------------------------------------------------ *)
(** * influx/tags.go *)

(** influx/tags.go:110-131: one iteration; the state is line, tags (in order). *)
Definition parse_tags_body (measurement : bytes) (st : bytes * list tag) : go (iter (bytes * list tag) pres) :=
  let '(line, tags) := st in
  if len line =? 0 then Ret (Leave (POk measurement tags []))
  else
    c <- at_ line 0 ;;
    if Ascii.eqb c sp then rest <- slice_from line 1 ;; Ret (Leave (POk measurement tags rest))
    else
      line1 <- slice_from line 1 ;;
      '(key, line2) <- Token_go line1 (lit "= ,") ;;
      bad <- (if len line2 =? 0 then Ret true else d <- at_ line2 0 ;; Ret (negb (Ascii.eqb d eqs))) ;;
      if bad : bool then Ret (Leave PErr)
      else
        line3 <- slice_from line2 1 ;;
        '(value, line4) <- Token_go line3 (lit ", ") ;;
        if len value =? 0 then Ret (Leave PErr) else Ret (Cont (line4, tags ++ [(key, value)])).
(** influx/tags.go:99-132 ParseTags. *)
Definition ParseTags_go (line : bytes) : go pres :=
  '(measurement, line1) <- Token_go line (lit ", ") ;;
  if len line1 =? 0 then Ret (POk measurement [] [])
  else loop (S (length line1)) (parse_tags_body measurement) (line1, []).

Lemma len_zero {A} (s : list A) : (len s =? 0) = match s with [] => true | _ => false end.
Proof. destruct s; [reflexivity|]. rewrite len_cons. pose proof (len_nonneg s). lia. Qed.
Lemma parse_tags_go_loop m : forall n line acc, parse_tags_loop n m line acc <> PFuel ->
  loop n (parse_tags_body m) (line, rev acc) = Ret (parse_tags_loop n m line acc).
Proof.
  induction n as [|n IH]; intros line acc N; [destruct (N eq_refl)|]. cbn [parse_tags_loop] in *. destruct line as [|c line1].
  - erewrite loop_step; [|reflexivity]. reflexivity.
  - destruct (Ascii.eqb c sp) eqn:Ec.
    + erewrite loop_step; [|unfold parse_tags_body; rewrite len_zero, at_zero; cbn [bind]; rewrite Ec, slice_one; reflexivity]. reflexivity.
    + assert (B : parse_tags_body m (c :: line1, rev acc) =
        let (key, l2) := Token (lit "= ,") line1 in
        match l2 with
        | [] => Ret (Leave PErr)
        | d :: l3 => if negb (Ascii.eqb d eqs) then Ret (Leave PErr) else
            let (value, l4) := Token (lit ", ") l3 in match value with [] => Ret (Leave PErr) | _ => Ret (Cont (l4, rev acc ++ [(key, value)])) end
        end).
      { unfold parse_tags_body. rewrite len_zero, at_zero. cbn [bind]. rewrite Ec, slice_one. cbn [bind]. rewrite Token_go_ok. cbn [bind].
        destruct (Token (lit "= ,") line1) as [key l2]. rewrite len_zero. destruct l2 as [|d l3]; [reflexivity|]. rewrite at_zero. cbn [bind]. destruct (negb (Ascii.eqb d eqs)); [reflexivity|].
        rewrite slice_one. cbn [bind]. rewrite Token_go_ok. cbn [bind]. destruct (Token (lit ", ") l3) as [value l4]. rewrite len_zero. destruct value; reflexivity. }
      destruct (Token (lit "= ,") line1) as [key l2]. destruct l2 as [|d l3]; [(erewrite loop_step; [|exact B]); reflexivity|].
      destruct (negb (Ascii.eqb d eqs)); [(erewrite loop_step; [|exact B]); reflexivity|]. destruct (Token (lit ", ") l3) as [value l4].
      destruct value as [|v value]; [(erewrite loop_step; [|exact B]); reflexivity|]. (erewrite loop_step; [|exact B]). exact (IH l4 ((key, v :: value) :: acc) N).
Qed.

(** influx/tags.go:53-61: the inner loop of SubsetOf; the state is found, foundCount. *)
Definition subset_inner_go (t : list tag) (o : tag) (st : list bool * Z) : go (iter (list bool * Z) bool) :=
  range t 0 (fun i tg '(found, cnt) =>
    f <- at_ found i ;;
    if negb f && beqs (fst tg) (fst o) && beqs (snd tg) (snd o) then
      found' <- put found i true ;;
      Ret (if cnt + 1 =? len t then Leave true else Cont (found', cnt + 1))
    else Ret (Cont (found, cnt))) st.
(** influx/tags.go:44-64 SubsetOf. *)
Definition SubsetOf_go (t other : list tag) : go bool :=
  if len t =? 0 then Ret true
  else
    r <- range other 0 (fun _ o st => subset_inner_go t o st) (repeat false (length t), 0) ;;
    match r with Leave b => Ret b | Cont _ => Ret false end.

Lemma subset_inner_go_ok num o : forall t2 f1 f2 k cnt, length f2 = length t2 -> k = len f1 ->
  range t2 k (fun i tg '(found, cnt) =>
    f <- at_ found i ;;
    if negb f && beqs (fst tg) (fst o) && beqs (snd tg) (snd o) then
      found' <- put found i true ;;
      Ret (if cnt + 1 =? Z.of_nat num then Leave true else Cont (found', cnt + 1))
    else Ret (Cont (found, cnt))) (f1 ++ f2, Z.of_nat cnt) =
  Ret (let '(fs, c, r) := subset_inner num o t2 f2 cnt in if r : bool then Leave true else Cont (f1 ++ fs, Z.of_nat c)).
Proof.
  induction t2 as [|tg t2 IH]; intros f1 f2 k cnt L ->.
  - destruct f2; [|discriminate]. reflexivity.
  - destruct f2 as [|f f2]; [discriminate|]. cbn [length] in L. cbn [range subset_inner]. rewrite at_app by reflexivity. cbn [bind].
    unfold tagEq. rewrite andb_assoc. destruct (negb f && beqs (fst tg) (fst o) && beqs (snd tg) (snd o)).
    + rewrite put_app by reflexivity. cbn [bind]. replace (Z.of_nat cnt + 1 =? Z.of_nat num) with (Nat.eqb (S cnt) num) by lia.
      destruct (Nat.eqb (S cnt) num); [reflexivity|]. replace (Z.of_nat cnt + 1) with (Z.of_nat (S cnt)) by lia.
      replace (f1 ++ true :: f2) with ((f1 ++ [true]) ++ f2) by (rewrite <- app_assoc; reflexivity).
      rewrite (IH (f1 ++ [true]) f2 (len f1 + 1) (S cnt)); [|lia|rewrite len_app, len_cons, len_nil; lia].
      destruct (subset_inner num o t2 f2 (S cnt)) as [[fs c] r]. rewrite <- app_assoc. reflexivity.
    + cbn [bind]. replace (f1 ++ f :: f2) with ((f1 ++ [f]) ++ f2) by (rewrite <- app_assoc; reflexivity).
      rewrite (IH (f1 ++ [f]) f2 (len f1 + 1) cnt); [|lia|rewrite len_app, len_cons, len_nil; lia].
      destruct (subset_inner num o t2 f2 cnt) as [[fs c] r]. rewrite <- app_assoc. reflexivity.
Qed.
Lemma subset_inner_length num o : forall t f cnt, length f = length t -> length (fst (fst (subset_inner num o t f cnt))) = length t.
Proof.
  induction t as [|tg t IH]; intros f cnt L; destruct f as [|b f]; try discriminate; [reflexivity|]. cbn [length] in L. cbn [subset_inner]. destruct (negb b && tagEq tg o).
  - destruct (Nat.eqb (S cnt) num); [cbn; lia|]. specialize (IH f (S cnt) ltac:(lia)). destruct (subset_inner num o t f (S cnt)) as [[fs c] r]. cbn in *. lia.
  - specialize (IH f cnt ltac:(lia)). destruct (subset_inner num o t f cnt) as [[fs c] r]. cbn in *. lia.
Qed.
Lemma SubsetOf_go_ok t other : SubsetOf_go t other = Ret (SubsetOf t other).
Proof.
  unfold SubsetOf_go, SubsetOf. rewrite len_zero. destruct t as [|tg t]; [reflexivity|]. set (T := tg :: t).
  assert (G : forall other found cnt k, length found = length T ->
    range other k (fun _ o st => subset_inner_go T o st) (found, Z.of_nat cnt) = Ret (Leave true) /\ subset_outer T other found cnt = true \/
    (exists st, range other k (fun _ o st => subset_inner_go T o st) (found, Z.of_nat cnt) = Ret (Cont st)) /\ subset_outer T other found cnt = false).
  { clear. induction other as [|o other IH]; intros found cnt k L; [right; split; [eexists; reflexivity|reflexivity]|].
    cbn [range subset_outer].
    assert (Hi : subset_inner_go T o (found, Z.of_nat cnt) =
      Ret (let '(fs, c, r) := subset_inner (length T) o T found cnt in if r : bool then Leave true else Cont (fs, Z.of_nat c)))
      by exact (subset_inner_go_ok (length T) o T [] found 0 cnt L eq_refl).
    rewrite Hi.
    pose proof (subset_inner_length (length T) o T found cnt L) as Hl. destruct (subset_inner (length T) o T found cnt) as [[fs c] r]. cbn [bind fst] in *.
    destruct r; [left; auto|]. exact (IH fs c (k + 1) Hl). }
  destruct (G other (repeat false (length T)) 0%nat 0 (repeat_length _ _)) as [[E1 E2]|[[st E1] E2]]; change (Z.of_nat 0) with 0 in E1; rewrite E1, E2; reflexivity.
Qed.

(* ------------------------------------------------------------------ *)
(** * influx/timestamps.go *)

(** influx/timestamps.go:63-73 and 97-108: the length test and the removal of one newline; None: too short. *)
Definition trim_go (line : bytes) : go (option bytes) :=
  let length := len line in
  if length <? 6 then Ret None
  else
    c <- at_ line (length - 1) ;;
    if Ascii.eqb c nl then l <- slice line 0 (length - 1) ;; Ret (Some l) else Ret (Some line).
(** influx/timestamps.go:79-88: for i := length - 1; i >= to; i-- *)
Definition down_body (line : bytes) (to i : Z) : go (iter Z (Z * Z)) :=
  if i <? to then Ret (Leave (-1, -1))
  else
    c <- at_ line i ;;
    if Ascii.eqb c sp then
      t <- slice_from line (i + 1) ;;
      r <- ToInt_go t ;;
      Ret (Leave match r with None => (-1, -1) | Some out => (out, i + 1) end)
    else Ret (Cont (i - 1)).
(** influx/timestamps.go:115-123: for i := from; i < length; i++ *)
Definition up_body (line : bytes) (i : Z) : go (iter Z (Z * Z)) :=
  if len line <=? i then Ret (Leave (-1, -1))
  else
    c <- at_ line i ;;
    if Ascii.eqb c sp then
      t <- slice_from line (i + 1) ;;
      r <- ToInt_go t ;;
      Ret (Leave match r with None => (-1, -1) | Some out => (out, i + 1) end)
    else Ret (Cont (i + 1)).
(** influx/timestamps.go:63-90 ExtractTimestamp. *)
Definition ExtractTimestamp_go (line0 : bytes) : go (Z * Z) :=
  o <- trim_go line0 ;;
  match o with
  | None => Ret (-1, -1)
  | Some line =>
      let to := len line - Z.of_nat MaxTsLen - 1 in
      let to := if to <? 0 then 0 else to in
      loop (S (length line)) (down_body line to) (len line - 1)
  end.
(** influx/timestamps.go:97-125 ExtractNanos. *)
Definition ExtractNanos_go (line0 : bytes) : go (Z * Z) :=
  o <- trim_go line0 ;;
  match o with
  | None => Ret (-1, -1)
  | Some line =>
      let from := len line - Z.of_nat MaxTsLen - 1 in
      let from := if from <? 0 then 0 else from in
      loop (S (length line)) (up_body line) from
  end.

Lemma at_byte_at (s : bytes) (i : nat) c : (i < length s)%nat -> exists x, at_ s (Z.of_nat i) = Ret x /\ Ascii.eqb x c = byte_at s i c.
Proof.
  intros L. destruct (at_byte s (Z.of_nat i)) as (x & E & N); [unfold len; lia|]. exists x. split; [exact E|]. unfold byte_at. rewrite Nat2Z.id in N. rewrite N. reflexivity.
Qed.
Lemma trim_go_ok line : trim_go line = Ret (if Nat.ltb (length line) 6 then None else Some (strip_nl line)).
Proof.
  unfold trim_go, strip_nl. replace (len line <? 6) with (Nat.ltb (length line) 6) by (unfold len; lia). destruct (Nat.ltb_spec (length line) 6); [reflexivity|].
  replace (len line - 1) with (Z.of_nat (length line - 1)) by (unfold len; lia). destruct (at_byte_at line (length line - 1) nl ltac:(lia)) as (x & E & <-). rewrite E. cbn [bind].
  destruct (Ascii.eqb x nl); [|reflexivity]. rewrite slice_first by (unfold len; lia). rewrite Nat2Z.id. reflexivity.
Qed.
Lemma down_go_ok line to : forall cnt n, (cnt < n)%nat -> (to + cnt <= length line)%nat ->
  loop n (down_body line (Z.of_nat to)) (Z.of_nat to + Z.of_nat cnt - 1) = Ret (ts_at line (scan_down line to cnt)).
Proof.
  induction cnt as [|cnt IH]; intros n L B; destruct n as [|n]; try lia.
  - cbn [scan_down ts_at]. rewrite (loop_step n (down_body line (Z.of_nat to)) _ (Leave (-1, -1))); [reflexivity|]. unfold down_body. replace (Z.of_nat to + Z.of_nat 0 - 1 <? Z.of_nat to) with true by lia. reflexivity.
  - cbn [scan_down]. destruct (at_byte_at line (to + cnt) sp ltac:(lia)) as (x & E & <-).
    replace (Z.of_nat to + Z.of_nat (S cnt) - 1) with (Z.of_nat (to + cnt)) by lia.
    assert (Bd : down_body line (Z.of_nat to) (Z.of_nat (to + cnt)) = if Ascii.eqb x sp then Ret (Leave (ts_at line (Some (to + cnt)%nat))) else Ret (Cont (Z.of_nat (to + cnt) - 1))).
    { unfold down_body. replace (Z.of_nat (to + cnt) <? Z.of_nat to) with false by lia. rewrite E. cbn [bind]. destruct (Ascii.eqb x sp); [|reflexivity].
      rewrite slice_skip by (unfold len; lia). cbn [bind]. rewrite ToInt_go_ok. cbn [bind ts_at]. replace (Z.to_nat (Z.of_nat (to + cnt) + 1)) with (to + cnt + 1)%nat by lia.
      destruct (ToInt (skipn (to + cnt + 1) line)); [|reflexivity]. do 3 f_equal. lia. }
    destruct (Ascii.eqb x sp); rewrite (loop_step n (down_body line (Z.of_nat to)) _ _ Bd); [reflexivity|].
    replace (Z.of_nat (to + cnt) - 1) with (Z.of_nat to + Z.of_nat cnt - 1) by lia. apply IH; lia.
Qed.
Lemma up_go_ok line : forall cnt n i, (cnt < n)%nat -> (i + cnt = length line)%nat ->
  loop n (up_body line) (Z.of_nat i) = Ret (ts_at line (scan_up line i cnt)).
Proof.
  induction cnt as [|cnt IH]; intros n i L B; destruct n as [|n]; try lia.
  - cbn [scan_up ts_at]. rewrite (loop_step n (up_body line) _ (Leave (-1, -1))); [reflexivity|]. unfold up_body. replace (len line <=? Z.of_nat i) with true by (unfold len; lia). reflexivity.
  - cbn [scan_up]. destruct (at_byte_at line i sp ltac:(lia)) as (x & E & <-).
    assert (Bd : up_body line (Z.of_nat i) = if Ascii.eqb x sp then Ret (Leave (ts_at line (Some i))) else Ret (Cont (Z.of_nat i + 1))).
    { unfold up_body. replace (len line <=? Z.of_nat i) with false by (unfold len; lia). rewrite E. cbn [bind]. destruct (Ascii.eqb x sp); [|reflexivity].
      rewrite slice_skip by (unfold len; lia). cbn [bind]. rewrite ToInt_go_ok. cbn [bind ts_at]. replace (Z.to_nat (Z.of_nat i + 1)) with (i + 1)%nat by lia.
      destruct (ToInt (skipn (i + 1) line)); [|reflexivity]. do 3 f_equal. lia. }
    destruct (Ascii.eqb x sp); rewrite (loop_step n (up_body line) _ _ Bd); [reflexivity|].
    replace (Z.of_nat i + 1) with (Z.of_nat (S i)) by lia. apply IH; lia.
Qed.
Lemma ExtractTimestamp_go_ok line : ExtractTimestamp_go line = Ret (ExtractTimestamp line).
Proof.
  unfold ExtractTimestamp_go, ExtractTimestamp. rewrite trim_go_ok. cbn [bind]. destruct (Nat.ltb (length line) 6); [reflexivity|]. set (l := strip_nl line). set (M := MaxTsLen). clearbody l M.
  replace (if len l - Z.of_nat M - 1 <? 0 then 0 else len l - Z.of_nat M - 1) with (Z.of_nat (length l - M - 1)) by (unfold len; destruct (Z.of_nat (length l) - Z.of_nat M - 1 <? 0) eqn:E; lia).
  rewrite <- (down_go_ok l (length l - M - 1) (length l - (length l - M - 1)) (S (length l))) by lia. f_equal. unfold len. lia.
Qed.
Lemma ExtractNanos_go_ok line : ExtractNanos_go line = Ret (ExtractNanos line).
Proof.
  unfold ExtractNanos_go, ExtractNanos. rewrite trim_go_ok. cbn [bind]. destruct (Nat.ltb (length line) 6); [reflexivity|]. set (l := strip_nl line). set (M := MaxTsLen). clearbody l M.
  replace (if len l - Z.of_nat M - 1 <? 0 then 0 else len l - Z.of_nat M - 1) with (Z.of_nat (length l - M - 1)) by (unfold len; destruct (Z.of_nat (length l) - Z.of_nat M - 1 <? 0) eqn:E; lia).
  apply up_go_ok; lia.
Qed.

(** influx/timestamps.go:159-168 safeSignedMult. *)
Definition safeSignedMult_go (a b : Z) : go (Z * bool) :=
  if (a =? 0) || (b =? 0) || (a =? 1) || (b =? 1) then Ret (wrap64 (a * b), true)
  else if (a =? minNanoTime) || (b =? maxNanoTime) then Ret (0, false)
  else let c := wrap64 (a * b) in q <- div c b ;; Ret (c, q =? a).
(** influx/timestamps.go:129-138 SafeCalcTime. *)
Definition SafeCalcTime_go (timestamp : Z) (precision : bytes) : go (option Z) :=
  '(t, ok) <- safeSignedMult_go timestamp (getPrecisionMultiplier precision) ;;
  Ret (if ok : bool then if (t <? minNanoTime) || (maxNanoTime <? t) then None else Some t else None).
Lemma quot_int64 c b : int64 c -> 2 <= b -> int64 (Z.quot c b).
Proof.
  unfold int64, minInt64, maxInt64, two63. intros [L H] B. split.
  - destruct (Z_le_gt_dec 0 c) as [P|P]; [pose proof (Z.quot_pos c b); lia|]. rewrite <- (Z.opp_involutive c), Z.quot_opp_l by lia.
    assert (Z.quot (- c) b <= - c) by (rewrite Z.quot_div_nonneg by lia; apply Z.div_le_upper_bound; nia). lia.
  - destruct (Z_le_gt_dec 0 c) as [P|P].
    + assert (Z.quot c b <= c) by (rewrite Z.quot_div_nonneg by lia; apply Z.div_le_upper_bound; nia). lia.
    + rewrite <- (Z.opp_involutive c), Z.quot_opp_l by lia. pose proof (Z.quot_pos (- c) b). lia.
Qed.
Lemma multiplier_pos p : 1 <= getPrecisionMultiplier p.
Proof. unfold getPrecisionMultiplier. repeat match goal with |- context [if ?b then _ else _] => destruct b end; lia. Qed.
Lemma SafeCalcTime_go_ok ts p : SafeCalcTime_go ts p = Ret (SafeCalcTime ts p).
Proof.
  unfold SafeCalcTime_go, SafeCalcTime, safeSignedMult_go, safeSignedMult. pose proof (multiplier_pos p) as M. set (b := getPrecisionMultiplier p) in *. clearbody b.
  destruct ((ts =? 0) || (b =? 0) || (ts =? 1) || (b =? 1)) eqn:E1; [reflexivity|]. destruct ((ts =? minNanoTime) || (b =? maxNanoTime)); [reflexivity|].
  unfold div. replace (b =? 0) with false by lia. cbn [bind]. rewrite (wrap64_id (Z.quot (wrap64 (ts * b)) b)); [reflexivity|]. apply quot_int64; [apply wrap64_range|lia].
Qed.
Lemma ParseTags_go_ok line : ParseTags_go line = Ret (ParseTags line).
Proof.
  pose proof (ParseTags_no_fuel line) as N. unfold ParseTags_go, ParseTags in *. rewrite Token_go_ok. cbn [bind]. destruct (Token (lit ", ") line) as [m l]. rewrite len_zero.
  destruct l as [|c l]; [reflexivity|]. exact (parse_tags_go_loop m _ _ [] N).
Qed.

(** listener/listener.go:331-346 applyTimestampPrecision; make([]byte, offset, ...) panics for a negative length. *)
Definition applyTimestampPrecision_go (line precision : bytes) : go bytes :=
  '(ts, offset) <- ExtractTimestamp_go line ;;
  if offset =? -1 then Ret line
  else
    r <- SafeCalcTime_go ts precision ;;
    match r with
    | None => Ret line
    | Some newTs =>
        if offset <? 0 then Panic
        else
          src <- slice line 0 offset ;;
          newLine <- copy_into (repeat "000"%char (Z.to_nat offset)) 0 src ;;
          Ret ((newLine ++ FormatInt newTs) ++ [nl])
    end.
Lemma scan_down_bound line to : forall cnt i, scan_down line to cnt = Some i -> (i < to + cnt)%nat.
Proof.
  induction cnt as [|cnt IH]; intros i E; [discriminate|]. cbn [scan_down] in E. destruct (byte_at line (to + cnt) sp); [injection E as <-; lia|]. specialize (IH i E). lia.
Qed.
Lemma strip_nl_length line : (length (strip_nl line) <= length line)%nat.
Proof. unfold strip_nl. destruct (byte_at _ _ _); [rewrite firstn_length; lia|lia]. Qed.
(** The offset is -1 or that of a byte after the first, within the line. *)
Lemma extract_offset line ts off : ExtractTimestamp line = (ts, off) -> off = -1 \/ 1 <= off <= len line.
Proof.
  unfold ExtractTimestamp. destruct (Nat.ltb (length line) 6); [intros E; injection E as _ <-; left; reflexivity|]. pose proof (strip_nl_length line) as L. set (l := strip_nl line) in *. set (M := MaxTsLen). clearbody l M.
  destruct (scan_down l (length l - M - 1) (length l - (length l - M - 1))) as [i|] eqn:E; cbn [ts_at]; [|intros H; injection H as _ <-; left; reflexivity].
  apply scan_down_bound in E. destruct (ToInt _); intros H; injection H as _ <-; [right; unfold len; lia|left; reflexivity].
Qed.
Lemma applyTimestampPrecision_go_ok line p : applyTimestampPrecision_go line p = Ret (applyTimestampPrecision line p).
Proof.
  unfold applyTimestampPrecision_go, applyTimestampPrecision. rewrite ExtractTimestamp_go_ok. cbn [bind]. destruct (ExtractTimestamp line) as [ts off] eqn:E.
  apply extract_offset in E. destruct (Z.eqb_spec off (-1)) as [|N]; [reflexivity|]. rewrite SafeCalcTime_go_ok. cbn [bind]. destruct (SafeCalcTime ts p) as [t|]; [|reflexivity].
  assert (B : 1 <= off <= len line) by tauto. replace (off <? 0) with false by lia. rewrite slice_first by lia. cbn [bind]. unfold copy_into.
  assert (Lf : length (firstn (Z.to_nat off) line) = Z.to_nat off) by (rewrite firstn_length; unfold len in B; lia).
  rewrite slice_first by (pose proof (len_nonneg (repeat "000"%char (Z.to_nat off))); lia). cbn [bind Z.to_nat firstn]. rewrite slice_skip by (pose proof (len_nonneg (repeat "000"%char (Z.to_nat off))); lia).
  cbn [bind Z.to_nat skipn app]. rewrite Lf, repeat_length, skipn_all2 by (rewrite repeat_length; lia). rewrite firstn_all2, app_nil_r by lia. rewrite <- !app_assoc. reflexivity.
Qed.
