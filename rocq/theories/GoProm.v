(** prometheus/parse.go statement by statement, with every index and slice expression (GoLang.v), and that it does what
    Prom.v says: in particular it panics exactly when Prom.v says so. *)
From Verif Require Import Base Convert Prom GoLang.
Local Open Scope Z_scope.
Local Open Scope go_scope.

(** bytes.Index(s, equals sign and double quote), bytes.IndexByte(s, c), bytes.IndexAny(s, chars) for ASCII chars: the first position or -1. *)
Definition position (o : option nat) : Z := match o with Some j => Z.of_nat j | None => -1 end.
Definition IndexEqDq (s : bytes) : Z := position (index_eqdq s).
Definition IndexByte (s : bytes) (c : ascii) : Z := position (index_of (Ascii.eqb c) s).
Definition IndexAny (s chars : bytes) : Z := position (index_of (memb chars) s).

(** prometheus/parse.go:101-127: one iteration of the loop of parseLabels; None: an error is returned. *)
Definition labels_body (s : bytes) (st : Z * list (bytes * bytes)) : go (iter (Z * list (bytes * bytes)) (option (list (bytes * bytes) * Z))) :=
  let '(i, out) := st in
  t <- slice_from s i ;;
  let j := IndexEqDq t in
  if j =? -1 then Ret (Leave None)
  else
    name <- GoLang.slice s i (i + j) ;;
    let i := i + j + 2 in
    t <- slice_from s i ;;
    let j := IndexByte t dq in
    if j =? -1 then Ret (Leave None)
    else
      value <- GoLang.slice s i (i + j) ;;
      let i := i + j + 1 in
      let out := out ++ [(name, value)] in
      c <- at_ s i ;;
      if Ascii.eqb c rbrace then Ret (Leave (Some (out, i + 1)))
      else if Ascii.eqb c comma then Ret (Cont (i + 1, out))
      else Ret (Leave None).
(** prometheus/parse.go:94-128 parseLabels. *)
Definition parseLabels_go (s : bytes) : go (option (list (bytes * bytes) * Z)) :=
  c <- at_ s 0 ;;
  if Ascii.eqb c rbrace then Ret (Some ([], 1)) else loop (S (length s)) (labels_body s) (0, []).

(** prometheus/parse.go:73-91: the rest of ParseMetric, from the name, the labels and i. *)
Definition numbers_go (s name : bytes) (labels : list (bytes * bytes)) (i : Z) : go (option (bytes * list (bytes * bytes) * Z * Z)) :=
  let i := i + 1 in
  t <- slice_from s i ;;
  let j := IndexByte t sp in
  j <- (if j =? -1 then t' <- slice_from s i ;; Ret (len t') else Ret j) ;;
  v <- GoLang.slice s i (i + j) ;;
  match ToInt v with
  | None => Ret None
  | Some value =>
      let i := i + j in
      if i <? len s then
        t <- slice_from s (i + 1) ;;
        match ToInt t with None => Ret None | Some ms => Ret (Some (name, labels, value, ms)) end
      else Ret (Some (name, labels, value, 0))
  end.
(** prometheus/parse.go:49-92 ParseMetric: name, labels, value and milliseconds; None: an error. *)
Definition ParseMetric_go (s : bytes) : go (option (bytes * list (bytes * bytes) * Z * Z)) :=
  if len s <? 3 then Ret None
  else
    let i := IndexAny s [sp; lbrace] in
    if i =? -1 then Ret None
    else
      name <- GoLang.slice s 0 i ;;
      c <- at_ s i ;;
      if Ascii.eqb c lbrace then
        let i := i + 1 in
        t <- slice_from s i ;;
        r <- parseLabels_go t ;;
        match r with
        | None => Ret None
        | Some (labels, n) => numbers_go s name labels (i + n)
        end
      else numbers_go s name [] i.

(** prometheus/parse.go:27-40 ParseMetrics: what it gives to set.Update, in order. *)
Definition metrics_body (_ : Z) (line : bytes) (acc : list (bytes * list (bytes * bytes) * Z * Z))
  : go (iter (list (bytes * list (bytes * bytes) * Z * Z)) unit) :=
  if len line =? 0 then Ret (Cont acc)
  else r <- ParseMetric_go line ;; match r with None => Ret (Leave tt) | Some m => Ret (Cont (acc ++ [m])) end.
Definition ParseMetrics_go (s : bytes) : go (option (list (bytes * list (bytes * bytes) * Z * Z))) :=
  r <- range (split_nl s) 0 metrics_body [] ;; Ret (match r with Cont ms => Some ms | Leave _ => None end).

(* ------------------------------------------------------------------ *)

Definition says_go (m : metric) : bytes * list (bytes * bytes) * Z * Z := (Name m, Labels m, m_value m, m_ms m).

Lemma index_of_lt f s j : index_of f s = Some j -> (j < length s)%nat.
Proof.
  revert j. induction s as [|c s IH]; intros j; cbn [index_of]; [discriminate|]. destruct (f c); [intros E; inversion E; cbn; lia|].
  destruct (index_of f s); [|discriminate]. intros E. inversion E; subst. specialize (IH _ eq_refl). cbn. lia.
Qed.
Lemma index_eqdq_lt s j : index_eqdq s = Some j -> (j + 1 < length s)%nat.
Proof.
  revert j. induction s as [|c s IH]; intros j; [discriminate|]. destruct s as [|d s]; [discriminate|].
  change (index_eqdq (c :: d :: s)) with (if Ascii.eqb c eqs && Ascii.eqb d dq then Some O else option_map S (index_eqdq (d :: s))).
  destruct (_ && _); [intros E; inversion E; cbn; lia|].
  destruct (index_eqdq (d :: s)) as [k|]; [|discriminate]. intros E. inversion E; subst. specialize (IH _ eq_refl). cbn [length] in *. lia.
Qed.

Lemma at_nat {A} (s : list A) i : at_ s (Z.of_nat i) = match nth_error s i with Some x => Ret x | None => Panic end.
Proof. unfold at_. replace (Z.of_nat i <? 0) with false by lia. rewrite Nat2Z.id. reflexivity. Qed.
Lemma from_nat {A} (s : list A) i : slice_from s (Z.of_nat i) = if Nat.ltb (length s) i then Panic else Ret (skipn i s).
Proof.
  destruct (Nat.ltb_spec (length s) i).
  - unfold slice_from, GoLang.slice, len. replace (_ && _) with false by lia. reflexivity.
  - rewrite slice_skip by (unfold len; lia). rewrite Nat2Z.id. reflexivity.
Qed.
Lemma slice_nat {A} (s : list A) i j : (i + j <= length s)%nat -> GoLang.slice s (Z.of_nat i) (Z.of_nat i + Z.of_nat j) = Ret (firstn j (skipn i s)).
Proof.
  intros H. unfold GoLang.slice, len. replace (_ && _) with true by lia. rewrite Nat2Z.id.
  replace (Z.to_nat (Z.of_nat i + Z.of_nat j - Z.of_nat i)) with j by lia. reflexivity.
Qed.

Lemma labels_loop_ok line base : (base <= length line)%nat -> forall fuel i out, (i <= length line - base)%nat -> (length line - base - i < fuel)%nat ->
  loop fuel (labels_body (skipn base line)) (Z.of_nat i, map (label_text line) out) =
  match labels_parse fuel (skipn base line) base i out with
  | LErr => Ret None
  | LPanic => Panic
  | LOk ls n => Ret (Some (map (label_text line) ls, Z.of_nat n))
  end.
Proof.
  intros Hb. set (s := skipn base line).
  assert (Ls : length s = (length line - base)%nat) by (unfold s; rewrite skipn_length; auto).
  assert (SL : forall i j, Prom.slice line ((base + i)%nat, j) = firstn j (skipn i s)).
  { intros i j. unfold Prom.slice, s. cbn [fst snd]. f_equal. clear. revert line. induction base as [|b IH]; intros line; [reflexivity|].
    destruct line; cbn [skipn Nat.add]; [rewrite skipn_nil; reflexivity|apply IH]. }
  induction fuel as [|fuel IH]; intros i out Hi Hf; [lia|].
  cbn [loop labels_parse]. unfold labels_body at 1. rewrite from_nat. replace (Nat.ltb (length s) i) with false by lia.
  cbn [bind]. unfold IndexEqDq. destruct (index_eqdq (skipn i s)) as [j|] eqn:Ej; cbn [position]; [|reflexivity].
  apply index_eqdq_lt in Ej. rewrite skipn_length in Ej. replace (Z.of_nat j =? -1) with false by lia.
  rewrite slice_nat by lia. cbn [bind]. replace (Z.of_nat i + Z.of_nat j + 2) with (Z.of_nat (i + j + 2)) by lia.
  rewrite from_nat. replace (Nat.ltb (length s) (i + j + 2)) with false by lia. cbn [bind]. unfold IndexByte.
  destruct (index_of (Ascii.eqb dq) (skipn (i + j + 2) s)) as [k|] eqn:Ek; cbn [position]; [|reflexivity].
  apply index_of_lt in Ek. rewrite skipn_length in Ek. replace (Z.of_nat k =? -1) with false by lia.
  rewrite slice_nat by lia. cbn [bind]. replace (Z.of_nat (i + j + 2) + Z.of_nat k + 1) with (Z.of_nat (i + j + 2 + k + 1)) by lia.
  rewrite at_nat. destruct (nth_error s (i + j + 2 + k + 1)) as [c|] eqn:Ec; cbn [bind]; [|reflexivity].
  assert (E1 : map (label_text line) out ++ [(firstn j (skipn i s), firstn k (skipn (i + j + 2) s))] =
               map (label_text line) (out ++ [(((base + i)%nat, j), ((base + (i + j + 2))%nat, k))])).
  { rewrite map_app. cbn [map]. unfold label_text at 3. cbn [fst snd]. rewrite !SL. reflexivity. }
  rewrite E1. destruct (Ascii.eqb c rbrace); cbn [bind].
  - replace (Z.of_nat (i + j + 2 + k + 1) + 1) with (Z.of_nat (i + j + 2 + k + 1 + 1)) by lia. reflexivity.
  - destruct (Ascii.eqb c comma); cbn [bind]; [|reflexivity].
    replace (Z.of_nat (i + j + 2 + k + 1) + 1) with (Z.of_nat (i + j + 2 + k + 1 + 1)) by lia.
    assert (i + j + 2 + k + 1 < length s)%nat by (apply nth_error_Some; congruence). apply IH; lia.
Qed.

Lemma parseLabels_go_ok line base : (base <= length line)%nat ->
  parseLabels_go (skipn base line) =
  match parseLabels (skipn base line) base with
  | LErr => Ret None
  | LPanic => Panic
  | LOk ls n => Ret (Some (map (label_text line) ls, Z.of_nat n))
  end.
Proof.
  intros Hb. unfold parseLabels_go, parseLabels. pose proof (labels_loop_ok line base Hb (S (length (skipn base line))) 0%nat []) as L.
  destruct (skipn base line) as [|c s] eqn:E; [reflexivity|]. change (at_ (c :: s) 0) with (@Ret ascii c). cbn [bind].
  destruct (Ascii.eqb c rbrace); [reflexivity|]. apply L; [lia|]. rewrite <- E, skipn_length. lia.
Qed.

Definition outcome_of (r : mres) : go (option (bytes * list (bytes * bytes) * Z * Z)) :=
  match r with MErr => Ret None | MPanic => Panic | MOk m => Ret (Some (says_go m)) end.

Lemma numbers_go_ok s n ls i : numbers_go s (firstn n s) (map (label_text s) ls) (Z.of_nat i) = outcome_of (parse_numbers s n ls (i + 1)).
Proof.
  unfold numbers_go, parse_numbers. replace (Z.of_nat i + 1) with (Z.of_nat (i + 1)) by lia. rewrite from_nat.
  destruct (Nat.ltb_spec (length s) (i + 1)) as [H|H]; [reflexivity|]. cbn [bind].
  set (j := match index_of (Ascii.eqb sp) (skipn (i + 1) s) with Some j => j | None => length (skipn (i + 1) s) end).
  assert (Ej : (if IndexByte (skipn (i + 1) s) sp =? -1 then Ret (len (skipn (i + 1) s)) else Ret (IndexByte (skipn (i + 1) s) sp)) = Ret (Z.of_nat j)).
  { unfold IndexByte, j. destruct (index_of (Ascii.eqb sp) (skipn (i + 1) s)) as [k|]; cbn [position]; [|reflexivity].
    replace (Z.of_nat k =? -1) with false by lia. reflexivity. }
  rewrite Ej. cbn [bind].
  assert (Lj : (i + 1 + j <= length s)%nat).
  { unfold j. destruct (index_of (Ascii.eqb sp) (skipn (i + 1) s)) as [k|] eqn:E; [apply index_of_lt in E|]; rewrite skipn_length in *; lia. }
  rewrite slice_nat by lia. cbn [bind]. destruct (ToInt (firstn j (skipn (i + 1) s))) as [v|]; [|reflexivity].
  replace (Z.of_nat (i + 1) + Z.of_nat j) with (Z.of_nat (i + 1 + j)) by lia. unfold len.
  destruct (Nat.ltb_spec (i + 1 + j) (length s)) as [L|L].
  - replace (Z.of_nat (i + 1 + j) <? Z.of_nat (length s)) with true by lia.
    replace (Z.of_nat (i + 1 + j) + 1) with (Z.of_nat (i + 1 + j + 1)) by lia. rewrite from_nat.
    replace (Nat.ltb (length s) (i + 1 + j + 1)) with false by lia. cbn [bind].
    destruct (ToInt (skipn (i + 1 + j + 1) s)); reflexivity.
  - replace (Z.of_nat (i + 1 + j) <? Z.of_nat (length s)) with false by lia. reflexivity.
Qed.

Lemma ParseMetric_go_ok s : ParseMetric_go s = outcome_of (ParseMetric s).
Proof.
  unfold ParseMetric_go, ParseMetric, len. destruct (Nat.ltb_spec (length s) 3) as [L|L].
  { replace (Z.of_nat (length s) <? 3) with true by lia. reflexivity. }
  replace (Z.of_nat (length s) <? 3) with false by lia. unfold IndexAny.
  destruct (index_of (memb [sp; lbrace]) s) as [i|] eqn:E; cbn [position]; [|reflexivity].
  replace (Z.of_nat i =? -1) with false by lia. apply index_of_lt in E.
  replace (GoLang.slice s 0 (Z.of_nat i)) with (Ret (firstn i s)).
  2:{ symmetry. change (Z.of_nat i) with (Z.of_nat 0 + Z.of_nat i). change 0 with (Z.of_nat 0) at 1. rewrite slice_nat by lia. reflexivity. }
  cbn [bind]. rewrite at_nat. destruct (nth_error s i) as [c|] eqn:Ec; [|apply nth_error_None in Ec; lia]. cbn [bind].
  rewrite (nth_error_nth s i sp Ec). destruct (Ascii.eqb c lbrace).
  - replace (Z.of_nat i + 1) with (Z.of_nat (i + 1)) by lia. rewrite from_nat. replace (Nat.ltb (length s) (i + 1)) with false by lia.
    cbn [bind]. rewrite parseLabels_go_ok by lia. destruct (parseLabels (skipn (i + 1) s) (i + 1)) as [| |ls n]; [reflexivity|reflexivity|].
    cbn [bind]. replace (Z.of_nat (i + 1) + Z.of_nat n) with (Z.of_nat (i + 1 + n)) by lia. apply numbers_go_ok.
  - apply (numbers_go_ok s i [] i).
Qed.

Section Metrics.
  Variable gs : forall A : Type, (A -> A -> bool) -> list A -> list A.

  (** The set is made of the metrics by Update. *)
  Lemma metrics_range : forall lines k acc set,
    range lines k metrics_body acc =
    match parse_lines gs lines set with
    | PsErr => Ret (Leave tt)
    | PsPanic => Panic
    | PsOk _ => match range lines k metrics_body acc with Ret r => Ret r | _ => Unfinished end
    end /\
    (forall set', parse_lines gs lines set = PsOk set' ->
       exists ms, range lines k metrics_body acc = Ret (Cont (acc ++ map says_go ms)) /\ set' = fold_left (Update gs) ms set).
  Proof.
    induction lines as [|line lines IH]; intros k acc set; cbn [range parse_lines].
    - split; [reflexivity|]. intros set' E. inversion E; subst. exists []. rewrite app_nil_r. auto.
    - destruct line as [|c line].
      + change (metrics_body k [] acc) with (@Ret (iter (list (bytes * list (bytes * bytes) * Z * Z)) unit) (Cont acc)). cbn [bind]. apply IH.
      + assert (Eb : metrics_body k (c :: line) acc =
          match ParseMetric (c :: line) with MErr => Ret (Leave tt) | MPanic => Panic | MOk m => Ret (Cont (acc ++ [says_go m])) end).
        { unfold metrics_body. replace (len (c :: line) =? 0) with false by (rewrite len_cons; pose proof (len_nonneg line); lia).
          rewrite ParseMetric_go_ok. destruct (ParseMetric (c :: line)); reflexivity. }
        rewrite Eb. clear Eb. destruct (ParseMetric (c :: line)) as [| |m]; cbn [bind].
        * split; [reflexivity|discriminate].
        * split; [reflexivity|discriminate].
        * destruct (IH (k + 1) (acc ++ [says_go m]) (Update gs set m)) as [I1 I2]. split; [exact I1|].
          intros set' E. destruct (I2 set' E) as (ms & R & ->). exists (m :: ms). rewrite <- app_assoc in R. split; [exact R|reflexivity].
  Qed.

  Lemma ParseMetrics_go_ok data :
    match ParseMetrics gs data with
    | PsErr => ParseMetrics_go data = Ret None
    | PsPanic => ParseMetrics_go data = Panic
    | PsOk set => exists ms, ParseMetrics_go data = Ret (Some (map says_go ms)) /\ set = fold_left (Update gs) ms []
    end.
  Proof.
    unfold ParseMetrics, ParseMetrics_go. destruct (metrics_range (split_nl data) 0 [] []) as [H1 H2].
    destruct (parse_lines gs (split_nl data) []) as [| |set].
    - rewrite H1. reflexivity.
    - rewrite H1. reflexivity.
    - destruct (H2 set eq_refl) as (ms & R & ->). rewrite R. exists ms. split; reflexivity.
  Qed.
End Metrics.
