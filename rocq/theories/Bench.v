(** Model of cmd/benchcheck/benchcheck.go. *)
From Verif Require Import Base Convert NumSpec NumProofs.
Local Open Scope Z_scope.

(** One row of a table of benchstat: the text of its delta column is all that findProblems reads. *)
Definition row := bytes.
(** A table with its rows. *)
Definition table := list row.

(** strings.TrimRight(s, "%"). *)
Fixpoint dropPercents (s : bytes) : bytes := match s with [] => [] | c :: r => if Ascii.eqb c "%"%char then dropPercents r else s end.
Definition TrimPercent (s : bytes) : bytes := rev (dropPercents (rev s)).

Section Bench.
  (** strconv.ParseFloat, as hundredths: the deltas of benchstat have two decimals.  [None] is the error. *)
  Variable parseFloat : bytes -> option Z.
  (** The flag -max-delta, in hundredths of a percent (benchcheck.go:36; a multiple of a hundredth, a simplification). *)
  Variable maxDelta : Z.

  (** cmd/benchcheck/benchcheck.go:84-98, the inner loop: an error, a problem, or go on. *)
  Inductive found := FErr | FProblem | FNone.
  Fixpoint findRow (rows : table) : found :=
    match rows with
    | [] => FNone
    | r :: rest =>
        if beqs r (lit "~") then findRow rest
        else match parseFloat (TrimPercent r) with
             | None => FErr
             | Some d => if maxDelta <? d then FProblem else findRow rest
             end
    end.
  (** cmd/benchcheck/benchcheck.go:82-100 findProblems. *)
  Fixpoint findProblems (ts : list table) : found :=
    match ts with
    | [] => FNone
    | t :: rest => match findRow t with FNone => findProblems rest | f => f end
    end.

  (** cmd/benchcheck/benchcheck.go:39-80 main after the tables are made: the exit status. *)
  Definition benchcheck (ts : list table) : Z := match findProblems ts with FErr | FProblem => 1 | FNone => 0 end.
End Bench.

(* ------------------------------------------------------------------ *)
(** * Specification *)

(** A benchmark measured in both files: whether more is better (benchstat's metric speed), and if the difference is
    significant, the change of the mean in hundredths of a percent (rounded, as benchstat prints it). *)
Record measured := Measured { more_is_better : bool; change : option Z }.

(** What benchstat puts in the delta column: a tilde, or the change with sign, two decimals and a percent sign
    (golang.org/x/perf/benchstat tables.go: fmt.Sprintf("%+.2f%%", pct), and 0.00% for equal means). *)
Definition two_digits (n : Z) : bytes := [digit_chr (n / 10); digit_chr (n mod 10)].
Definition delta_number (h : Z) : bytes :=
  (if h =? 0 then [] else if h <? 0 then lit "-" else lit "+") ++ FormatInt (Z.abs h / 100) ++ lit "." ++ two_digits (Z.abs h mod 100).
Definition delta_text (m : measured) : row := match change m with None => lit "~" | Some h => delta_number h ++ lit "%" end.

(** The parser reads back what was printed, as long as it fits. *)
Definition fits (h : Z) : Prop := Z.abs h < 10 ^ 18.
Definition reads_back (parseFloat : bytes -> option Z) : Prop := forall h, fits h -> parseFloat (delta_number h) = Some h.
Definition plausible (m : measured) : Prop := forall h, change m = Some h -> fits h.

(** By how much the benchmark got worse. *)
Definition worse_by (m : measured) (d : Z) : Prop :=
  match change m with None => False | Some h => d = if more_is_better m then - h else h end.
(** A regression beyond the limit. *)
Definition regressed (limit : Z) (m : measured) : Prop := exists d, worse_by m d /\ limit < d.

(* ------------------------------------------------------------------ *)
(** * Proofs *)

Lemma digit_not_percent d : 0 <= d < 10 -> digit_chr d <> "%"%char.
Proof.
  intros H E. assert (C : d = 0 \/ d = 1 \/ d = 2 \/ d = 3 \/ d = 4 \/ d = 5 \/ d = 6 \/ d = 7 \/ d = 8 \/ d = 9) by lia.
  repeat (destruct C as [-> | C]; [discriminate E|]). subst d. discriminate E.
Qed.

Lemma trim_number h : TrimPercent (delta_number h ++ lit "%") = delta_number h.
Proof.
  unfold TrimPercent. rewrite rev_app_distr. cbn [lit list_ascii_of_string rev app dropPercents]. change (Ascii.eqb "%" "%") with true. cbv iota.
  unfold delta_number, two_digits. rewrite !rev_app_distr. cbn [rev app]. cbn [dropPercents].
  assert (N : Ascii.eqb (digit_chr ((Z.abs h mod 100) mod 10)) "%"%char = false).
  { apply Ascii.eqb_neq. apply digit_not_percent. apply Z.mod_pos_bound. lia. }
  rewrite N. cbn [rev]. rewrite <- !app_assoc. rewrite !rev_app_distr, !rev_involutive. cbn [rev app]. rewrite <- !app_assoc. reflexivity.
Qed.

Lemma number_not_tilde h : beqs (delta_number h ++ lit "%") (lit "~") = false.
Proof.
  apply beqs_neq. intros E. apply (f_equal (@length ascii)) in E. rewrite app_length in E. unfold delta_number in E. rewrite !app_length in E.
  cbn [length lit list_ascii_of_string two_digits] in E. change (list ascii) with bytes in *. lia.
Qed.

Lemma find_row pf limit : reads_back pf -> forall ms, Forall plausible ms ->
  findRow pf limit (map delta_text ms) = FNone /\ (forall m h, In m ms -> change m = Some h -> h <= limit) \/
  findRow pf limit (map delta_text ms) = FProblem /\ (exists m h, In m ms /\ change m = Some h /\ limit < h).
Proof.
  intros R. induction ms as [|m ms IH]; intros P; [left; split; [reflexivity|intros m h []]|]. inversion P as [|? ? P1 P2]; subst. specialize (IH P2).
  assert (St : forall h, change m = Some h -> findRow pf limit (map delta_text (m :: ms)) = if limit <? h then FProblem else findRow pf limit (map delta_text ms)).
  { intros h E. cbn [map findRow]. assert (D : delta_text m = delta_number h ++ lit "%") by (unfold delta_text; rewrite E; reflexivity). rewrite D, number_not_tilde, trim_number, (R h (P1 h E)). reflexivity. }
  destruct (change m) as [h|] eqn:E.
  - rewrite (St h eq_refl). destruct (Z.ltb_spec limit h) as [L|L].
    + right. split; [reflexivity|]. exists m, h. split; [left; reflexivity|auto].
    + destruct IH as [[E1 F]|[E1 (m' & h' & I1 & C1 & L1)]]; [left|right]; (split; [exact E1|]).
      * intros m' h' [<-|I1] C1; [congruence|eauto].
      * exists m', h'. split; [right; exact I1|auto].
  - assert (E0 : findRow pf limit (map delta_text (m :: ms)) = findRow pf limit (map delta_text ms)) by (cbn [map findRow]; unfold delta_text at 1; rewrite E; reflexivity).
    rewrite E0. destruct IH as [[E1 F]|[E1 (m' & h' & I1 & C1 & L1)]]; [left|right]; (split; [exact E1|]).
    + intros m' h' [<-|I1] C1; [congruence|eauto].
    + exists m', h'. split; [right; exact I1|auto].
Qed.

Lemma benchcheck_iff pf limit mss : reads_back pf -> Forall (Forall plausible) mss ->
  (benchcheck pf limit (map (map delta_text) mss) = 1 <-> exists ms m h, In ms mss /\ In m ms /\ change m = Some h /\ limit < h) /\
  (benchcheck pf limit (map (map delta_text) mss) = 1 \/ benchcheck pf limit (map (map delta_text) mss) = 0).
Proof.
  intros R P. unfold benchcheck. split.
  - induction P as [|ms mss P1 P IH]; [split; [discriminate|intros (ms & m & h & [] & _)]|]. cbn [map findProblems].
    destruct (find_row pf limit R ms P1) as [[-> F]|[-> (m & h & I1 & C1 & L1)]].
    + rewrite IH. split; intros (ms' & m & h & I1 & I2 & C1 & L1); exists ms', m, h; [split; [right; exact I1|auto]|].
      destruct I1 as [<-|I1]; [specialize (F m h I2 C1); lia|auto].
    + split; [intros _|reflexivity]. exists ms, m, h. split; [left; reflexivity|auto].
  - destruct (findProblems _ _ _); auto.
Qed.

Lemma benchcheck_costs pf limit mss : reads_back pf -> Forall (Forall plausible) mss -> (forall ms m, In ms mss -> In m ms -> more_is_better m = false) ->
  (benchcheck pf limit (map (map delta_text) mss) = 1 <-> exists ms m, In ms mss /\ In m ms /\ regressed limit m).
Proof.
  intros R P C. destruct (benchcheck_iff pf limit mss R P) as [-> _]. unfold regressed, worse_by. split.
  - intros (ms & m & h & I1 & I2 & E & L). exists ms, m. split; [exact I1|]. split; [exact I2|]. exists h. rewrite E, (C _ _ I1 I2). auto.
  - intros (ms & m & I1 & I2 & d & E & L). rewrite (C _ _ I1 I2) in E. destruct (change m) as [h|] eqn:Eh; [|destruct E]. subst d. exists ms, m, h. auto.
Qed.

(** For metrics where more is better it is the wrong way round. *)
Lemma benchcheck_speed pf limit h : reads_back pf -> fits h -> 0 <= limit < h ->
  let better := Measured true (Some h) in let worse := Measured true (Some (- h)) in
  benchcheck pf limit [[delta_text better]] = 1 /\ ~ regressed limit better /\
  benchcheck pf limit [[delta_text worse]] = 0 /\ regressed limit worse.
Proof.
  intros R P L better worse. subst better worse.
  assert (Pl : forall b x, fits x -> Forall (Forall plausible) [[Measured b (Some x)]]) by (intros b x Hx; constructor; [constructor; [intros y E; injection E as <-; exact Hx|constructor]|constructor]).
  assert (Pn : fits (- h)) by (unfold fits in *; rewrite Z.abs_opp; exact P). split; [|split; [|split]].
  - apply (benchcheck_iff pf limit [[Measured true (Some h)]] R (Pl _ _ P)). exists [Measured true (Some h)], (Measured true (Some h)), h. cbn. intuition.
  - intros (d & E & X). cbn in E. lia.
  - destruct (benchcheck_iff pf limit [[Measured true (Some (- h))]] R (Pl _ _ Pn)) as [I1 [E|E]]; [|exact E].
    apply I1 in E. destruct E as (ms & m & h' & [<-|[]] & [<-|[]] & E & X). injection E as <-. lia.
  - exists h. split; [cbn; lia|lia].
Qed.

(** A parser of such numbers. *)
Definition read_plain (s : bytes) : option Z :=
  let n := (length s - 3)%nat in
  match ToInt (firstn n s), skipn n s with
  | Some i, [dot; a; b] => if Ascii.eqb dot "."%char then match digit_val a, digit_val b with Some x, Some y => Some (i * 100 + x * 10 + y) | _, _ => None end else None
  | _, _ => None
  end.
Definition read_delta (s : bytes) : option Z :=
  match s with
  | c :: r => if Ascii.eqb c "-"%char then option_map Z.opp (read_plain r) else if Ascii.eqb c "+"%char then read_plain r else read_plain s
  | [] => None
  end.

Lemma digit_back d : 0 <= d < 10 -> digit_val (digit_chr d) = Some d.
Proof.
  intros H. assert (C : d = 0 \/ d = 1 \/ d = 2 \/ d = 3 \/ d = 4 \/ d = 5 \/ d = 6 \/ d = 7 \/ d = 8 \/ d = 9) by lia.
  repeat (destruct C as [-> | C]; [reflexivity|]). subst d. reflexivity.
Qed.
Lemma read_plain_back n : 0 <= n < 10 ^ 18 -> read_plain (FormatInt (n / 100) ++ lit "." ++ two_digits (n mod 100)) = Some n.
Proof.
  intros H. unfold read_plain. set (f := FormatInt (n / 100)).
  assert (E : (length (f ++ lit "." ++ two_digits (n mod 100)) - 3 = length f)%nat) by (rewrite app_length; cbn; change (list ascii) with bytes; lia).
  change (list ascii) with bytes in *. rewrite E. rewrite firstn_app, firstn_all, skipn_app, skipn_all. rewrite Nat.sub_diag. cbn [firstn skipn]. rewrite app_nil_r.
  unfold f. assert (I1 : int64 (n / 100)).
  { assert (0 <= n / 100 <= n) by (split; [apply Z.div_pos; lia|apply Z.div_le_upper_bound; lia]). unfold int64, minInt64, maxInt64, two63. lia. }
  rewrite ToInt_FormatInt by exact I1. cbn [app lit list_ascii_of_string two_digits]. change (Ascii.eqb "." ".") with true. cbv iota.
  assert (M : 0 <= n mod 100 < 100) by (apply Z.mod_pos_bound; lia).
  rewrite (digit_back (n mod 100 / 10)) by (split; [apply Z.div_pos; lia|apply Z.div_lt_upper_bound; lia]).
  rewrite (digit_back ((n mod 100) mod 10)) by (apply Z.mod_pos_bound; lia).
  f_equal. pose proof (Z.div_mod n 100 ltac:(lia)). pose proof (Z.div_mod (n mod 100) 10 ltac:(lia)). lia.
Qed.
Lemma FormatInt_plain_head f : forall m acc, (0 < f)%nat -> 0 <= m -> exists c r, dec_digits f m acc = c :: r /\ (48 <= bval c <= 57)%N.
Proof.
  induction f as [|f IH]; intros m acc F M; [lia|]. cbn [dec_digits].
  assert (Hd : (48 <= bval (digit_chr (m mod 10)) <= 57)%N).
  { assert (B : 0 <= m mod 10 < 10) by (apply Z.mod_pos_bound; lia). revert B. generalize (m mod 10). intros d B.
    assert (C : d = 0 \/ d = 1 \/ d = 2 \/ d = 3 \/ d = 4 \/ d = 5 \/ d = 6 \/ d = 7 \/ d = 8 \/ d = 9) by lia.
    repeat (destruct C as [-> | C]; [vm_compute; split; discriminate|]). subst d. vm_compute; split; discriminate. }
  destruct (m / 10 =? 0); [eauto|]. destruct f as [|f]; [cbn [dec_digits]; eauto|]. apply IH; [lia|]. apply Z.div_pos; lia.
Qed.
Lemma plain_head n : 0 <= n < 10 ^ 18 -> exists c r, FormatInt (n / 100) = c :: r /\ (48 <= bval c <= 57)%N.
Proof.
  intros H. unfold FormatInt. assert (P : 0 <= n / 100) by (apply Z.div_pos; lia). destruct (Z.ltb_spec (n / 100) 0); [lia|].
  destruct (FormatInt_plain_head 20 (n / 100) []) as (c & r & E & B); auto; [lia|]. exists c, r. auto.
Qed.

Lemma read_delta_back : reads_back read_delta.
Proof.
  intros h F. unfold fits in F. assert (A : 0 <= Z.abs h < 10 ^ 18) by lia. pose proof (read_plain_back _ A) as R. destruct (plain_head _ A) as (c & r & E & B).
  unfold delta_number. destruct (Z.eqb_spec h 0) as [-> | N]; [|destruct (Z.ltb_spec h 0) as [L|L]].
  - vm_compute. reflexivity.
  - cbn [lit list_ascii_of_string app read_delta]. change (Ascii.eqb "-" "-") with true. cbv iota. cbn [lit list_ascii_of_string app] in R. rewrite R. cbn [option_map]. f_equal. lia.
  - cbn [lit list_ascii_of_string app read_delta]. change (Ascii.eqb "+" "-") with false. change (Ascii.eqb "+" "+") with true. cbv iota. cbn [lit list_ascii_of_string app] in R. rewrite R. f_equal. lia.
Qed.
