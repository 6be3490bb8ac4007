(** How sizes and durations in a configuration file are read.

    config/duration.go:33-38 Duration.UnmarshalText calls time.ParseDuration (Go 1.15, time/format.go); the sizes are
    datasize.ByteSize (config/config.go:52, 60, 61), whose UnmarshalText is that of github.com/c2h5oh/datasize at the
    version in go.mod.  Neither source is in the repository: both are modelled from knowledge of them. *)
From Verif Require Import Base Convert NumSpec NumProofs.
Local Open Scope Z_scope.

Definition dotc : ascii := "."%char.
Definition isDigit (c : ascii) : bool := match digit_val c with Some _ => true | None => false end.

(** ** Durations *)

(** time/format.go leadingInt; [None] is errLeadingInt. *)
Fixpoint leadingInt (s : bytes) (x : Z) : option (Z * bytes) :=
  match s with
  | [] => Some (x, [])
  | c :: r =>
      match digit_val c with
      | None => Some (x, s)
      | Some d =>
          if maxInt64 / 10 <? x then None
          else let x' := wrap64 (x * 10 + d) in
               if x' <? 0 then None else leadingInt r x'
      end
  end.

(** time/format.go leadingFraction: the digits after the point as a number, how many of them were used, and the rest. *)
Fixpoint leadingFraction (s : bytes) (x : Z) (k : nat) (over : bool) : Z * nat * bytes :=
  match s with
  | [] => (x, k, [])
  | c :: r =>
      match digit_val c with
      | None => (x, k, s)
      | Some d =>
          if over then leadingFraction r x k true
          else if maxInt64 / 10 <? x then leadingFraction r x k true
          else let y := wrap64 (x * 10 + d) in
               if y <? 0 then leadingFraction r x k true else leadingFraction r y (S k) false
      end
  end.

(** time/format.go unitMap. *)
Definition unitMap : list (bytes * Z) :=
  [(lit "ns", 1); (lit "us", 1000); (["194"; "181"; "s"]%char, 1000); (["206"; "188"; "s"]%char, 1000);
   (lit "ms", 1000000); (lit "s", 1000000000); (lit "m", 60000000000); (lit "h", 3600000000000)].
Fixpoint lookup (m : list (bytes * Z)) (k : bytes) : option Z :=
  match m with [] => None | (k', v) :: m' => if beqs k k' then Some v else lookup m' k end.

(** The unit: everything up to the next digit or point. *)
Fixpoint takeUnit (s : bytes) : bytes * bytes :=
  match s with
  | [] => ([], [])
  | c :: r => if Ascii.eqb c dotc || isDigit c then ([], s) else let (u, t) := takeUnit r in (c :: u, t)
  end.

Section Duration.
  (** int64(float64(f) * (float64(unit) / scale)) for [k] digits after the point. *)
  Variable frac : Z -> nat -> Z -> Z.

  (** time/format.go ParseDuration, the loop; each round consumes a byte, so the length is fuel enough. *)
  Fixpoint durLoop (fuel : nat) (s : bytes) (d : Z) : option Z :=
    match s, fuel with
    | [], _ => Some d
    | _, O => None
    | c :: _, S fuel' =>
        if negb (Ascii.eqb c dotc || isDigit c) then None
        else match leadingInt s 0 with
        | None => None
        | Some (v, s1) =>
            let pre := negb (Nat.eqb (length s1) (length s)) in
            let '(f, k, s2, post) :=
              match s1 with
              | c1 :: r1 => if Ascii.eqb c1 dotc
                  then let '(f, k, r2) := leadingFraction r1 0 0 false in (f, k, r2, negb (Nat.eqb (length r2) (length r1)))
                  else (0, O, s1, false)
              | [] => (0, O, s1, false)
              end in
            if negb (pre || post) then None
            else match takeUnit s2 with
            | ([], _) => None
            | (u, s3) =>
                match lookup unitMap u with
                | None => None
                | Some unit =>
                    if maxInt64 / unit <? v then None
                    else let v1 := v * unit in
                         let v2 := if 0 <? f then wrap64 (v1 + frac f k unit) else v1 in
                         if v2 <? 0 then None
                         else let d' := wrap64 (d + v2) in
                              if d' <? 0 then None else durLoop fuel' s3 d'
                end
            end
        end
    end.

  Definition splitSign (s : bytes) : bool * bytes :=
    match s with
    | c :: r => if Ascii.eqb c "-"%char then (true, r) else if Ascii.eqb c "+"%char then (false, r) else (false, s)
    | [] => (false, [])
    end.

  (** time/format.go ParseDuration; [None] is any error. *)
  Definition ParseDuration (s0 : bytes) : option Z :=
    let (neg, s) := splitSign s0 in
    if beqs s (lit "0") then Some 0
    else match s with
         | [] => None
         | _ => match durLoop (length s) s 0 with
                | None => None
                | Some d => Some (if neg then - d else d)
                end
         end.
End Duration.

(** ** Sizes *)

(** datasize.go UnmarshalText, the digits: [None] is an overflow of the uint64. *)
Fixpoint sizeDigits (t : bytes) (val : Z) : option (Z * bytes) :=
  match t with
  | [] => Some (val, [])
  | c :: r =>
      match digit_val c with
      | None => Some (val, t)
      | Some d =>
          if (two64 - 1) / 10 <? val then None
          else let v := val * 10 in
               if wrapu64 (v + d) <? v then None else sizeDigits r (wrapu64 (v + d))
      end
  end.

(** strings.TrimSpace for ASCII text. *)
Definition isSpace (c : ascii) : bool := memb ["009"; "010"; "011"; "012"; "013"; " "]%char c.
Fixpoint trimLeft (s : bytes) : bytes := match s with c :: r => if isSpace c then trimLeft r else s | [] => [] end.
Definition trimSpace (s : bytes) : bytes := rev (trimLeft (rev (trimLeft s))).

(** strings.ToLower for ASCII text. *)
Definition lowerc (c : ascii) : ascii :=
  if (65 <=? bval c)%N && (bval c <=? 90)%N then ascii_of_N (bval c + 32) else c.

(** The factor of a unit; the names are those of the switch in UnmarshalText. *)
Definition sizeUnits : list (bytes * Z) :=
  [([], 1); (lit "b", 1); (lit "byte", 1);
   (lit "k", 1024); (lit "kb", 1024); (lit "kilo", 1024); (lit "kilobyte", 1024); (lit "kilobytes", 1024);
   (lit "m", 1024 ^ 2); (lit "mb", 1024 ^ 2); (lit "mega", 1024 ^ 2); (lit "megabyte", 1024 ^ 2); (lit "megabytes", 1024 ^ 2);
   (lit "g", 1024 ^ 3); (lit "gb", 1024 ^ 3); (lit "giga", 1024 ^ 3); (lit "gigabyte", 1024 ^ 3); (lit "gigabytes", 1024 ^ 3);
   (lit "t", 1024 ^ 4); (lit "tb", 1024 ^ 4); (lit "tera", 1024 ^ 4); (lit "terabyte", 1024 ^ 4); (lit "terabytes", 1024 ^ 4);
   (lit "p", 1024 ^ 5); (lit "pb", 1024 ^ 5); (lit "peta", 1024 ^ 5); (lit "petabyte", 1024 ^ 5); (lit "petabytes", 1024 ^ 5);
   (lit "e", 1024 ^ 6); (lit "eb", 1024 ^ 6); (lit "exa", 1024 ^ 6); (lit "exabyte", 1024 ^ 6); (lit "exabytes", 1024 ^ 6)].
(** Units of bits, which are refused. *)
Definition bitUnits : list bytes := map lit ["Kb"; "Mb"; "Gb"; "Tb"; "Pb"; "Eb"]%string.

(** datasize.go ByteSize.UnmarshalText; [None] is any error. *)
Definition UnmarshalSize (t : bytes) : option Z :=
  match sizeDigits t 0 with
  | None => None
  | Some (val, r) =>
      if Nat.eqb (length r) (length t) && negb (Nat.eqb (length t) 0) then None
      else
        let unit := trimSpace r in
        if existsb (beqs unit) bitUnits then None
        else match lookup sizeUnits (map lowerc unit) with
             | None => None
             | Some f => if (two64 - 1) / f <? val then None else Some (wrapu64 (val * f))
             end
  end.

(** ** Specification *)

(** The units of durations (README.md, Time Durations), in nanoseconds; the micro sign may be written in two ways. *)
Inductive duration_unit : bytes -> Z -> Prop :=
| du_ns : duration_unit (lit "ns") 1
| du_us : duration_unit (lit "us") (10 ^ 3)
| du_micro u : In u [["194"; "181"; "s"]; ["206"; "188"; "s"]]%char -> duration_unit u (10 ^ 3)
| du_ms : duration_unit (lit "ms") (10 ^ 6)
| du_s : duration_unit (lit "s") (10 ^ 9)
| du_m : duration_unit (lit "m") (60 * 10 ^ 9)
| du_h : duration_unit (lit "h") (3600 * 10 ^ 9).

(** [s] is a sequence of whole numbers with units that add up to [z] nanoseconds. *)
Inductive sum_of_parts : bytes -> Z -> Prop :=
| sp_one ds u n : digits ds -> duration_unit u n -> sum_of_parts (ds ++ u) (dec_value ds * n)
| sp_more ds u n s z : digits ds -> duration_unit u n -> sum_of_parts s z -> sum_of_parts (ds ++ u ++ s) (dec_value ds * n + z).

(** A duration text: an optional sign and either parts or a bare zero. *)
Inductive duration_text : bytes -> Z -> Prop :=
| dt_plain s z : sum_of_parts s z \/ s = lit "0" /\ z = 0 -> duration_text s z
| dt_plus s z : sum_of_parts s z \/ s = lit "0" /\ z = 0 -> duration_text ("+"%char :: s) z
| dt_minus s z : sum_of_parts s z \/ s = lit "0" /\ z = 0 -> duration_text ("-"%char :: s) (- z).

(** ASCII text in either case. *)
Definition same_letters (u name : bytes) : Prop := map lowerc u = name.
Definition spaces (s : bytes) : Prop := Forall (fun c => In c ["009"; "010"; "011"; "012"; "013"; " "]%char) s.

(** The units of sizes: powers of 1024, by letter, abbreviation or name. *)
Inductive size_unit : bytes -> Z -> Prop :=
| su_none : size_unit [] 1
| su_byte u : In u (map lit ["b"; "byte"]%string) -> size_unit u 1
| su_kilo u : In u (map lit ["k"; "kb"; "kilo"; "kilobyte"; "kilobytes"]%string) -> size_unit u 1024
| su_mega u : In u (map lit ["m"; "mb"; "mega"; "megabyte"; "megabytes"]%string) -> size_unit u (1024 * 1024)
| su_giga u : In u (map lit ["g"; "gb"; "giga"; "gigabyte"; "gigabytes"]%string) -> size_unit u (1024 * 1024 * 1024)
| su_tera u : In u (map lit ["t"; "tb"; "tera"; "terabyte"; "terabytes"]%string) -> size_unit u (1024 ^ 4)
| su_peta u : In u (map lit ["p"; "pb"; "peta"; "petabyte"; "petabytes"]%string) -> size_unit u (1024 ^ 5)
| su_exa u : In u (map lit ["e"; "eb"; "exa"; "exabyte"; "exabytes"]%string) -> size_unit u (1024 ^ 6).

(** A size text: a number, spaces, a unit in any case (but not one of the abbreviations of bits), spaces; or nothing, for zero. *)
Inductive size_text : bytes -> Z -> Prop :=
| st_empty : size_text [] 0
| st_size ds s1 u name s2 n : digits ds -> spaces s1 -> spaces s2 -> same_letters u name -> size_unit name n ->
    ~ In u (map lit ["Kb"; "Mb"; "Gb"; "Tb"; "Pb"; "Eb"]%string) -> size_text (ds ++ s1 ++ u ++ s2) (dec_value ds * n).

(** ** Proofs *)
Lemma isDigit_iff c : isDigit c = true <-> is_digit c.
Proof. unfold isDigit. destruct (digit_val c) eqn:E; [apply digit_val_Some in E; tauto|]. apply digit_val_None in E. split; [discriminate|contradiction]. Qed.

Definition dfold (x : Z) (ds : bytes) : Z := fold_left (fun n c => n * 10 + (Z.of_N (bval c) - 48)) ds x.
Lemma dfold_ge ds : Forall is_digit ds -> forall x, 0 <= x -> x <= dfold x ds.
Proof.
  induction 1 as [|c ds H F IH]; intros x Hx; [cbn; lia|]. change (dfold x (c :: ds)) with (dfold (x * 10 + (Z.of_N (bval c) - 48)) ds). unfold is_digit in H.
  specialize (IH (x * 10 + (Z.of_N (bval c) - 48))). lia.
Qed.

(** The digits are read exactly, unless their value is too large. *)
Lemma leadingInt_digits ds rest : Forall is_digit ds -> (match rest with [] => True | c :: _ => ~ is_digit c end) -> forall x, 0 <= x ->
  leadingInt (ds ++ rest) x = if (x <=? maxInt64) && (dfold x ds <=? maxInt64) || (match ds with [] => true | _ => false end) then Some (dfold x ds, rest) else None.
Proof.
  intros F Hr. induction F as [|c ds H F IH]; intros x Hx.
  - rewrite orb_true_r. cbn [app dfold fold_left]. destruct rest as [|c r]; [reflexivity|]. cbn [leadingInt]. apply digit_val_None in Hr. rewrite Hr. reflexivity.
  - cbn [app leadingInt]. pose proof H as H'. apply (fun h => proj2 (digit_val_Some c _) (conj h eq_refl)) in H'. rewrite H'. rewrite orb_false_r.
    change (dfold x (c :: ds)) with (dfold (x * 10 + (Z.of_N (bval c) - 48)) ds). set (d := Z.of_N (bval c) - 48) in *. assert (Hd : 0 <= d <= 9) by (unfold d, is_digit in *; lia).
    pose proof (dfold_ge ds F (x * 10 + d)) as G. 
    assert (X10 : maxInt64 / 10 = 922337203685477580) by reflexivity. rewrite X10. unfold maxInt64, two63 in *.
    destruct (Z.ltb_spec 922337203685477580 x) as [L|L].
    + replace (dfold (x * 10 + d) ds <=? 9223372036854775808 - 1) with false by lia. rewrite andb_false_r. reflexivity.
    + destruct (Z_le_gt_dec (x * 10 + d) 9223372036854775807) as [S1|S1].
      * rewrite wrap64_id by (unfold int64, minInt64, maxInt64, two63; lia). replace (x * 10 + d <? 0) with false by lia. rewrite IH by lia.
        replace (x * 10 + d <=? 9223372036854775808 - 1) with true by lia. replace (x <=? 9223372036854775808 - 1) with true by lia. cbn [andb].
        destruct ds as [|c' ds']; [|rewrite orb_false_r; reflexivity]. rewrite orb_true_r. cbn [dfold fold_left]. replace (x * 10 + d <=? 9223372036854775808 - 1) with true by lia. reflexivity.
      * assert (W : wrap64 (x * 10 + d) < 0). { unfold wrap64, two63, two64. rewrite <- (Z_mod_plus_full _ (-1)). rewrite Z.mod_small; lia. }
        replace (wrap64 (x * 10 + d) <? 0) with true by lia. replace (dfold (x * 10 + d) ds <=? 9223372036854775808 - 1) with false by lia. rewrite andb_false_r. reflexivity.
Qed.

Lemma span_digits s : exists ds rest, s = ds ++ rest /\ Forall is_digit ds /\ match rest with [] => True | c :: _ => ~ is_digit c end.
Proof.
  induction s as [|c s (ds & rest & E & F & H)]; [exists [], []; repeat split; constructor|].
  destruct (isDigit c) eqn:Ed.
  - apply isDigit_iff in Ed. exists (c :: ds), rest. subst. repeat split; [constructor; auto|exact H].
  - exists [], (c :: s). repeat split; [constructor|]. rewrite <- isDigit_iff. congruence.
Qed.

Lemma unit_iff u n : lookup unitMap u = Some n <-> duration_unit u n.
Proof.
  unfold unitMap. cbn [lookup]. split.
  - intros H. repeat match type of H with (if beqs u ?x then _ else _) = _ => let E := fresh in destruct (beqs u x) eqn:E; [apply beqs_eq in E; subst u; injection H as <-|] end; try discriminate H.
    + apply du_ns. + apply du_us. + apply du_micro. left. reflexivity. + apply du_micro. right. left. reflexivity. + apply du_ms. + apply du_s. + apply du_m. + apply du_h.
  - intros H. inversion H; subst; try reflexivity. match goal with H : In u _ |- _ => destruct H as [<-|[<-|[]]]; reflexivity end.
Qed.

Lemma unit_shape u n : duration_unit u n -> 1 <= n /\ u <> [] /\ Forall (fun c => ~ is_digit c /\ c <> dotc) u.
Proof.
  intros H. inversion H; subst; try (match goal with H : In u _ |- _ => destruct H as [<-|[<-|[]]] end);
  (split; [vm_compute; discriminate|]; split; [discriminate|]); unfold lit; cbn [list_ascii_of_string];
  repeat (constructor; [split; [unfold is_digit; vm_compute; intros [? ?]; congruence|discriminate]|]); constructor.
Qed.

Lemma takeUnit_app u rest : Forall (fun c => ~ is_digit c /\ c <> dotc) u -> (match rest with [] => True | c :: _ => is_digit c end) -> takeUnit (u ++ rest) = (u, rest).
Proof.
  intros F Hr. induction F as [|c u [H1 H2] F IH].
  - destruct rest as [|c r]; [reflexivity|]. cbn [app takeUnit]. apply isDigit_iff in Hr. rewrite Hr, orb_true_r. reflexivity.
  - cbn [app takeUnit]. replace (Ascii.eqb c dotc) with false by (symmetry; apply Ascii.eqb_neq; exact H2).
    replace (isDigit c) with false by (destruct (isDigit c) eqn:E; [apply isDigit_iff in E; contradiction|reflexivity]). cbn [orb]. rewrite IH. reflexivity.
Qed.

Lemma takeUnit_split s : forall u t, takeUnit s = (u, t) -> s = u ++ t.
Proof.
  induction s as [|c s IH]; intros u t E; cbn [takeUnit] in E; [injection E as <- <-; reflexivity|].
  destruct (_ || _); [injection E as <- <-; reflexivity|]. destruct (takeUnit s) as [u' t'] eqn:E'. injection E as <- <-. cbn [app]. rewrite (IH _ _ eq_refl). reflexivity.
Qed.

Lemma parts_start s z : sum_of_parts s z -> exists c r, s = c :: r /\ is_digit c.
Proof. intros H. inversion H as [ds u n [N D] U|ds u n s' z' [N D] U P]; subst; (destruct ds as [|c ds]; [congruence|]); inversion D; subst; (eexists _, _; split; [reflexivity|assumption]). Qed.

Lemma parts_pos s z : sum_of_parts s z -> 0 <= z.
Proof.
  induction 1 as [ds u n [N D] U|ds u n s' z' [N D] U P IH].
  - pose proof (dec_value_bound ds D). destruct (unit_shape u n U). nia.
  - pose proof (dec_value_bound ds D). destruct (unit_shape u n U). nia.
Qed.

(** One round of the loop. *)
Lemma dur_round frac fuel ds u rest d : digits ds -> u <> [] -> Forall (fun c => ~ is_digit c /\ c <> dotc) u -> (match rest with [] => True | c :: _ => is_digit c end) -> 0 <= d <= maxInt64 ->
  durLoop frac (S fuel) (ds ++ u ++ rest) d =
  match lookup unitMap u with
  | Some n => if d + dec_value ds * n <=? maxInt64 then durLoop frac fuel rest (d + dec_value ds * n) else None
  | None => None
  end.
Proof.
  intros [Nd Dd] Nu Fu Hr Hd. destruct ds as [|c ds]; [congruence|]. inversion Dd as [|? ? Hc Dd']; subst.
  destruct u as [|cu u]; [congruence|]. inversion Fu as [|? ? [Hcu1 Hcu2] Fu']; subst.
  cbn [app durLoop]. pose proof Hc as Hc'. apply isDigit_iff in Hc'. rewrite Hc', orb_true_r. cbn [negb].
  change (c :: ds ++ cu :: u ++ rest) with ((c :: ds) ++ (cu :: u ++ rest)). rewrite (leadingInt_digits (c :: ds) (cu :: u ++ rest) Dd Hcu1 0) by lia.
  rewrite orb_false_r. change (dfold 0 (c :: ds)) with (dec_value (c :: ds)). set (v := dec_value (c :: ds)) in *.
  assert (V0 : 0 <= v) by (unfold v; apply dec_value_bound; exact Dd).
  replace (0 <=? maxInt64) with true by reflexivity. cbn [andb].
  assert (Un : forall n, lookup unitMap (cu :: u) = Some n -> 1 <= n) by (intros n Hn; apply unit_iff in Hn; apply unit_shape in Hn; tauto).
  destruct (Z.leb_spec v maxInt64) as [Lv|Lv].
  - replace (Ascii.eqb cu dotc) with false by (symmetry; apply Ascii.eqb_neq; exact Hcu2).
    replace (negb (Nat.eqb (length (cu :: u ++ rest)) (length ((c :: ds) ++ cu :: u ++ rest)))) with true by (symmetry; apply negb_true_iff, Nat.eqb_neq; rewrite app_length; cbn [length]; lia).
    cbn [orb negb]. change (cu :: u ++ rest) with ((cu :: u) ++ rest). rewrite takeUnit_app by assumption.
    destruct (lookup unitMap (cu :: u)) as [n|]; [|reflexivity]. specialize (Un n eq_refl). cbn [Z.ltb Z.compare].
    destruct (Z.ltb_spec (maxInt64 / n) v) as [Lm|Lm].
    + assert (maxInt64 < v * n) by (apply Z.lt_nge; intros X; pose proof (Z.div_le_lower_bound maxInt64 n v ltac:(lia) ltac:(lia)); lia). replace (d + v * n <=? maxInt64) with false by lia. reflexivity.
    + assert (v * n <= maxInt64) by (pose proof (Z.mul_div_le maxInt64 n ltac:(lia)); nia).
      replace (v * n <? 0) with false by nia. destruct (Z.leb_spec (d + v * n) maxInt64) as [Ls|Ls].
      * rewrite wrap64_id by (unfold int64, minInt64, maxInt64, two63 in *; nia). replace (d + v * n <? 0) with false by nia. reflexivity.
      * assert (W : wrap64 (d + v * n) < 0). { unfold wrap64, maxInt64, two63, two64 in *. rewrite <- (Z_mod_plus_full _ (-1)). rewrite Z.mod_small; lia. }
        replace (wrap64 (d + v * n) <? 0) with true by lia. reflexivity.
  - destruct (lookup unitMap (cu :: u)) as [n|]; [|reflexivity]. specialize (Un n eq_refl). replace (d + v * n <=? maxInt64) with false by nia. reflexivity.
Qed.

Lemma dur_complete frac s z : sum_of_parts s z -> forall fuel d, (length s <= fuel)%nat -> 0 <= d <= maxInt64 ->
  durLoop frac fuel s d = if d + z <=? maxInt64 then Some (d + z) else None.
Proof.
  induction 1 as [ds u n D U|ds u n s z D U P IH]; intros fuel d L Hd.
  - destruct (unit_shape u n U) as (Hn & Nu & Fu). destruct fuel as [|fuel]; [destruct ds; [destruct D; congruence|cbn in L; lia]|].
    replace (ds ++ u) with (ds ++ u ++ []) by (rewrite app_nil_r; reflexivity). rewrite (dur_round frac fuel ds u [] d D Nu Fu) by auto. apply unit_iff in U. rewrite U.
    destruct (_ <=? _); [|reflexivity]. destruct fuel; reflexivity.
  - destruct (unit_shape u n U) as (Hn & Nu & Fu). destruct (parts_start s z P) as (c & r & E & Hc). destruct D as [Nd Dd].
    destruct fuel as [|fuel]; [destruct ds; [congruence|cbn in L; lia]|].
    rewrite (dur_round frac fuel ds u s d (conj Nd Dd) Nu Fu) by (auto; subst s; exact Hc). apply unit_iff in U. rewrite U.
    pose proof (dec_value_bound ds Dd) as V. pose proof (parts_pos s z P) as Z0.
    destruct (Z.leb_spec (d + dec_value ds * n) maxInt64) as [L1|L1].
    + rewrite IH; [|destruct ds; [congruence|]; rewrite !app_length in L; cbn [length] in L; lia|nia]. rewrite Z.add_assoc. reflexivity.
    + replace (d + (dec_value ds * n + z) <=? maxInt64) with false by lia. reflexivity.
Qed.

Lemma takeUnit_unit s : ~ In dotc s -> forall u t, takeUnit s = (u, t) -> Forall (fun c => ~ is_digit c /\ c <> dotc) u /\ match t with [] => True | c :: _ => is_digit c end.
Proof.
  induction s as [|c s IH]; intros N u t E; cbn [takeUnit] in E; [injection E as <- <-; split; [constructor|exact I]|].
  destruct (Ascii.eqb c dotc || isDigit c) eqn:Eb.
  - injection E as <- <-. split; [constructor|]. apply orb_true_iff in Eb. destruct Eb as [Eb|Eb]; [apply Ascii.eqb_eq in Eb; exfalso; apply N; left; exact Eb|apply isDigit_iff; exact Eb].
  - destruct (takeUnit s) as [u' t'] eqn:E'. injection E as <- <-. apply orb_false_elim in Eb. destruct Eb as [E1 E2]. destruct (IH (fun h => N (or_intror h)) _ _ eq_refl) as [I1 I2].
    split; [constructor; [|exact I1]|exact I2]. split; [rewrite <- isDigit_iff; congruence|apply Ascii.eqb_neq; exact E1].
Qed.

Lemma dur_sound frac : forall fuel s d z, ~ In dotc s -> s <> [] -> 0 <= d <= maxInt64 -> durLoop frac fuel s d = Some z -> exists t, sum_of_parts s t /\ z = d + t /\ z <= maxInt64.
Proof.
  induction fuel as [|fuel IH]; intros s d z Nd Ns Hd H; [destruct s; [congruence|discriminate H]|].
  destruct (span_digits s) as (ds & rest & E & F & Hr). subst s.
  destruct ds as [|c ds]; [exfalso|].
  - cbn [app] in *. destruct rest as [|c r]; [congruence|]. cbn [durLoop] in H.
    replace (Ascii.eqb c dotc) with false in H by (symmetry; apply Ascii.eqb_neq; intros ->; apply Nd; left; reflexivity).
    replace (isDigit c) with false in H by (destruct (isDigit c) eqn:X; [apply isDigit_iff in X; contradiction|reflexivity]). discriminate H.
  - assert (Nr : ~ In dotc rest) by (intros X; apply Nd; apply in_app_iff; right; exact X).
    destruct (takeUnit rest) as [u t] eqn:Eu. destruct (takeUnit_unit rest Nr u t Eu) as [Fu Ht]. pose proof (takeUnit_split _ _ _ Eu) as Es. subst rest.
    destruct u as [|cu u].
    + exfalso. cbn [app] in *. destruct t as [|ct t]; [|exact (Hr Ht)].
      cbn [app durLoop] in H. pose proof F as F'. inversion F' as [|? ? Hc _]; subst. apply isDigit_iff in Hc. rewrite Hc, orb_true_r in H. cbn [negb] in H.
      change (c :: ds ++ []) with ((c :: ds) ++ []) in H. rewrite (leadingInt_digits (c :: ds) [] F I 0) in H by lia.
      destruct (_ || _) in H; [|discriminate H]. cbn [takeUnit] in H. destruct (negb _) in H; discriminate H.
    + rewrite (dur_round frac fuel (c :: ds) (cu :: u) t d) in H; [|split; [discriminate|exact F]|discriminate|exact Fu|exact Ht|exact Hd].
      destruct (lookup unitMap (cu :: u)) as [n|] eqn:El; [|discriminate H]. pose proof El as U. apply unit_iff in U.
      destruct (unit_shape _ _ U) as (Hn & _). pose proof (dec_value_bound (c :: ds) F) as V.
      destruct (Z.leb_spec (d + dec_value (c :: ds) * n) maxInt64) as [L|L]; [|discriminate H].
      assert (Dg : digits (c :: ds)) by (split; [discriminate|exact F]).
      destruct t as [|ct t].
      * assert (Hz : z = d + dec_value (c :: ds) * n) by (destruct fuel; cbn [durLoop] in H; congruence). exists (dec_value (c :: ds) * n). rewrite app_nil_r. split; [apply sp_one; assumption|]. lia.
      * apply IH in H; [|intros X; apply Nr; apply in_app_iff; right; exact X|discriminate|nia]. destruct H as (t' & P & -> & Lz).
        exists (dec_value (c :: ds) * n + t'). split; [apply sp_more; assumption|]. split; [lia|exact Lz].
Qed.

Lemma parts_not_digits s z : sum_of_parts s z -> exists c, In c s /\ ~ is_digit c.
Proof.
  intros H. inversion H as [ds u n D U|ds u n s' z' D U P]; subst; destruct (unit_shape u n U) as (_ & Nu & Fu); (destruct u as [|c u]; [congruence|]); inversion Fu as [|? ? [Hc _] _]; subst;
  (exists c; split; [apply in_app_iff; right; left; reflexivity|exact Hc]).
Qed.

Lemma ParseDuration_iff frac s z : ~ In dotc s -> ParseDuration frac s = Some z <-> duration_text s z /\ Z.abs z <= maxInt64.
Proof.
  intros Nd.
  assert (Body : forall neg b, ~ In dotc b -> (if beqs b (lit "0") then Some 0 else match b with [] => None | _ => match durLoop frac (length b) b 0 with None => None | Some d => Some (if neg : bool then - d else d) end end) = Some z <->
     exists t, (sum_of_parts b t \/ b = lit "0" /\ t = 0) /\ t <= maxInt64 /\ z = if neg then - t else t).
  { intros neg b Nb. destruct (beqs b (lit "0")) eqn:E0.
    - apply beqs_eq in E0. subst b. split.
      + intros H. injection H as <-. exists 0. split; [right; auto|]. split; [vm_compute; discriminate|destruct neg; reflexivity].
      + intros (t & [P|[_ ->]] & L & ->); [|destruct neg; reflexivity]. exfalso.
        destruct (parts_not_digits _ _ P) as (c & [<-|[]] & Hc). apply Hc. unfold is_digit. vm_compute. split; discriminate.
    - apply beqs_neq in E0. destruct b as [|c b]; [split; [discriminate|]; intros (t & [P|[P _]] & _); [destruct (parts_start _ _ P) as (? & ? & X & _); discriminate X|discriminate P]|].
      split.
      + intros H. destruct (durLoop frac _ (c :: b) 0) as [d|] eqn:El; [|discriminate H]. injection H as <-.
        destruct (dur_sound frac _ _ 0 _ Nb ltac:(discriminate) ltac:(unfold maxInt64, two63; lia) El) as (t & P & -> & L). exists t. split; [left; exact P|]. split; [lia|]. destruct neg; rewrite Z.add_0_l; reflexivity.
      + intros (t & [P|[P _]] & L & ->); [|contradiction]. pose proof (parts_pos _ _ P). rewrite (dur_complete frac _ _ P (length (c :: b)) 0) by (try lia; unfold maxInt64, two63; lia).
        replace (0 + t <=? maxInt64) with true by lia. f_equal. }
  assert (Cs : forall b t, (sum_of_parts b t \/ b = lit "0" /\ t = 0) -> 0 <= t /\ exists c r, b = c :: r /\ is_digit c).
  { intros b t [P|[-> ->]]; [split; [exact (parts_pos _ _ P)|exact (parts_start _ _ P)]|]. split; [lia|]. exists "0"%char, []. split; [reflexivity|]. unfold is_digit. vm_compute. split; discriminate. }
  unfold ParseDuration. destruct (splitSign s) as [neg b] eqn:Es.
  assert (Sp : (neg = true /\ s = "-"%char :: b) \/ (neg = false /\ s = "+"%char :: b) \/ (neg = false /\ s = b /\ forall c r, s = c :: r -> c <> "-"%char /\ c <> "+"%char)).
  { unfold splitSign in Es. destruct s as [|c r]; [injection Es as <- <-; right; right; split; [reflexivity|]; split; [reflexivity|]; discriminate|].
    destruct (Ascii.eqb_spec c "-"%char) as [->|N1]; [injection Es as <- <-; auto|]. destruct (Ascii.eqb_spec c "+"%char) as [->|N2]; [injection Es as <- <-; auto|].
    injection Es as <- <-. right. right. split; [reflexivity|]. split; [reflexivity|]. intros c' r' E. injection E as <- _. auto. }
  assert (Nb : ~ In dotc b). { intros X. apply Nd. destruct Sp as [[_ ->]|[[_ ->]|[_ [-> _]]]]; [right|right|]; exact X. }
  rewrite (Body neg b Nb). split.
  - intros (t & P & L & ->). destruct (Cs b t P) as (T0 & c & r & Eb & Hc). destruct Sp as [[-> ->]|[[-> ->]|(-> & -> & _)]]; (split; [|lia]); [apply dt_minus|apply dt_plus|apply dt_plain]; exact P.
  - intros [Dt L]. inversion Dt as [s' z' P E1 E2|s' z' P E1 E2|s' z' P E1 E2]; subst s z; destruct (Cs _ _ P) as (T0 & c & r & Eb & Hc).
    + assert (Sg : c <> "-"%char /\ c <> "+"%char) by (split; intros ->; unfold is_digit in Hc; vm_compute in Hc; destruct Hc as [H1 H2]; congruence).
      destruct Sp as [[_ E]|[[_ E]|(-> & E & _)]]; [exfalso; destruct Sg; congruence|exfalso; destruct Sg; congruence|]. exists z'. subst b. split; [exact P|]. split; [lia|reflexivity].
    + destruct Sp as [[_ E]|[[-> E]|(_ & _ & E)]]; [discriminate E| |exfalso; destruct (E _ _ eq_refl); congruence]. injection E as <-. exists z'. split; [exact P|]. split; [lia|reflexivity].
    + destruct Sp as [[-> E]|[[_ E]|(_ & _ & E)]]; [|discriminate E|exfalso; destruct (E _ _ eq_refl); congruence]. injection E as <-. exists z'. split; [exact P|]. split; [lia|reflexivity].
Qed.

(** *** Sizes *)
Lemma sizeDigits_digits ds rest : Forall is_digit ds -> (match rest with [] => True | c :: _ => ~ is_digit c end) -> forall x, 0 <= x <= two64 - 1 ->
  sizeDigits (ds ++ rest) x = if dfold x ds <=? two64 - 1 then Some (dfold x ds, rest) else None.
Proof.
  intros F Hr. induction F as [|c ds H F IH]; intros x Hx.
  - cbn [app dfold fold_left]. replace (x <=? two64 - 1) with true by lia. destruct rest as [|c r]; [reflexivity|]. cbn [sizeDigits]. apply digit_val_None in Hr. rewrite Hr. reflexivity.
  - cbn [app sizeDigits]. pose proof H as H'. apply (fun h => proj2 (digit_val_Some c _) (conj h eq_refl)) in H'. rewrite H'.
    change (dfold x (c :: ds)) with (dfold (x * 10 + (Z.of_N (bval c) - 48)) ds). set (d := Z.of_N (bval c) - 48) in *. assert (Hd : 0 <= d <= 9) by (unfold d, is_digit in *; lia).
    pose proof (dfold_ge ds F (x * 10 + d)) as G.
    assert (X10 : (two64 - 1) / 10 = 1844674407370955161) by reflexivity. rewrite X10. unfold two64 in *.
    destruct (Z.ltb_spec 1844674407370955161 x) as [L|L]; [replace (dfold (x * 10 + d) ds <=? 18446744073709551616 - 1) with false by lia; reflexivity|].
    destruct (Z_le_gt_dec (x * 10 + d) 18446744073709551615) as [S1|S1].
    + assert (W : wrapu64 (x * 10 + d) = x * 10 + d) by (unfold wrapu64, two64; apply Z.mod_small; lia). rewrite W. replace (x * 10 + d <? x * 10) with false by lia. apply IH. lia.
    + assert (W : wrapu64 (x * 10 + d) = x * 10 + d - 18446744073709551616). { unfold wrapu64, two64. rewrite <- (Z_mod_plus_full _ (-1)). rewrite Z.mod_small; lia. }
      rewrite W. replace (x * 10 + d - 18446744073709551616 <? x * 10) with true by lia. replace (dfold (x * 10 + d) ds <=? 18446744073709551616 - 1) with false by lia. reflexivity.
Qed.

Lemma isSpace_iff c : isSpace c = true <-> In c ["009"; "010"; "011"; "012"; "013"; " "]%char.
Proof. unfold isSpace. apply memb_In. Qed.

Lemma trimLeft_split s : exists s1, s = s1 ++ trimLeft s /\ spaces s1.
Proof.
  induction s as [|c s (s1 & E & F)]; [exists []; split; [reflexivity|constructor]|]. cbn [trimLeft]. destruct (isSpace c) eqn:Ec.
  - exists (c :: s1). split; [cbn [app]; rewrite <- E; reflexivity|]. constructor; [apply isSpace_iff; exact Ec|exact F].
  - exists []. split; [reflexivity|constructor].
Qed.
Lemma trimLeft_spaces s1 u : spaces s1 -> (match u with [] => True | c :: _ => isSpace c = false end) -> trimLeft (s1 ++ u) = u.
Proof.
  intros F Hu. induction F as [|c s1 H F IH]; [|cbn [app trimLeft]; apply isSpace_iff in H; rewrite H; exact IH].
  destruct u as [|c u]; [reflexivity|]. cbn [app trimLeft]. rewrite Hu. reflexivity.
Qed.
Lemma spaces_rev s : spaces s -> spaces (rev s).
Proof. unfold spaces. rewrite !Forall_forall. intros H c Hc. apply H. apply in_rev. exact Hc. Qed.

Lemma trimSpace_split s : exists s1 s2, s = s1 ++ trimSpace s ++ s2 /\ spaces s1 /\ spaces s2.
Proof.
  destruct (trimLeft_split s) as (s1 & E & F). destruct (trimLeft_split (rev (trimLeft s))) as (s2 & E2 & F2).
  exists s1, (rev s2). split; [|split; [exact F|apply spaces_rev; exact F2]]. unfold trimSpace. rewrite <- rev_app_distr, <- E2, rev_involutive. exact E.
Qed.
Lemma trimSpace_spaces s1 u s2 : spaces s1 -> spaces s2 -> (forall c, In c u -> isSpace c = false) -> trimSpace (s1 ++ u ++ s2) = u.
Proof.
  intros F1 F2 Hu. unfold trimSpace. destruct u as [|c u].
  - replace (trimLeft (s1 ++ [] ++ s2)) with (@nil ascii); [reflexivity|]. symmetry. cbn [app]. rewrite <- (app_nil_r (s1 ++ s2)). apply trimLeft_spaces; [apply Forall_app; split; assumption|exact I].
  - rewrite (trimLeft_spaces s1 ((c :: u) ++ s2) F1) by (cbn [app]; apply Hu; left; reflexivity).
    rewrite rev_app_distr, trimLeft_spaces; [apply rev_involutive|apply spaces_rev; exact F2|].
    destruct (rev (c :: u)) as [|c' r] eqn:E; [exact I|]. apply Hu. apply in_rev. rewrite E. left. reflexivity.
Qed.

Lemma size_unit_iff u n : lookup sizeUnits u = Some n <-> size_unit u n.
Proof.
  unfold sizeUnits. cbn [lookup]. split.
  - intros H.
    repeat match type of H with (if beqs u ?x then _ else _) = _ => let E := fresh in destruct (beqs u x) eqn:E; [apply beqs_eq in E; subst u; injection H as <-|] end; try discriminate H;
    first [apply su_none | apply su_byte; cbn [map In]; tauto | apply su_kilo; cbn [map In]; tauto | apply su_mega; cbn [map In]; tauto | apply su_giga; cbn [map In]; tauto
          | apply su_tera; cbn [map In]; tauto | apply su_peta; cbn [map In]; tauto | apply su_exa; cbn [map In]; tauto].
  - intros H. inversion H as [|? Hu|? Hu|? Hu|? Hu|? Hu|? Hu|? Hu]; subst; [reflexivity|..]; cbn [map In] in Hu; repeat (destruct Hu as [<-|Hu]; [reflexivity|]); destruct Hu.
Qed.

(** The letters of the units. *)
Lemma size_unit_letters u n : size_unit u n -> 1 <= n <= 1024 ^ 6 /\ Forall (fun c => 97 <= bval c <= 122)%N u.
Proof.
  intros H. inversion H as [|? Hu|? Hu|? Hu|? Hu|? Hu|? Hu|? Hu]; subst; (split; [vm_compute; split; discriminate|]); [constructor|..];
  cbn [map In] in Hu; repeat (destruct Hu as [<-|Hu]; [unfold lit; cbn [list_ascii_of_string]; repeat (constructor; [vm_compute; split; discriminate|]); constructor|]); destruct Hu.
Qed.

Lemma lower_letter c : (97 <= bval (lowerc c) <= 122)%N -> (65 <= bval c <= 90)%N \/ (97 <= bval c <= 122)%N.
Proof. unfold lowerc. destruct ((65 <=? bval c)%N && (bval c <=? 90)%N) eqn:E; [|tauto]. intros _. left. lia. Qed.

Lemma letter_plain c : (65 <= bval c <= 90)%N \/ (97 <= bval c <= 122)%N -> isSpace c = false /\ ~ is_digit c.
Proof.
  intros H. split; [|unfold is_digit; lia]. apply not_true_is_false. intros X. apply isSpace_iff in X. cbn [In] in X.
  repeat (destruct X as [<-|X]; [vm_compute in H; destruct H as [[H1 H2]|[H1 H2]]; congruence|]). destruct X.
Qed.

Lemma unit_plain u n name : map lowerc u = name -> size_unit name n -> forall c, In c u -> isSpace c = false /\ ~ is_digit c.
Proof.
  intros E U c Hc. apply size_unit_letters in U. destruct U as [_ F]. rewrite Forall_forall in F. apply letter_plain, lower_letter, F. rewrite <- E. apply in_map. exact Hc.
Qed.

Lemma bits_iff u : existsb (beqs u) bitUnits = true <-> In u (map lit ["Kb"; "Mb"; "Gb"; "Tb"; "Pb"; "Eb"]%string).
Proof.
  rewrite existsb_exists. unfold bitUnits. split; [intros (x & Hx & E); apply beqs_eq in E; subst x; exact Hx|]. intros H. exists u. split; [exact H|apply beqs_refl].
Qed.

Lemma UnmarshalSize_iff t v : UnmarshalSize t = Some v <-> size_text t v /\ v <= two64 - 1.
Proof.
  unfold UnmarshalSize. split.
  - destruct (span_digits t) as (ds & r & E & F & Hr). subst t. rewrite (sizeDigits_digits ds r F Hr 0) by (unfold two64; lia).
    change (dfold 0 ds) with (dec_value ds). destruct (Z.leb_spec (dec_value ds) (two64 - 1)) as [L|L]; [|discriminate]. pose proof (dec_value_bound ds F) as V.
    destruct (existsb (beqs (trimSpace r)) bitUnits) eqn:Eb; [destruct (_ && _); discriminate|].
    destruct (trimSpace_split r) as (s1 & s2 & Er & F1 & F2).
    destruct (lookup sizeUnits (map lowerc (trimSpace r))) as [n|] eqn:El; [|destruct (_ && _); discriminate]. apply size_unit_iff in El.
    destruct (size_unit_letters _ _ El) as [Hn _].
    destruct ds as [|c ds].
    + cbn [app]. rewrite Nat.eqb_refl. destruct r as [|c r]; [|discriminate]. cbn [length Nat.eqb negb andb]. change (trimSpace []) with (@nil ascii) in El. cbn [map] in El. apply size_unit_iff in El. cbn [sizeUnits lookup beqs] in El.
      injection El as <-. intros H. vm_compute in H. injection H as <-. split; [apply st_empty|vm_compute; discriminate].
    + replace (Nat.eqb (length r) (length ((c :: ds) ++ r))) with false by (symmetry; apply Nat.eqb_neq; rewrite app_length; cbn [length]; lia). cbn [andb].
      destruct (Z.ltb_spec ((two64 - 1) / n) (dec_value (c :: ds))) as [Lm|Lm]; [discriminate|]. intros H.
      assert (B : dec_value (c :: ds) * n <= two64 - 1) by (pose proof (Z.mul_div_le (two64 - 1) n ltac:(lia)); nia).
      assert (W : wrapu64 (dec_value (c :: ds) * n) = dec_value (c :: ds) * n) by (unfold wrapu64; apply Z.mod_small; unfold two64 in *; nia).
      rewrite W in H. injection H as <-. split; [|exact B]. rewrite Er.
      apply (st_size (c :: ds) s1 (trimSpace r) (map lowerc (trimSpace r)) s2 n); [split; [discriminate|exact F]|exact F1|exact F2|reflexivity|exact El|].
      rewrite <- bits_iff. congruence.
  - intros [T L]. inversion T as [|ds s1 u name s2 n [Nd D] F1 F2 Sl U Nb]; subst; [reflexivity|].
    destruct (size_unit_letters _ _ U) as [Hn _]. pose proof (dec_value_bound ds D) as V.
    assert (Pl := unit_plain u n _ Sl U).
    assert (Hr : match s1 ++ u ++ s2 with [] => True | c :: _ => ~ is_digit c end).
    { assert (Sp : forall s c r, spaces s -> s = c :: r -> ~ is_digit c).
      { intros s c r Fs ->. inversion Fs as [|? ? Hc _]; subst. cbn [In] in Hc. repeat (destruct Hc as [<-|Hc]; [unfold is_digit; vm_compute; intros [Y1 Y2]; congruence|]). destruct Hc. }
      destruct s1 as [|c s1]; [|exact (Sp _ _ _ F1 eq_refl)]. destruct u as [|c u]; [|exact (proj2 (Pl c (or_introl eq_refl)))].
      destruct s2 as [|c s2]; [exact I|exact (Sp _ _ _ F2 eq_refl)]. }
    rewrite (sizeDigits_digits ds (s1 ++ u ++ s2) D Hr 0) by (unfold two64; lia). change (dfold 0 ds) with (dec_value ds).
    replace (dec_value ds <=? two64 - 1) with true by nia.
    replace (Nat.eqb (length (s1 ++ u ++ s2)) (length (ds ++ s1 ++ u ++ s2))) with false by (symmetry; apply Nat.eqb_neq; rewrite (app_length ds); destruct ds; [congruence|cbn [length]; lia]). cbn [andb].
    rewrite (trimSpace_spaces s1 u s2 F1 F2 (fun c hc => proj1 (Pl c hc))).
    replace (existsb (beqs u) bitUnits) with false by (symmetry; apply not_true_is_false; rewrite bits_iff; exact Nb).
    unfold same_letters in Sl. rewrite Sl. pose proof U as U'. apply size_unit_iff in U'. rewrite U'.
    destruct (Z.ltb_spec ((two64 - 1) / n) (dec_value ds)) as [Lm|Lm].
    + exfalso. pose proof (Z.div_le_lower_bound (two64 - 1) n (dec_value ds) ltac:(lia) ltac:(lia)). lia.
    + f_equal. unfold wrapu64. apply Z.mod_small. unfold two64 in *. nia.
Qed.

(** *** Numbers without a unit *)
(** toml v0.3.1 decode.go unifyText writes an unquoted integer in decimal before handing it to UnmarshalText. *)
Lemma size_bare z s v : 0 <= z <= two64 - 1 -> dec_text z s -> UnmarshalSize s = Some v <-> v = z.
Proof.
  intros Hz (It & _ & _ & Nn). assert (D : digits s /\ z = dec_value s).
  { inversion It as [ds D|ds D]; subst; [auto|]. exfalso. pose proof (dec_value_bound ds (proj2 D)). assert (dec_value ds = 0) by lia.
    destruct D as [N D]. destruct ds as [|c ds]; [congruence|]. assert (c = "0"%char).
    { inversion D as [|? ? Hc Dr]; subst. change (dec_value (c :: ds)) with (dfold (0 * 10 + (Z.of_N (bval c) - 48)) ds) in *. unfold is_digit in Hc.
      pose proof (dfold_ge ds Dr (0 * 10 + (Z.of_N (bval c) - 48)) ltac:(lia)). assert (B : bval c = 48%N) by lia. rewrite <- (ascii_N_embedding c). unfold bval in B. rewrite B. reflexivity. }
    subst c. exact (Nn ds eq_refl). }
  destruct D as [D E]. rewrite UnmarshalSize_iff.
  assert (T : size_text s z). { rewrite E. replace s with (s ++ [] ++ [] ++ []) at 1 by (rewrite !app_nil_r; reflexivity). replace (dec_value s) with (dec_value s * 1) by lia.
    eapply (st_size s [] [] []); [exact D|constructor|constructor|reflexivity|apply su_none|cbn; intuition discriminate]. }
  split; [|intros ->; split; [exact T|lia]]. intros H. apply UnmarshalSize_iff in H. pose proof (proj2 (UnmarshalSize_iff s z) (conj T (proj2 Hz))). congruence.
Qed.

Lemma size_bare_negative z s : z < 0 -> dec_text z s -> UnmarshalSize s = None.
Proof.
  intros Hz (It & _). inversion It as [ds D|ds D]; subst; [pose proof (dec_value_bound s (proj2 D)); lia|].
  unfold UnmarshalSize. change (sizeDigits ("-"%char :: ds) 0) with (Some (0, "-"%char :: ds)). cbv beta iota. rewrite Nat.eqb_refl. reflexivity.
Qed.


Lemma duration_bare frac z s v : dec_text z s -> ParseDuration frac s = Some v <-> z = 0 /\ v = 0.
Proof.
  intros (It & Zs & _ & Nn).
  assert (Nd : ~ In dotc s).
  { assert (X : forall ds, digits ds -> ~ In dotc ds) by (intros ds [_ D] Hi; rewrite Forall_forall in D; specialize (D _ Hi); unfold is_digit in D; vm_compute in D; destruct D; congruence).
    inversion It as [ds D|ds D]; subst; [exact (X _ D)|]. intros [Hi|Hi]; [discriminate Hi|exact (X _ D Hi)]. }
  rewrite (ParseDuration_iff frac s v Nd). split.
  - intros [T _].
    assert (NP : forall ds t, digits ds -> ~ sum_of_parts ds t).
    { intros ds t [_ D] P. destruct (parts_not_digits _ _ P) as (c & Hi & Hc). rewrite Forall_forall in D. exact (Hc (D _ Hi)). }
    assert (Hd : forall c ds, digits (c :: ds) -> c <> "-"%char /\ c <> "+"%char).
    { intros c ds [_ D]. inversion D as [|? ? Hc _]; subst. unfold is_digit in Hc. split; intros ->; vm_compute in Hc; destruct Hc; congruence. }
    inversion It as [ds D E1 E2|ds D E1 E2]; subst.
    + inversion T as [s' z' [P|[E ->]] E1 E2|s' z' P E1 E2|s' z' P E1 E2]; subst; [exfalso; exact (NP _ _ D P)|split; reflexivity| |]; exfalso; destruct (Hd _ _ D); congruence.
    + inversion T as [s' z' P E1 E2|s' z' P E1 E2|s' z' [P|[E ->]] E1 E2]; subst.
      * exfalso. destruct P as [P|[P _]]; [|discriminate P]. destruct (parts_start _ _ P) as (c & r & Ec & Hc). injection Ec as <- _. exact (minus_not_digit Hc).
      * exfalso. exact (NP _ _ D P).
      * exfalso. exact (Nn [] eq_refl).
  - intros [-> ->]. rewrite (Zs eq_refl). split; [apply dt_plain; right; auto|vm_compute; discriminate].
Qed.
