(** Property theorems C01-C09: line protocol text, integers and timestamps. *)
From Verif Require Import Base Text TextSpec TextProofs Convert Timestamps NumSpec NumProofs.

(** C01: escaping then unescaping a tag part gives it back iff it contains no
    backslash followed by a double quote. *)
Theorem C01_tag_part_roundtrip : forall v,
  Unescape (EscapeTagPart v) = v <-> ~ has_pair bsl [dq] v.
Proof. exact escape_tag_roundtrip. Qed.
Print Assumptions C01_tag_part_roundtrip.

Theorem C01_measurement_roundtrip : forall v,
  Unescape (EscapeMeasurement v) = v <-> ~ has_pair bsl [dq; eqs] v.
Proof. exact escape_measurement_roundtrip. Qed.
Print Assumptions C01_measurement_roundtrip.

(** What escaping produces: each special byte gets one backslash, nothing else changes. *)
Theorem C01_escape_exact : forall v,
  EscapeTagPart v = esc_spec [comma; eqs; sp] v /\ EscapeMeasurement v = esc_spec [comma; sp] v.
Proof. intros v. split; exact (Escape_spec _ v). Qed.
Print Assumptions C01_escape_exact.

Example C01_ok_case : Unescape (EscapeTagPart (lit "a\, =\b")) = lit "a\, =\b".
Proof. reflexivity. Qed.
Example C01_bad_case : Unescape (EscapeTagPart (lit "a\""b")) = lit "a""b".
Proof. reflexivity. Qed.

(** C02: tokenising. *)
Theorem C02_token_lossless : forall until s tok rest,
  TokenEscaped until s = (tok, rest) ->
  tok ++ rest = s /\
  (rest = [] \/ exists d r, rest = d :: r /\ In d until /\ ~ ends_in bsl tok) /\
  (forall p d q, tok = p ++ d :: q -> p <> [] -> In d until -> ends_in bsl p) /\
  (2 <= length s -> tok <> []).
Proof.
  exact (fun until s tok rest H =>
    conj (TokenEscaped_split until s tok rest H)
   (conj (TokenEscaped_rest until s tok rest H)
   (conj (TokenEscaped_inner until s tok rest H)
         (TokenEscaped_nonempty until s tok rest H)))).
Qed.
Print Assumptions C02_token_lossless.

Theorem C02_token_one_byte : forall until c,
  TokenEscaped until [c] = if memb until c then ([], [c]) else ([c], []).
Proof. exact TokenEscaped_single. Qed.
Print Assumptions C02_token_one_byte.

Theorem C02_token_unescapes : forall until s,
  Token until s = (Unescape (fst (TokenEscaped until s)), snd (TokenEscaped until s)).
Proof. exact Token_spec. Qed.
Print Assumptions C02_token_unescapes.

(** The conditions of C02 determine the token: any other split is not returned. *)
Theorem C02_token_unique : forall until tok d r,
  tok <> [] -> In d until -> ~ ends_in bsl tok ->
  (forall p x q, tok = p ++ x :: q -> p <> [] -> In x until -> ends_in bsl p) ->
  TokenEscaped until (tok ++ d :: r) = (tok, d :: r).
Proof. exact TokenEscaped_unique. Qed.
Print Assumptions C02_token_unique.

Example C02_case : TokenEscaped (lit ", ") (lit "fo\,o,bar x") = (lit "fo\,o", lit ",bar x").
Proof. reflexivity. Qed.
Example C02_first_byte_not_checked : TokenEscaped (lit ", ") (lit ",a b") = (lit ",a", lit " b").
Proof. reflexivity. Qed.

(** C03: round trip of a rendered line. *)
Theorem C03_parse_render : forall m tags rest,
  good_measurement m -> Forall good_tag tags ->
  ParseTags (render_line m tags rest) = POk m tags rest.
Proof. exact ParseTags_render. Qed.
Print Assumptions C03_parse_render.

(** ... and what the code's own renderer produces is that text. *)
Theorem C03_render_is_code : forall m tags rest, tags <> [] ->
  EscapeMeasurement m ++ [comma] ++ TagsBytes tags ++ [sp] ++ rest = render_line m tags rest.
Proof. exact render_bytes. Qed.
Print Assumptions C03_render_is_code.

Theorem C03_parse_terminates : forall line, ParseTags line <> PFuel.
Proof. exact ParseTags_no_fuel. Qed.
Print Assumptions C03_parse_terminates.

Example C03_hyps : good_measurement (lit "c pu") /\ Forall good_tag [(lit "ho=st", lit "a,b"); (lit "k\x", lit "v")].
Proof.
  assert (G : forall v, v <> [] -> last v "x"%char <> bsl -> ~ ends_in bsl v).
  { intros v Hn Hl [p ->]. apply Hl. rewrite last_last. auto. }
  assert (P : forall v, memb v bsl = false -> forall bs, ~ has_pair bsl bs v).
  { intros v Hv bs (p & c & q & -> & _). apply memb_false in Hv. apply Hv. apply in_or_app. simpl; auto. }
  split.
  - split; [discriminate|]. split; [apply G; discriminate | apply P; reflexivity].
  - repeat constructor; simpl fst; simpl snd; try discriminate; try (apply G; discriminate); try (apply P; reflexivity).
    intros (p & c & q & E & Hc). simpl in Hc. destruct Hc as [<-|[]].
    destruct p as [|? [|? [|? [|? ?]]]]; simpl in E; discriminate.
Qed.
Example C03_case : ParseTags (lit "c\ pu,ho\=st=a\,b,k\x=v value=1 123") =
  POk (lit "c pu") [(lit "ho=st", lit "a,b"); (lit "k\x", lit "v")] (lit "value=1 123").
Proof. reflexivity. Qed.

(** C04: quoted strings; exactly which values survive, and that some do not. *)
Theorem C04_quoted_roundtrip_iff : forall v rest,
  QuotedString (EscapeQuotedString v ++ rest) = QOk v rest <->
  ~ ends_in bsl v /\ (~ In dq v \/ ~ has_pair bsl [comma; sp; eqs] v).
Proof. exact quoted_roundtrip_iff. Qed.
Print Assumptions C04_quoted_roundtrip_iff.

Theorem C04_quoted_roundtrip_refuted :
  (exists v rest, QuotedString (EscapeQuotedString v ++ rest) = QMissing) /\
  (exists v rest w, QuotedString (EscapeQuotedString v ++ rest) = QOk w rest /\ w <> v).
Proof.
  split.
  - exists (lit "a\"), []. reflexivity.
  - exists (lit "a\ ""b"), [], (lit "a ""b"). split; [reflexivity | discriminate].
Qed.
Print Assumptions C04_quoted_roundtrip_refuted.

Local Open Scope Z_scope.

(** C05: integers.  Exact whenever the magnitude is below 2^64 (so for up to 19 digits). *)
Theorem C05_ToInt_exact_partial : forall s z, int_text s z -> Z.abs z < 2 ^ 64 ->
  (int64 z -> ToInt s = Some z) /\ (~ int64 z -> ToInt s = None).
Proof.
  exact ToInt_exact_cases.
Qed.
Print Assumptions C05_ToInt_exact_partial.

Theorem C05_ToInt_short : forall s v, (length s <= 19)%nat ->
  (ToInt s = Some v <-> int_text s v /\ int64 v).
Proof. exact ToInt_short. Qed.
Print Assumptions C05_ToInt_short.

Theorem C05_ToInt_rejects_garbage : forall s, (forall z, ~ int_text s z) -> ToInt s = None.
Proof. exact ToInt_bad. Qed.
Print Assumptions C05_ToInt_rejects_garbage.

(** Any length: the value is taken modulo 2^64 before the range check. *)
Theorem C05_ToInt_wraps : forall ds, digits ds ->
  let n := dec_value ds mod 2 ^ 64 in
  ToInt ds = (if 2 ^ 63 - 1 <? n then None else Some n) /\
  ToInt ("-"%char :: ds) = (if 2 ^ 63 <? n then None else Some (- n)).
Proof. exact (fun ds D => conj (ToInt_pos ds D) (ToInt_neg ds D)). Qed.
Print Assumptions C05_ToInt_wraps.

Theorem C05_ToInt_refuted : exists s z v, int_text s z /\ ~ int64 z /\ ToInt s = Some v /\ v <> z.
Proof.
  exists (lit "18446744073709551617"), 18446744073709551617, 1.
  split; [|split; [|split]].
  - change 18446744073709551617 with (dec_value (lit "18446744073709551617")). apply it_pos.
    split; [discriminate|]. repeat constructor; vm_compute; discriminate.
  - intros [_ H]. vm_compute in H. apply H. reflexivity.
  - vm_compute. reflexivity.
  - discriminate.
Qed.
Print Assumptions C05_ToInt_refuted.

Example C05_case : ToInt (lit "-9223372036854775808") = Some (- 2 ^ 63) /\ ToInt (lit "9223372036854775808") = None.
Proof. vm_compute. auto. Qed.

(** Formatting is canonical and parsing undoes it. *)
Theorem C05_format_parse : forall z, int64 z ->
  dec_text z (FormatInt z) /\ ToInt (FormatInt z) = Some z.
Proof. exact (fun z I => conj (proj1 (FormatInt_spec z I)) (ToInt_FormatInt z I)). Qed.
Print Assumptions C05_format_parse.

(** C06: ExtractTimestamp. *)
Theorem C06_extract_timestamp : forall line ts off, (6 <= length line)%nat ->
  (ExtractTimestamp line = (ts, off) /\ off <> -1 <-> line_ts line ts off).
Proof. exact ExtractTimestamp_iff. Qed.
Print Assumptions C06_extract_timestamp.

Theorem C06_extract_timestamp_none : forall line,
  (length line < 6)%nat \/ (forall ts off, ~ line_ts line ts off) ->
  ExtractTimestamp line = (-1, -1).
Proof.
  exact ExtractTimestamp_none'.
Qed.
Print Assumptions C06_extract_timestamp_none.

Example C06_case : ExtractTimestamp (lit "weather temp=82 1465839830100400200") = (1465839830100400200, 16).
Proof. vm_compute. reflexivity. Qed.
Example C06_none : ExtractTimestamp (lit "weather temp=82,b=1 x") = (-1, -1).
Proof. vm_compute. reflexivity. Qed.

(** C07: ExtractNanos agrees, and exactly when it finds the timestamp. *)
Theorem C07_nanos_agrees : forall line ts off,
  ExtractNanos line = (ts, off) -> off <> -1 -> ExtractTimestamp line = (ts, off).
Proof. exact ExtractNanos_agrees. Qed.
Print Assumptions C07_nanos_agrees.

Theorem C07_nanos_exact : forall line ts off, (6 <= length line)%nat ->
  (ExtractNanos line = (ts, off) /\ off <> -1 <->
   exists pre txt, line_ts_split line pre txt ts /\ off = Z.of_nat (length pre) + 1 /\
     ~ In sp (skipn (length pre + length txt - 19) pre)).
Proof. exact ExtractNanos_iff. Qed.
Print Assumptions C07_nanos_exact.

Theorem C07_nanos_full_length : forall line pre txt ts,
  line_ts_split line pre txt ts -> length txt = 19%nat ->
  ExtractNanos line = (ts, Z.of_nat (length pre) + 1).
Proof. exact ExtractNanos_full. Qed.
Print Assumptions C07_nanos_full_length.

Example C07_differs : ExtractNanos (lit "weather temp=82 123456789") = (-1, -1) /\
  ExtractTimestamp (lit "weather temp=82 123456789") = (123456789, 16).
Proof. vm_compute. auto. Qed.

(** C08: precision conversion. *)
Theorem C08_safe_calc_time : forall ts p m, int64 ts -> precision_ns p m ->
  (- 2 ^ 63 + 2 <= ts * m <= 2 ^ 63 - 2 -> SafeCalcTime ts p = Some (ts * m)) /\
  (~ (- 2 ^ 63 + 2 <= ts * m <= 2 ^ 63 - 2) -> SafeCalcTime ts p = None).
Proof. exact (fun ts p m I P => conj (SafeCalcTime_ok ts p m I P) (SafeCalcTime_err ts p m I P)). Qed.
Print Assumptions C08_safe_calc_time.

Theorem C08_every_precision_has_a_unit : forall p, exists m, precision_ns p m.
Proof. exact (fun p => ex_intro _ _ (multiplier_spec p)). Qed.
Print Assumptions C08_every_precision_has_a_unit.

Example C08_case : SafeCalcTime 9223372036 (lit "s") = Some 9223372036000000000 /\
  SafeCalcTime 9223372037 (lit "s") = None.
Proof. vm_compute. auto. Qed.

(** C09: conversion of a line. *)
Theorem C09_precision_rewrite : forall line pre txt ts p m, (6 <= length line)%nat ->
  line_ts_split line pre txt ts -> precision_ns p m -> - 2 ^ 63 + 2 <= ts * m <= 2 ^ 63 - 2 ->
  exists txt', dec_text (ts * m) txt' /\
    applyTimestampPrecision line p = pre ++ [sp] ++ txt' ++ [nl].
Proof. exact apply_rewrite. Qed.
Print Assumptions C09_precision_rewrite.

Theorem C09_precision_unchanged : forall line p m, precision_ns p m ->
  ((length line < 6)%nat \/
   forall pre txt ts, line_ts_split line pre txt ts -> ~ (- 2 ^ 63 + 2 <= ts * m <= 2 ^ 63 - 2)) ->
  applyTimestampPrecision line p = line.
Proof. exact apply_unchanged. Qed.
Print Assumptions C09_precision_unchanged.

Example C09_case : applyTimestampPrecision (lit "weather temp=82 1465839830") (lit "s") =
  lit "weather temp=82 1465839830000000000" ++ [nl].
Proof. vm_compute. reflexivity. Qed.
