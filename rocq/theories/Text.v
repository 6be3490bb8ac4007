(** Model of influx/{escape,unescape,token,tags}.go: line protocol text. *)
From Verif Require Import Base.

(* ------------------------------------------------------------------ *)
(** * influx/escape.go *)

(** influx/escape.go:85-95 countBytes. *)
Definition countBytes (cs inp : bytes) : nat := length (filter (memb cs) inp).

(** influx/escape.go:75-82, the copying loop of Escape. *)
Fixpoint escape_loop (cs inp : bytes) : bytes :=
  match inp with
  | [] => []
  | b :: r => if memb cs b then bsl :: b :: escape_loop cs r else b :: escape_loop cs r
  end.

(** influx/escape.go:61-83 Escape (argument order: chars, in). *)
Definition Escape (cs inp : bytes) : bytes :=
  match cs with
  | [] => inp
  | _ => if Nat.eqb (countBytes cs inp) 0 then inp else escape_loop cs inp
  end.

(** influx/escape.go:23-25. *)
Definition EscapeTagPart (inp : bytes) : bytes := Escape (lit ",= ") inp.

(** influx/escape.go:29-31. *)
Definition EscapeMeasurement (inp : bytes) : bytes := Escape (lit ", ") inp.

(** influx/escape.go:35-58. *)
Definition EscapeQuotedString (inp : bytes) : bytes :=
  if Nat.eqb (countBytes [dq] inp) 0 then dq :: inp ++ [dq]
  else dq :: escape_loop [dq] inp ++ [dq].

(* ------------------------------------------------------------------ *)
(** * influx/unescape.go *)

(** The bytes that may follow a backslash: influx/unescape.go:46-47. *)
Definition unescapable (c : ascii) : bool := memb [comma; dq; sp; eqs] c.

(** influx/unescape.go:39-56, the loop of Unescape.  [i] is the head of [inp]. *)
Fixpoint unescape_loop (inp : bytes) : bytes :=
  match inp with
  | [] => []
  | a :: r =>
      match r with
      | b :: r' =>
          if Ascii.eqb a bsl && unescapable b then b :: unescape_loop r'
          else a :: unescape_loop r
      | [] => [a]
      end
  end.

(** influx/unescape.go:26-57 Unescape. *)
Definition Unescape (inp : bytes) : bytes :=
  if memb inp bsl then unescape_loop inp else inp.

(* ------------------------------------------------------------------ *)
(** * influx/token.go *)

(** influx/token.go:47-67: the loop of token.  [prev] is s[i-1], [rest] is s[i:];
    the result counts the bytes of [rest] that belong to the token. *)
Fixpoint token_scan (until : bytes) (prev : ascii) (rest : bytes) (escaped : bool) : nat * bool :=
  match rest with
  | [] => (O, escaped)
  | c :: rest' =>
      if Ascii.eqb prev bsl then
        let (n, e) := token_scan until c rest' true in (S n, e)
      else if memb until c then (O, escaped)
      else let (n, e) := token_scan until c rest' escaped in (S n, e)
  end.

(** influx/token.go:36-68 token.  Returns the length of the token and the escaped
    flag: the two slices Go returns are s[:n] and s[n:]. *)
Definition token (until s : bytes) : nat * bool :=
  match s with
  | [] => (O, false)
  | [c] => if memb until c then (O, false) else (1, false)
  | c :: rest => let (n, e) := token_scan until c rest false in (S n, e)
  end.

(** influx/token.go:21-27 Token (argument order: until, s). *)
Definition Token (until s : bytes) : bytes * bytes :=
  let (n, escaped) := token until s in
  ((if escaped then Unescape (firstn n s) else firstn n s), skipn n s).

(** influx/token.go:31-34 TokenEscaped. *)
Definition TokenEscaped (until s : bytes) : bytes * bytes :=
  let (n, _) := token until s in (firstn n s, skipn n s).

(** The three errors of QuotedString and its success: influx/token.go:74-102. *)
Inductive qres :=
| QOk (out rest : bytes)
| QTooShort
| QNoQuote
| QMissing.

(** influx/token.go:83-101: loop of QuotedString; [prev] = s[i-1], [rest] = s[i:],
    [acc] = s[1:i] reversed. *)
Fixpoint quoted_scan (prev : ascii) (rest acc : bytes) (escaped : bool) : qres :=
  match rest with
  | [] => QMissing
  | c :: rest' =>
      if Ascii.eqb c dq then
        if Ascii.eqb prev bsl then quoted_scan c rest' (c :: acc) true
        else QOk (if escaped then Unescape (rev acc) else rev acc) rest'
      else quoted_scan c rest' (c :: acc) escaped
  end.

(** influx/token.go:74-102 QuotedString. *)
Definition QuotedString (s : bytes) : qres :=
  match s with
  | [] | [_] => QTooShort
  | c :: rest => if Ascii.eqb c dq then quoted_scan c rest [] false else QNoQuote
  end.

(* ------------------------------------------------------------------ *)
(** * influx/tags.go *)

(** influx/tags.go:30-33 Tag and 36 TagSet. *)
Definition tag := (bytes * bytes)%type.

(** influx/tags.go:41 Less. *)
Definition tagLess (a b : tag) : bool := bltb (fst a) (fst b).

(** influx/tags.go:53-55: the test of the inner loop. *)
Definition tagEq (a b : tag) : bool := beqs (fst a) (fst b) && beqs (snd a) (snd b).

(** influx/tags.go:53-61: the inner loop over t for one otherTag.  The found array is
    kept beside each tag of t; the result is the updated array, the updated count and
    whether the early return was taken. *)
Fixpoint subset_inner (numTags : nat) (o : tag) (t : list tag) (found : list bool) (cnt : nat)
  : list bool * nat * bool :=
  match t, found with
  | tg :: t', f :: found' =>
      if negb f && tagEq tg o then
        if Nat.eqb (S cnt) numTags then (true :: found', S cnt, true)
        else let '(fs, c, r) := subset_inner numTags o t' found' (S cnt) in (true :: fs, c, r)
      else let '(fs, c, r) := subset_inner numTags o t' found' cnt in (f :: fs, c, r)
  | _, _ => (found, cnt, false)
  end.

(** influx/tags.go:52-62: the outer loop. *)
Fixpoint subset_outer (t : list tag) (other : list tag) (found : list bool) (cnt : nat) : bool :=
  match other with
  | [] => false
  | o :: other' =>
      let '(fs, c, r) := subset_inner (length t) o t found cnt in
      if r then true else subset_outer t other' fs c
  end.

(** influx/tags.go:44-64 SubsetOf. *)
Definition SubsetOf (t other : list tag) : bool :=
  match t with
  | [] => true
  | _ => subset_outer t other (repeat false (length t)) 0
  end.

(** influx/tags.go:82-91, loop of Bytes: a comma after every tag but the last. *)
Fixpoint tags_bytes_loop (t : list tag) : bytes :=
  match t with
  | [] => []
  | tg :: t' =>
      EscapeTagPart (fst tg) ++ eqs :: EscapeTagPart (snd tg) ++
      match t' with [] => [] | _ => comma :: tags_bytes_loop t' end
  end.

(** influx/tags.go:68-92 TagSet.Bytes (the buffer size estimate has no observable effect). *)
Definition TagsBytes (t : list tag) : bytes := tags_bytes_loop t.

(** Result of ParseTags; [PFuel] is not a Go outcome, it marks exhausted recursion
    fuel and is proved unreachable ([ParseTags_no_fuel]). *)
Inductive pres :=
| POk (measurement : bytes) (tags : list tag) (rest : bytes)
| PErr
| PFuel.

(** influx/tags.go:109-131: loop of ParseTags.  [acc] holds the tags in reverse. *)
Fixpoint parse_tags_loop (fuel : nat) (m : bytes) (line : bytes) (acc : list tag) : pres :=
  match fuel with
  | O => PFuel
  | S f =>
      match line with
      | [] => POk m (rev acc) []
      | c :: line1 =>
          if Ascii.eqb c sp then POk m (rev acc) line1
          else
            let (key, l2) := Token (lit "= ,") line1 in
            match l2 with
            | [] => PErr
            | d :: l3 =>
                if negb (Ascii.eqb d eqs) then PErr
                else
                  let (value, l4) := Token (lit ", ") l3 in
                  match value with
                  | [] => PErr
                  | _ => parse_tags_loop f m l4 ((key, value) :: acc)
                  end
            end
      end
  end.

(** influx/tags.go:99-132 ParseTags.  The nil/empty distinction is dropped. *)
Definition ParseTags (line : bytes) : pres :=
  let (m, l) := Token (lit ", ") line in
  match l with
  | [] => POk m [] []
  | _ => parse_tags_loop (S (length l)) m l []
  end.
