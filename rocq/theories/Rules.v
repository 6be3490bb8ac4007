(** Model of filter/rules.go, with the memory sharing between a line and the slices parsed
    out of it made explicit. *)
From Verif Require Import Base Text.

(* ------------------------------------------------------------------ *)
(** * Hashing *)

(** hash/fnv New32 Write (FNV-1): multiply, then xor; 32-bit arithmetic. *)
Definition fnv_prime : Z := 16777619.
Definition fnv_offset : Z := 2166136261.
Definition two32 : Z := 4294967296.
Definition fnv_step (h : Z) (c : ascii) : Z := Z.lxor ((h * fnv_prime) mod two32) (Z.of_N (bval c)).

(** filter/rules.go:50-54 hashMeasurement. *)
Definition hashMeasurement (m : bytes) : Z := fold_left fnv_step m fnv_offset.

(* ------------------------------------------------------------------ *)
(** * Slices of a line *)

(** A []byte produced by parsing a line: either a view into the line's memory (offset,
    length) or freshly allocated memory (influx.Unescape of a token with escapes copies). *)
Inductive slice := PView (off len : nat) | PCopy (b : bytes).

(** The bytes a slice currently denotes, given the line's memory. *)
Definition read (buf : bytes) (s : slice) : bytes :=
  match s with PView off len => firstn len (skipn off buf) | PCopy b => b end.

Definition ptag := (slice * slice)%type.
Definition read_tag (buf : bytes) (t : ptag) : tag := (read buf (fst t), read buf (snd t)).

(** influx/token.go:21-27 Token at offset [off] of [line]: the token and the offset of the
    remainder. *)
Definition tokenP (until line : bytes) (off : nat) : slice * nat :=
  let (n, escaped) := token until (skipn off line) in
  ((if escaped then PCopy (Unescape (firstn n (skipn off line))) else PView off n), (off + n)%nat).

(** influx/tags.go:109-131: loop of ParseTags with slices; the last component is the offset
    of the remainder (None: nil).  [PFuel] never happens (ParseTagsP_read). *)
Inductive ppres :=
| PPOk (m : slice) (tags : list ptag) (rem : option nat)
| PPErr
| PPFuel.

Fixpoint parse_tagsP_loop (fuel : nat) (line : bytes) (m : slice) (off : nat) (acc : list ptag) : ppres :=
  match fuel with
  | O => PPFuel
  | S f =>
      match skipn off line with
      | [] => PPOk m (rev acc) None
      | c :: _ =>
          if Ascii.eqb c sp then PPOk m (rev acc) (Some (off + 1)%nat)
          else
            let (key, off2) := tokenP (lit "= ,") line (off + 1) in
            match skipn off2 line with
            | [] => PPErr
            | d :: _ =>
                if negb (Ascii.eqb d eqs) then PPErr
                else
                  let (value, off4) := tokenP (lit ", ") line (off2 + 1) in
                  match read line value with
                  | [] => PPErr
                  | _ => parse_tagsP_loop f line m off4 ((key, value) :: acc)
                  end
            end
      end
  end.

(** influx/tags.go:99-132 ParseTags. *)
Definition ParseTagsP (line : bytes) : ppres :=
  let (m, off) := tokenP (lit ", ") line 0 in
  match skipn off line with
  | [] => PPOk m [] None
  | _ => parse_tagsP_loop (S (length line)) line m off []
  end.

(* ------------------------------------------------------------------ *)
(** * parsedLine *)

(** filter/rules.go:185-194 parsedLine.  [pl_buf] is the memory of the raw line;
    [pl_escaped] is None while Escaped is the raw line itself and [Some b] once it was
    replaced by newly allocated bytes.  The two caches (unescaped, hashedMeasurement) are
    left out: nothing they depend on changes after their first use. *)
Record parsedLine := mkPL {
  pl_buf : bytes; pl_escaped : option bytes; pl_meas : slice; pl_tags : list ptag; pl_rem : option nat }.

Definition Escaped (pl : parsedLine) : bytes := match pl_escaped pl with None => pl_buf pl | Some b => b end.
Definition Measurement (pl : parsedLine) : bytes := read (pl_buf pl) (pl_meas pl).
Definition Tags (pl : parsedLine) : list tag := map (read_tag (pl_buf pl)) (pl_tags pl).
Definition Remainder (pl : parsedLine) : bytes :=
  match pl_rem pl with None => [] | Some off => skipn off (pl_buf pl) end.

(** filter/rules.go:165-177 newParsedLine. *)
Definition newParsedLine (line : bytes) : option parsedLine :=
  match ParseTagsP line with
  | PPOk m tags rem => Some (mkPL line None m tags rem)
  | _ => None
  end.

(** filter/rules.go:196-202 Unescaped. *)
Definition Unescaped (pl : parsedLine) : bytes := Unescape (Escaped pl).
(** filter/rules.go:204-210 HashedMeasurement. *)
Definition HashedMeasurement (pl : parsedLine) : Z := hashMeasurement (Measurement pl).

(** sort.IsSorted: no element is less than its predecessor. *)
Fixpoint IsSorted {A} (less : A -> A -> bool) (l : list A) : bool :=
  match l with
  | a :: (b :: _) as l' => negb (less b a) && IsSorted less l'
  | _ => true
  end.

Section Sort.
  (** sort.Sort, any implementation: see [sorts] in RulesSpec.v. *)
  Variable gosort : forall A : Type, (A -> A -> bool) -> list A -> list A.

  (** filter/rules.go:212-244 SortTags. *)
  Definition SortTags (pl : parsedLine) : parsedLine :=
    let less a b := tagLess (read_tag (pl_buf pl) a) (read_tag (pl_buf pl) b) in
    if IsSorted less (pl_tags pl) then pl
    else
      let tags := gosort ptag less (pl_tags pl) in
      let newHdr := EscapeMeasurement (Measurement pl) ++ [comma]
                      ++ TagsBytes (map (read_tag (pl_buf pl)) tags) in
      match Remainder pl with
      | [] => mkPL (pl_buf pl) (Some newHdr) (pl_meas pl) tags (pl_rem pl)
      | _ =>
          if Nat.eqb (length newHdr + length (Remainder pl) + 1) (length (Escaped pl)) then
            (* copy(pl.Escaped, newHdr): overwrites the memory the tags point into *)
            mkPL (newHdr ++ skipn (length newHdr) (pl_buf pl)) None (pl_meas pl) tags (pl_rem pl)
          else mkPL (pl_buf pl) (Some (newHdr ++ [sp] ++ Remainder pl)) (pl_meas pl) tags (pl_rem pl)
      end.
End Sort.

(* ------------------------------------------------------------------ *)
(** * Rules *)

(** What a rule matches on; regular expressions are arbitrary predicates on byte strings. *)
Inductive matcher :=
| MBasic (measurement : bytes)
| MTags (tags : list tag)
| MRegex (re : bytes -> bool)
| MNegRegex (re : bytes -> bool).

(** filter/rules.go:27-35 Rule. *)
Record rule := mkRule { r_match : matcher; r_subject : bytes }.

(** filter/rules.go:39-89: the match functions of the four kinds of rule. *)
Definition rule_matches (r : rule) (pl : parsedLine) : bool :=
  match r_match r with
  | MBasic m => Z.eqb (hashMeasurement m) (HashedMeasurement pl)
  | MTags ts => SubsetOf ts (Tags pl)
  | MRegex re => re (Unescaped pl)
  | MNegRegex re => negb (re (Unescaped pl))
  end.

(** filter/rules.go:156-163 LookupParsed; [None] is -1. *)
Fixpoint lookup_from (i : nat) (rs : list rule) (pl : parsedLine) : option nat :=
  match rs with
  | [] => None
  | r :: rs' => if rule_matches r pl then Some i else lookup_from (S i) rs' pl
  end.
Definition LookupParsed (rs : list rule) (pl : parsedLine) : option nat := lookup_from 0 rs pl.

(** filter/rules.go:145-151 Lookup. *)
Definition Lookup (rs : list rule) (line : bytes) : option nat :=
  match newParsedLine line with None => None | Some pl => LookupParsed rs pl end.

(** filter/rules.go:136-142 Subjects. *)
Definition Subjects (rs : list rule) : list bytes := map r_subject rs.
