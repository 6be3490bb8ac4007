(** What rules and tag ordering are supposed to mean, on values. *)
From Verif Require Import Base Text TextSpec Rules.

(** A strict weak order, as sort.Interface requires of Less. *)
Definition strict_weak {A} (less : A -> A -> bool) : Prop :=
  (forall a, less a a = false) /\
  (forall a b c, less a b = true -> less b c = true -> less a c = true) /\
  (forall a b c, less a b = false -> less b a = false -> less b c = false -> less c b = false ->
     less a c = false /\ less c a = false).

(** No element is less than an earlier one. *)
Definition in_order {A} (less : A -> A -> bool) (l : list A) : Prop :=
  forall i j a b, i < j -> nth_error l i = Some a -> nth_error l j = Some b -> less b a = false.

(** A correct sorting function: returns an ordered permutation (not necessarily stable). *)
Definition sorts (gosort : forall A : Type, (A -> A -> bool) -> list A -> list A) : Prop :=
  forall A less l, strict_weak less -> Permutation l (gosort A less l) /\ in_order less (gosort A less l).

(** Insertion sort, to show that such functions exist. *)
Fixpoint insert {A} (less : A -> A -> bool) (x : A) (l : list A) : list A :=
  match l with
  | [] => [x]
  | y :: l' => if less y x then y :: insert less x l' else x :: l
  end.
Fixpoint isort {A} (less : A -> A -> bool) (l : list A) : list A :=
  match l with [] => [] | x :: l' => insert less x (isort less l') end.

(** Keys in ascending byte order. *)
Definition keys_sorted (tags : list tag) : Prop := in_order tagLess tags.

(** The ideal meaning of a matcher for a line with measurement [m], tags [tags] and text [text]. *)
Definition means (k : matcher) (m : bytes) (tags : list tag) (text : bytes) : Prop :=
  match k with
  | MBasic name => m = name
  | MTags ts => incl ts tags
  | MRegex re => re (Unescape text) = true
  | MNegRegex re => re (Unescape text) = false
  end.

(** [i] is the first element satisfying P; None when there is none. *)
Definition first_such {A} (P : A -> Prop) (l : list A) (o : option nat) : Prop :=
  match o with
  | None => forall a, In a l -> ~ P a
  | Some i => (exists a, nth_error l i = Some a /\ P a) /\
              forall j a, j < i -> nth_error l j = Some a -> ~ P a
  end.

(** A rule that looks at tags. *)
Definition is_tag_rule (r : rule) : Prop := exists ts, r_match r = MTags ts.

(** The measurement does not start with a comma or a space. *)
Definition plain_start (m : bytes) : Prop := forall c r, m = c :: r -> c <> comma /\ c <> sp.

(** The line is not rewritten in place: its tags are already in order, or there is nothing after
    the tags, or writing the parts again gives a text of another length. *)
Definition not_in_place (line m : bytes) (tags : list tag) (rest : bytes) : Prop :=
  keys_sorted tags \/ rest = [] \/ length (render_line m tags rest) <> length line.
