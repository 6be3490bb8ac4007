(** The line grammar that the filter and the downsampler actually accept, and the grammar one would expect. *)
From Verif Require Import Base TextSpec.

(** Removing the backslash in front of each comma, double quote, space and equals sign. *)
Fixpoint unesc (t : bytes) : bytes :=
  match t with
  | a :: ((b :: r) as r') => if Ascii.eqb a bsl && memb [comma; dq; sp; eqs] b then b :: unesc r else a :: unesc r'
  | _ => t
  end.

(** A part of a line, as delimited by the bytes [ds]: not empty, and every delimiter in it but a leading one comes
    after a backslash.  [lead = false] forbids a leading delimiter as well. *)
Definition part (lead : bool) (ds t : bytes) : Prop :=
  t <> [] /\ forall p d q, t = p ++ d :: q -> In d ds -> (lead = true /\ p = []) \/ ends_in bsl p.

(** [part_before lead ds t s]: [t] is the part at the beginning of the text [t ++ s]: if something follows, [t] does not
    end in a backslash; if nothing follows, [t] is not a single delimiter. *)
Definition part_before (lead : bool) (ds t s : bytes) : Prop :=
  part lead ds t /\ (s <> [] -> ~ ends_in bsl t) /\ (s = [] -> forall d, t = [d] -> ~ In d ds).

(** ",key=value,key=value rest": the tags and the rest after the space. *)
Inductive tags_text (lead : bool) : bytes -> list (bytes * bytes) -> bytes -> Prop :=
| tags_end : tags_text lead [] [] []
| tags_rest r : tags_text lead (sp :: r) [] r
| tags_more k v s tags r :
    part lead [eqs; sp; comma] k -> ~ ends_in bsl k -> part_before lead [comma; sp] v s ->
    tags_text lead s tags r ->
    tags_text lead (comma :: k ++ eqs :: v ++ s) ((unesc k, unesc v) :: tags) r.

(** A whole line: measurement, tags, rest (fields and timestamp). *)
Definition line_text (lead : bool) (line m : bytes) (tags : list (bytes * bytes)) (r : bytes) : Prop :=
  exists t s, line = t ++ s /\ m = unesc t /\ part_before lead [comma; sp] t s /\ tags_text lead s tags r.

(** ",name=value,name=value" as the downsampler reads it: [seps = true] lets any byte stand for the comma.  Each field
    with whether its value was quoted, and the value without quotes and backslashes. *)
Inductive fields_text (seps lead : bool) : bytes -> list (bytes * bool * bytes) -> Prop :=
| fields_end : fields_text seps lead [] []
| fields_quoted c n body s l :
    (seps = true \/ c = comma) -> part lead [eqs] n -> ~ ends_in bsl n ->
    (forall p q, body = p ++ dq :: q -> ends_in bsl p) -> ~ ends_in bsl body ->
    fields_text seps lead s l ->
    fields_text seps lead (c :: n ++ eqs :: dq :: body ++ dq :: s)
      ((n, true, if memb body dq then unesc body else body) :: l)
| fields_plain c n v s l :
    (seps = true \/ c = comma) -> part lead [eqs] n -> ~ ends_in bsl n ->
    part_before lead [comma] v s -> (forall r, v <> dq :: r) -> (s = [] \/ exists r, s = comma :: r) ->
    fields_text seps lead s l ->
    fields_text seps lead (c :: n ++ eqs :: v ++ s) ((n, false, unesc v) :: l).
