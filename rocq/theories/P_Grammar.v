(** Property theorems C73 (which lines the filter accepts) and C74 (which field sections the downsampler accepts).

    [line_text false line m tags r] (GrammarSpec): [line] is "measurement,key=value,...,key=value rest", every part
    non-empty and with its delimiters escaped; [line_text true] also allows a part to begin with an unescaped delimiter. *)
From Verif Require Import Base Text TextSpec TextProofs Avg AvgSpec AvgProofs GrammarSpec GrammarProofs.

(** C73: false of the code: a tag without value is accepted and swallows the next tag, whatever that is. *)
Theorem C73_refuted : forall m k x r, part false [comma; sp] m -> ~ ends_in bsl m ->
  part false [eqs; sp; comma] k -> ~ ends_in bsl k -> part false [comma; sp] x -> ~ ends_in bsl x ->
  ParseTags (m ++ comma :: k ++ eqs :: comma :: x ++ sp :: r) = POk (unesc m) [(unesc k, comma :: unesc x)] r.
Proof. exact swallow. Qed.
Print Assumptions C73_refuted.

(** ... such lines are not well-formed. *)
Theorem C73_not_well_formed_refuted :
  ParseTags (lit "cpu,a=,b=c f=1") = POk (lit "cpu") [(lit "a", lit ",b=c")] (lit "f=1") /\
  ~ exists m tags r, line_text false (lit "cpu,a=,b=c f=1") m tags r.
Proof. exact (conj eq_refl not_strict). Qed.
Print Assumptions C73_not_well_formed_refuted.

(** Proved: exactly which lines are accepted, and with which contents. *)
Theorem C73_accepted_partial : forall line m tags r, ParseTags line = POk m tags r <->
  line_text true line m tags r \/ ((line = [] \/ line = [sp]) /\ m = [] /\ tags = [] /\ r = []).
Proof. exact parse_iff. Qed.
Print Assumptions C73_accepted_partial.

Theorem C73_rejected_partial : forall line, ParseTags line = PErr <->
  line <> [] /\ line <> [sp] /\ ~ exists m tags r, line_text true line m tags r.
Proof. exact parse_err_iff. Qed.
Print Assumptions C73_rejected_partial.

(** Every well-formed line is accepted, and a line accepted is well-formed if it does not begin with a delimiter and has no
    comma or equals sign right before a delimiter. *)
Theorem C73_well_formed_partial : forall line m tags r,
  (line_text false line m tags r -> ParseTags line = POk m tags r) /\
  (line <> [] -> (forall d q, line = d :: q -> ~ In d [comma; sp]) ->
   (forall p a d q, line = p ++ a :: d :: q -> In a [comma; eqs] -> ~ In d [comma; sp; eqs]) ->
   ParseTags line = POk m tags r -> line_text false line m tags r).
Proof.
  exact (fun line m tags r => conj
    (fun H => proj2 (parse_iff line m tags r) (or_introl (line_weaken _ _ _ _ H)))
    (fun Ne F1 F2 H => match proj1 (parse_iff line m tags r) H with
       | or_introl T => line_strict line m tags r T F1 F2
       | or_intror (conj (or_introl E) _) => False_ind _ (Ne E)
       | or_intror (conj (or_intror E) _) => False_ind _ (F1 sp [] E (or_intror (or_introl eq_refl)))
       end)).
Qed.
Print Assumptions C73_well_formed_partial.

Lemma part_plain ds t : t <> [] -> (forall d, In d ds -> ~ In d t) -> part false ds t.
Proof. intros N F. split; auto. intros p d q -> I. exfalso. apply (F d I). apply in_or_app. right. left. auto. Qed.
Ltac plain := apply part_plain; [discriminate|intros d Hd Ht; cbn in Hd, Ht; intuition (subst; discriminate)].
Ltac noend := intros (p & E); apply (f_equal (@rev ascii)) in E; rewrite rev_unit in E; discriminate E.
Example C73_case : line_text false (lit "cpu,host=a\ b,dc=x f=1 12") (lit "cpu") [(lit "host", lit "a b"); (lit "dc", lit "x")] (lit "f=1 12").
Proof.
  exists (lit "cpu"), (lit ",host=a\ b,dc=x f=1 12"). split; [reflexivity|]. split; [reflexivity|].
  split; [split; [plain|split; [intros _; noend|discriminate]]|].
  apply (tags_more false (lit "host") (lit "a\ b") (lit ",dc=x f=1 12")); [plain|noend| |].
  - split; [|split; [intros _; noend|discriminate]]. split; [discriminate|]. intros p d q E I. right.
    destruct p as [|a [|a' [|a'' [|a3 p]]]]; cbn in E; inversion E; subst;
      try (destruct I as [I|[I|[]]]; discriminate I).
    + exists (lit "a"). reflexivity.
    + destruct p; discriminate.
  - apply (tags_more false (lit "dc") (lit "x") (lit " f=1 12")); [plain|noend| |constructor].
    split; [plain|split; [intros _; noend|discriminate]].
Qed.

(** C74: false of the code: whatever follows a quoted value is taken for a separator, so that a line with garbage there
    is accepted and gives a field that nobody sent; and a field without value swallows the next field. *)
Theorem C74_refuted : forall fo,
  AddLine fo [] (lit "cpu f=""a""xyz=""b""") = ([(lit "cpu", [(lit "f", VString fo (lit "a")); (lit "yz", VString fo (lit "b"))])], []) /\
  AddLine fo [] (lit "cpu f=,g=1") = ([(lit "cpu", [(lit "f", newFieldValue fo (lit ",g=1"))])], []) /\
  (f_parse fo (lit ",g=1") = None -> newFieldValue fo (lit ",g=1") = VRaw fo (lit ",g=1")).
Proof.
  exact (fun fo => conj eq_refl (conj eq_refl (fun H =>
    eq_trans (eq_refl : newFieldValue fo (lit ",g=1") = match f_parse fo (lit ",g=1") with Some fv => VFloat fo fv 1 | None => VRaw fo (lit ",g=1") end)
      (f_equal (fun o => match o with Some fv => VFloat fo fv 1 | None => VRaw fo (lit ",g=1") end) H)))).
Qed.
Print Assumptions C74_refuted.

(** Proved: the errors of a line are only type errors exactly if its field section is in the grammar
    [fields_text true true] (any byte as separator, parts may begin with a delimiter). *)
Theorem C74_structure_partial : forall fo (b : avgBucket fo) key raw,
  part_before true [sp] key raw -> (raw = [] \/ exists r, raw = sp :: r) ->
  (Forall (fun e => e = EWrongType) (snd (AddLine fo b (key ++ raw))) <-> exists l, fields_text true true raw l).
Proof. exact add_structure. Qed.
Print Assumptions C74_structure_partial.

(** For a series not seen in the period: a line in the grammar without repeated field is accepted, and each field
    starts with its value; a line without errors is in the grammar. *)
Theorem C74_new_series_partial : forall fo (b : avgBucket fo) key raw,
  part_before true [sp] key raw -> (raw = [] \/ exists r, raw = sp :: r) -> mget b key = None ->
  (forall l, fields_text true true raw l -> NoDup (map (fun a => fst (fst a)) l) ->
     snd (AddLine fo b (key ++ raw)) = [] /\
     exists fields, mget (fst (AddLine fo b (key ++ raw))) key = Some fields /\
       forall n q v, In (n, q, v) l -> mget fields n = Some (if q then VString fo v else newFieldValue fo v)) /\
  (snd (AddLine fo b (key ++ raw)) = [] -> exists l, fields_text true true raw l).
Proof. exact add_new. Qed.
Print Assumptions C74_new_series_partial.

(** A well-formed field section " name=value,name=value" is in that grammar. *)
Theorem C74_well_formed_partial : forall raw l, fields_text false false (comma :: raw) l -> fields_text true true (sp :: raw) l.
Proof. exact (fun raw l H => fields_first_sep comma sp raw l (fields_weaken _ _ H)). Qed.
Print Assumptions C74_well_formed_partial.

Example C74_case : fields_text false false (lit ",f=1,g=""a\""b"",h=true") [(lit "f", false, lit "1"); (lit "g", true, lit "a""b"); (lit "h", false, lit "true")].
Proof.
  apply (fields_plain false false comma (lit "f") (lit "1") (lit ",g=""a\""b"",h=true"));
    [auto|plain|noend|split; [plain|split; [intros _; noend|discriminate]]|intros r Hr; discriminate|right; eexists; reflexivity|].
  apply (fields_quoted false false comma (lit "g") (lit "a\""b") (lit ",h=true")); [auto|plain|noend| |noend|].
  - intros p q E. destruct p as [|a [|a' [|a'' [|a3 p]]]]; cbn in E; inversion E; subst; [exists (lit "a"); reflexivity|destruct p; discriminate].
  - apply (fields_plain false false comma (lit "h") (lit "true") []);
      [auto|plain|noend|split; [plain|split; [congruence|intros _ d E; discriminate]]|intros r Hr; discriminate|auto|constructor].
Qed.
