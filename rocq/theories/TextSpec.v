(** Specification vocabulary for line protocol text, independent of the model. *)
From Verif Require Import Base.

(** [v] contains byte [a] immediately followed by one of [bs]. *)
Definition has_pair (a : ascii) (bs : bytes) (v : bytes) : Prop :=
  exists p c q, v = p ++ a :: c :: q /\ In c bs.

(** [v] ends in the byte [c]. *)
Definition ends_in (c : ascii) (v : bytes) : Prop := exists p, v = p ++ [c].

(** A name that survives the line protocol: not empty, not ending in a backslash and
    without a backslash pair that unescaping would eat although escaping did not add it. *)
Definition good_measurement (m : bytes) : Prop :=
  m <> [] /\ ~ ends_in bsl m /\ ~ has_pair bsl [dq; eqs] m.
Definition good_tagpart (v : bytes) : Prop :=
  v <> [] /\ ~ ends_in bsl v /\ ~ has_pair bsl [dq] v.
Definition good_tag (t : bytes * bytes) : Prop :=
  good_tagpart (fst t) /\ good_tagpart (snd t).

(** Canonical escaping, written independently: every byte of [cs] gets a backslash. *)
Definition esc_spec (cs v : bytes) : bytes :=
  flat_map (fun b => if memb cs b then [bsl; b] else [b]) v.

(** The text of a line "m,k1=v1,k2=v2 rest" (or "m rest"). *)
Definition render_line (m : bytes) (tags : list (bytes * bytes)) (rest : bytes) : bytes :=
  esc_spec [comma; sp] m
    ++ flat_map (fun t => [comma] ++ esc_spec [comma; eqs; sp] (fst t) ++ [eqs]
                              ++ esc_spec [comma; eqs; sp] (snd t)) tags
    ++ [sp] ++ rest.
