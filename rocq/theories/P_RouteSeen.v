(** C27: what a tags rule sees of a line which the filter rewrites in place. *)
From Verif Require Import Base Text TextSpec TextProofs Rules RulesSpec RulesProofs RouteProofs RouteSeen.
Local Open Scope nat_scope.

(** Exactly what the rules see of such a line (without backslashes): instead of each tag the bytes which now stand where it stood.
    The first rule that fits these is chosen.  With C27_rules_see_the_line_partial, for all other lines, this determines the choice
    for every line without backslashes (and whose measurement does not begin with a comma or a space). *)
Theorem C27_exact_partial : forall gosort rs line pl m tags rest, sorts gosort ->
  newParsedLine line = Some pl -> ParseTags line = POk m tags rest -> no_collision rs m ->
  ~ In bsl line -> plain_start m -> ~ not_in_place line m tags rest ->
  first_such (fun r => means (r_match r) m (seen (Escaped (SortTags gosort pl)) (length m + 1) tags) (Escaped (SortTags gosort pl))) rs
             (LookupParsed rs (SortTags gosort pl)).
Proof. exact route_seen. Qed.
Print Assumptions C27_exact_partial.

(** The right rule is chosen, in spite of the rewriting, if all keys of the line are equally long and all its values are. *)
Theorem C27_equally_long_partial : forall gosort rs line pl m tags rest, sorts gosort ->
  newParsedLine line = Some pl -> ParseTags line = POk m tags rest -> no_collision rs m ->
  ~ In bsl line -> unescaped m tags -> equally_long tags ->
  first_such (fun r => means (r_match r) m tags (Escaped (SortTags gosort pl))) rs (LookupParsed rs (SortTags gosort pl)).
Proof. exact route_equally_long. Qed.
Print Assumptions C27_equally_long_partial.

(** What is seen of the line of C27_refuted, host=s1,dc=nyc: "dc=n" and the like, neither of its tags. *)
Example C27_exact_case :
  ParseTags (lit "foo,host=s1,dc=nyc x=1") = POk (lit "foo") [(lit "host", lit "s1"); (lit "dc", lit "nyc")] (lit "x=1") /\
  ~ not_in_place (lit "foo,host=s1,dc=nyc x=1") (lit "foo") [(lit "host", lit "s1"); (lit "dc", lit "nyc")] (lit "x=1") /\
  seen (lit "foo,dc=nyc,host=s1 x=1") 4 [(lit "host", lit "s1"); (lit "dc", lit "nyc")] = [(lit "dc=n", lit "c,"); (lit "os", lit "=s1")] /\
  plain_start (lit "foo").
Proof.
  split; [vm_compute; reflexivity|]. split; [|split; [vm_compute; reflexivity|]].
  - intros [K|[E|L]]; [|discriminate E|apply L; vm_compute; reflexivity].
    apply IsSorted_iff in K; [discriminate K|apply tagLess_weak].
  - intros c r E. inversion E; subst. split; discriminate.
Qed.

(** Two unsorted tags, equally long: the line is rewritten in place, and the rule for one of them is chosen. *)
Example C27_equally_long_case :
  let line := lit "foo,dc=ny,az=b1 x=1" in let tags := [(lit "dc", lit "ny"); (lit "az", lit "b1")] in
  ParseTags line = POk (lit "foo") tags (lit "x=1") /\ ~ keys_sorted tags /\ unescaped (lit "foo") tags /\ equally_long tags /\
  exists pl, newParsedLine line = Some pl /\ Escaped (SortTags (@isort) pl) = lit "foo,az=b1,dc=ny x=1" /\
    LookupParsed [mkRule (MTags [(lit "az", lit "ny")]) (lit "no"); mkRule (MTags [(lit "dc", lit "ny")]) (lit "s")] (SortTags (@isort) pl) = Some 1.
Proof.
  cbv zeta. split; [vm_compute; reflexivity|]. split; [|split; [|split]].
  - intros K. apply IsSorted_iff in K; [discriminate K|apply tagLess_weak].
  - split; [intros c; cbn; intuition (subst; discriminate)|].
    apply Forall_forall. intros t H c. cbn in H. destruct H as [<-|[<-|[]]]; cbn; intuition (subst; discriminate).
  - intros t t' H H'. cbn in H, H'. intuition (subst; reflexivity).
  - eexists. split; [vm_compute; reflexivity|]. split; vm_compute; reflexivity.
Qed.
