(** Property theorems C71 (size of the filter's messages) and C72 (influx-spout-tap). *)
From Verif Require Import Base Text TextSpec NumSpec LinesSpec Rules RulesSpec RulesProofs FilterWorker FilterSpec FilterSize Tap.
Local Open Scope nat_scope.

(** C71: false of the code: a message (one line, tags not in order, a tag value of n equals signs) is published
    n bytes longer than it was received - for every n. *)
Theorem C71_refuted : forall gosort oks now delta junk n, sorts gosort -> int64 (now - delta) -> int64 (now + delta) -> (0 < delta)%Z ->
  exists text, published (snd (processBatch gosort (mkFcfg delta [] junk) oks now (newFilterWorker (mkFcfg delta [] junk)) (grower n))) = [(junk, text)] /\
    length text = length (grower n) + n.
Proof. exact grower_out. Qed.
Print Assumptions C71_refuted.

(** Proved: all messages published for one received message together are at most twice as large; ... *)
Theorem C71_twice_partial : forall gosort c oks now batch, sorts gosort -> int64 (now - fc_delta c) -> int64 (now + fc_delta c) ->
  total_bytes (published (snd (processBatch gosort c oks now (newFilterWorker c) batch))) <= 2 * length batch.
Proof. exact size_bound. Qed.
Print Assumptions C71_twice_partial.

(** ... and no larger at all when the lines have their tags in order or are escaped the way the filter writes them. *)
Theorem C71_same_partial : forall gosort c oks now batch, sorts gosort -> int64 (now - fc_delta c) -> int64 (now + fc_delta c) ->
  Forall (fun l => canonical l \/ in_key_order l) (lines_of batch) ->
  total_bytes (published (snd (processBatch gosort c oks now (newFilterWorker c) batch))) <= length batch.
Proof. exact size_same. Qed.
Print Assumptions C71_same_partial.

Example C71_case : canonical (lit "foo,host=s\=1,dc=n\,y x=1
") /\ in_key_order (lit "foo,a=1,b=2 x=1
") /\
  total_bytes (published (snd (processBatch (@isort) (mkFcfg 1000 [] (lit "junk")) (fun _ => true) 1500000000000000000
    (newFilterWorker (mkFcfg 1000 [] (lit "junk"))) (lit "foo,host=s\=1,dc=n\,y x=1
foo,a=1,b=2 x=1
")))) = 42.
Proof.
  assert (G : forall v, v <> [] -> memb v bsl = false -> good_tagpart v).
  { intros v N M. apply memb_false in M. split; auto. split; [intros [p E]|intros (p & x & q & E & _)]; apply M; rewrite E; apply in_or_app; right; left; auto. }
  split; [|split; [|vm_compute; reflexivity]].
  - exists (lit "foo"), [(lit "host", lit "s=1"); (lit "dc", lit "n,y")], (lit "x=1
"). split; [discriminate|]. split; [|split].
    + destruct (G (lit "foo")) as (A & B & _); [discriminate|reflexivity|]. split; auto. split; auto.
      intros (p & x & q & E & _). assert (M : memb (lit "foo") bsl = false) by reflexivity. apply memb_false in M. apply M. rewrite E. apply in_or_app; right; left; auto.
    + repeat constructor; apply G; try discriminate; reflexivity.
    + reflexivity.
  - intros m tags rest H. vm_compute in H. inversion H; subst. intros i j a b L Ha Hb.
    destruct i as [|[|i]], j as [|[|j]]; cbn in Ha, Hb; try lia; try (destruct i; discriminate); try (destruct j; discriminate).
    inversion Ha; inversion Hb; subst. reflexivity.
Qed.

(** C72: false of the code: the line is used as a format; where it has two percent signs one is printed. *)
Theorem C72_refuted : forall printf a b, prints printf -> ~ In pct a -> ~ In nl a -> ~ In pct b -> ~ In nl b ->
  process printf None (a ++ pct :: pct :: b ++ [nl]) = a ++ pct :: b ++ [nl].
Proof. exact tap_garbles. Qed.
Print Assumptions C72_refuted.

(** Proved for messages without percent sign: exactly the lines the expression matches are printed, all of them
    without -e. *)
Theorem C72_verbatim_partial : forall printf re data, prints printf -> ~ In pct data ->
  process printf re data = concat (filter (fun l => match re with Some m => m l | None => true end) (lines_of data)).
Proof. exact tap_verbatim. Qed.
Print Assumptions C72_verbatim_partial.

Example C72_case : prints printf0 /\ process printf0 (Some (fun l => memb l "c"%char)) (lit "cpu x=1
mem x=2
c") = lit "cpu x=1
c".
Proof. split; [exact printf0_prints|vm_compute; reflexivity]. Qed.
