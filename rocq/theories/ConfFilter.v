(** The cases of /repo/filter/rules_small_test.go run on the model: evidence that the model agrees with the code, not part
    of any proof.  Generated by tools/gen_conf_filter.py.  Regular expressions are predicates in the model; those of the
    tests are written out here. *)
From Verif Require Import ConfTac Base Text RulesSpec Rules Config.
Local Open Scope Z_scope.

Fixpoint starts (p s : bytes) : bool := match p, s with [], _ => true | x :: p', y :: s' => Ascii.eqb x y && starts p' s' | _, _ => false end.
Fixpoint contains (p s : bytes) : bool := starts p s || match s with [] => false | _ :: s' => contains p s' end.
Fixpoint spaces_o (s : bytes) : bool := match s with c :: s' => Ascii.eqb c sp && (starts (lit "o") s' || spaces_o s') | [] => false end.
Fixpoint rx_hell_o (s : bytes) : bool := (starts (lit "hell") s && spaces_o (skipn 4 s)) || match s with [] => false | _ :: s' => rx_hell_o s' end.
Definition rx_hel_etc (s : bytes) : bool := starts (lit "hel") s || contains (lit ",etc=false") s.
Definition rx_hel_low (s : bytes) : bool := contains (lit "hel") s || contains (lit "low") s.

(** RuleSetFromConfig of TestRuleSet; regular expressions without operators match as substrings. *)
Definition conf_rules : list crule := [
  CRule (lit "basic") (lit "basic-match") [] (lit "basic-sub"); CRule (lit "tags") [] [[lit "foo"; lit "bar"]] (lit "tags-sub");
  CRule (lit "regex") (lit "regex-match") [] (lit "regex-sub"); CRule (lit "negregex") (lit "negreg-match") [] (lit "negregex-sub")].
Definition conf_rs : list rule :=
  match ruleSetLoop (fun re => Some (contains re)) conf_rules [] with RsOk rs => rs | _ => [] end.
Example conf_RuleSetFromConfig : length conf_rs = 4%nat /\ Subjects conf_rs = [lit "basic-sub"; lit "tags-sub"; lit "regex-sub"; lit "negregex-sub"].
Proof. vm_compute. auto. Qed.

(** filter/rules_small_test.go TestBasicRule *)
Example conf_TestBasicRule : Forall (fun c => Lookup [mkRule (MBasic (lit "hello")) []] (fst c) = snd c) [
  ((lit "hello,a=b x=y"), Some 0%nat);
  ((lit "hello a=b,x=y"), Some 0%nat);
  ((lit "cocacola a=b x=y"), None);
  ((lit "pepsi,a=b x=y"), None);
  ((lit "pepsi,hello=b x=y"), None);
  ((lit "pepsi,a=b hello=y"), None)].
Proof. table. Qed.

(** filter/rules_small_test.go TestBasicRuleUnescapes *)
Example conf_TestBasicRuleUnescapes : Forall (fun c => Lookup [mkRule (MBasic (lit "hell o")) []] (fst c) = snd c) [
  ((lit "hell\ o foo=bar"), Some 0%nat);
  ((lit "hell\ o,foo=bar"), Some 0%nat);
  ((lit "hell o foo=bar"), None);
  ((lit "hell\,o foo=bar"), None)].
Proof. table. Qed.

(** filter/rules_small_test.go TestRegexRule *)
Example conf_TestRegexRule : Forall (fun c => Lookup [mkRule (MRegex rx_hel_etc) []] (fst c) = snd c) [
  ((lit "hello,host=gopher01 somefield=11,etc=false"), Some 0%nat);
  ((lit "bye,host=gopher01 somefield=11,etc=false"), Some 0%nat);
  ((lit "cocacola,host=gopher01 somefield=11,etc=true"), None);
  ((lit "pepsi host=gopher01,somefield=11,etc=true"), None)].
Proof. table. Qed.

(** filter/rules_small_test.go TestRegexRuleUnescapes *)
Example conf_TestRegexRuleUnescapes : Forall (fun c => Lookup [mkRule (MRegex rx_hell_o) []] (fst c) = snd c) [
  ((lit "hell\ o x=y"), Some 0%nat);
  ((lit "hell\ \ oworld x=y"), Some 0%nat);
  ((lit "foo hell\ o=y"), Some 0%nat);
  ((lit "hell x=1,x=y"), None)].
Proof. table. Qed.

(** filter/rules_small_test.go TestNegativeRegexRule *)
Example conf_TestNegativeRegexRule : Forall (fun c => Lookup [mkRule (MNegRegex rx_hel_low) []] (fst c) = snd c) [
  ((lit "hello,host=gopher01 x=y"), None);
  ((lit "bye,host=gopher01 x=low"), None);
  ((lit "HELLO,host=gopher01 x=y"), Some 0%nat);
  ((lit "bye,host=gopher01 x=high"), Some 0%nat)].
Proof. table. Qed.

(** filter/rules_small_test.go TestNegativeRegexRuleUnescapes *)
Example conf_TestNegativeRegexRuleUnescapes : Forall (fun c => Lookup [mkRule (MNegRegex rx_hell_o) []] (fst c) = snd c) [
  ((lit "hell\ o,host=gopher01 x=y"), None);
  ((lit "bye,host=gopher01 x=hell\ \ o"), None);
  ((lit "HELLO,host=gopher01 x=y"), Some 0%nat);
  ((lit "bye,host=gopher01 x=hello"), Some 0%nat)].
Proof. table. Qed.

(** filter/rules_small_test.go TestTagRuleSingle *)
Example conf_TestTagRuleSingle : Forall (fun c => Lookup [mkRule (MTags [(lit "key", lit "value")]) []] (fst c) = snd c) [
  ((lit "foo,key=value x=22"), Some 0%nat);
  ((lit "foo,key=value,host=gopher01 x=22"), Some 0%nat);
  ((lit "foo,host=gopher01,key=value x=22"), Some 0%nat);
  ((lit "foo,host=gopher01,key=value,dc=ac x=22"), Some 0%nat);
  ((lit "foo"), None);
  ((lit "foo x=22"), None);
  ((lit "foo,key=other x=22"), None);
  ((lit "foo,host=gopher01 x=22"), None)].
Proof. table. Qed.

(** filter/rules_small_test.go TestTagRuleMulti *)
Example conf_TestTagRuleMulti : Forall (fun c => Lookup [mkRule (MTags [(lit "host", lit "db01"); (lit "dc", lit "nyc")]) []] (fst c) = snd c) [
  ((lit "foo,dc=nyc,host=db01 x=22"), Some 0%nat);
  ((lit "foo,alt=2000,dc=nyc,host=db01,lift=123 x=22"), Some 0%nat);
  ((lit "foo,dc=sfo,dc=nyc,host=db01,host=xxx x=22"), Some 0%nat);
  ((lit "foo,host=db01 x=22"), None);
  ((lit "foo,dc=nyc x=22"), None)].
Proof. table. Qed.

(** filter/rules_small_test.go TestTagRuleEscaping *)
Example conf_TestTagRuleEscaping : Forall (fun c => Lookup [mkRule (MTags [(lit "ke y", lit "val,ue")]) []; mkRule (MTags [(lit "k=k", lit "v=v")]) []] (fst c) = snd c) [
  ((lit "foo,ke\ y=val\,ue x=22"), Some 0%nat);
  ((lit "foo,ke\ y=val\,ue,host=gopher01 x=22"), Some 0%nat);
  ((lit "foo,host=gopher01,ke\ y=val\,ue x=22"), Some 0%nat);
  ((lit "foo,host=gopher01,ke\ y=val\,ue,dc=ac x=22"), Some 0%nat);
  ((lit "foo,k\=k=v\=v x=22"), Some 1%nat);
  ((lit "foo,ke y=val,ue x=22"), None);
  ((lit "foo,f=f=v=v x=22"), None)].
Proof. table. Qed.

(** filter/rules_small_test.go TestRuleSet *)
Example conf_TestRuleSet : Forall (fun c => Lookup conf_rs (fst c) = snd c) [
  ((lit "basic-match x=22"), Some 0%nat);
  ((lit "blah,foo=bar x=22"), Some 1%nat);
  ((lit "blah,foo=regex-match x=22"), Some 2%nat);
  ((lit "blah,foo=negreg-match"), None)].
Proof. table. Qed.

(** filter/rules_small_test.go TestLineTagSorting *)
Example conf_LineTagSorting : Forall (fun c => option_map (fun pl => Escaped (SortTags (@isort) pl)) (newParsedLine (fst c)) = Some (snd c)) [
  ((lit "foo,dc=chc,host=abc01,mega=y something=123"), (lit "foo,dc=chc,host=abc01,mega=y something=123"));
  ((lit "foo,host=abc01,dc=chc,mega=y something=123"), (lit "foo,dc=chc,host=abc01,mega=y something=123"));
  ((lit "foo,dc=chc,dir=\=\=>,the\ host=abc01 something=123"), (lit "foo,dc=chc,dir=\=\=>,the\ host=abc01 something=123"));
  ((lit "foo,dir=\=\=>,dc=chc,the\ host=abc01 something=123"), (lit "foo,dc=chc,dir=\=\=>,the\ host=abc01 something=123"));
  ((lit "foo,host=abc01,dc=chc,mega=y"), (lit "foo,dc=chc,host=abc01,mega=y"))].
Proof. table. Qed.
