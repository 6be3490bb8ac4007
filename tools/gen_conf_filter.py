#!/usr/bin/env python3
"""Generates rocq/theories/ConfFilter.v from filter/rules_small_test.go."""
import sys,os; sys.path.insert(0,os.path.dirname(__file__))
from gotests import *
src=open('/repo/filter/rules_small_test.go').read()
RX={'(^hel|,etc=false)':'rx_hel_etc','hell +o':'rx_hell_o','hel|low':'rx_hel_low'}
out=[];tot=0
for m in re.finditer(r'^func (Test\w+)\(t \*testing.T\) \{\n(.*?)^}',src,re.S|re.M):
    name,body=m.groups()
    looks=re.findall(r'assert\.Equal\(t, (-?\d), rs\.Lookup\(\s*\[\]byte\(([`"])(.*?)\2\)\)\)',body,re.S)
    if not looks: continue
    assert len(looks)==body.count('rs.Lookup')
    if name=='TestRuleSet':
        rules='conf_rs'
    else:
        rs=[]
        for k,a in re.findall(r'rs\.Append\(Create(\w+)Rule\((.*)\)\)',body):
            if k=='Basic': rs.append('mkRule (MBasic (lit %s)) []'%re.match(r'"[^"]*"',a).group())
            elif k=='Regex': rs.append('mkRule (MRegex %s) []'%RX[re.match(r'"([^"]*)"',a).group(1)])
            elif k=='NegativeRegex': rs.append('mkRule (MNegRegex %s) []'%RX[re.match(r'"([^"]*)"',a).group(1)])
            elif k=='Tag':
                t=body if a.startswith('tags') else a
                tags=re.findall(r'NewTag\("([^"]*)", "([^"]*)"\)',t)
                rs.append('mkRule (MTags [%s]) []'%'; '.join('(lit "%s", lit "%s")'%x for x in tags))
        rules='[%s]'%'; '.join(rs)
    tot+=len(looks)
    out.append('(** filter/rules_small_test.go %s *)\nExample conf_%s : Forall (fun c => Lookup %s (fst c) = snd c) [\n  %s].\nProof. table. Qed.\n'%(name,name,rules,';\n  '.join(
      '(%s, %s)'%(coqb(l.encode()),'None' if n=='-1' else 'Some %s%%nat'%n) for n,_,l in looks)))
cases=calls('/repo/filter/rules_small_test.go','TestLineTagSorting',['check'],{})
out.append('(** filter/rules_small_test.go TestLineTagSorting *)\nExample conf_LineTagSorting : Forall (fun c => option_map (fun pl => Escaped (SortTags (@isort) pl)) (newParsedLine (fst c)) = Some (snd c)) [\n  %s].\nProof. table. Qed.\n'%';\n  '.join('(%s, %s)'%(coqb(a[1]),coqb(a[2])) for n,a in cases))
print(tot,'lookups',len(cases))
open('/verif/rocq/theories/ConfFilter.v','w').write('''(** The cases of /repo/filter/rules_small_test.go run on the model: evidence that the model agrees with the code, not part
    of any proof.  Generated by tools/gen_conf_filter.py.  Regular expressions are predicates in the model; those of the
    tests are written out here. *)
From Verif Require Import ConfTac Base Text RulesSpec Rules Config.
Local Open Scope Z_scope.

Fixpoint starts (p s : bytes) : bool := match p, s with [], _ => true | x :: p', y :: s' => Ascii.eqb x y && starts p' s' | _, _ => false end.
Fixpoint contains (p s : bytes) : bool := starts p s || match s with [] => false | _ :: s' => contains p s' end.
Fixpoint spaces_o (s : bytes) : bool := match s with c :: s' => Ascii.eqb c sp && (starts (lit "o") s' || spaces_o s') | [] => false end.
Fixpoint rx_hell_o (s : bytes) : bool := (starts (lit "hell") s && spaces_o (skipn 4 s)) || match s with [] => false | _ :: s' => rx_hell_o s' end.
Definition rx_hel_etc (s : bytes) : bool := starts (lit "hel") s || contains (lit ",etc=false") s.
Definition rx_hel_low (s : bytes) : bool := contains (lit "hel") s || contains (lit "low") s.

(** RuleSetFromConfig of TestRuleSet; regular expressions without operators match as substrings. *)
Definition conf_rules : list crule := [
  CRule (lit "basic") (lit "basic-match") [] (lit "basic-sub"); CRule (lit "tags") [] [[lit "foo"; lit "bar"]] (lit "tags-sub");
  CRule (lit "regex") (lit "regex-match") [] (lit "regex-sub"); CRule (lit "negregex") (lit "negreg-match") [] (lit "negregex-sub")].
Definition conf_rs : list rule :=
  match ruleSetLoop (fun re => Some (contains re)) conf_rules [] with RsOk rs => rs | _ => [] end.
Example conf_RuleSetFromConfig : length conf_rs = 4%nat /\\ Subjects conf_rs = [lit "basic-sub"; lit "tags-sub"; lit "regex-sub"; lit "negregex-sub"].
Proof. vm_compute. auto. Qed.

'''+'\n'.join(out))
