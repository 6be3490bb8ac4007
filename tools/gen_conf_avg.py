#!/usr/bin/env python3
"""Generates rocq/theories/ConfAvg.v from downsampler/avgbucket_small_test.go."""
import sys,os; sys.path.insert(0,os.path.dirname(__file__))
from gotests import *
src=open('/repo/downsampler/avgbucket_small_test.go').read()
ERR={'missing trailing double quote':'EQuoted','invalid field':'EInvalidField','missing field value':'EMissingValue'}
def err(m):
    return 'EWrongType' if m.startswith('wrong type') else ERR[m]
out=[];n=0
for m in re.finditer(r'^func (Test\w+)\(t \*testing.T\) \{\n(.*?)^}',src,re.S|re.M):
    name,body=m.groups(); steps=[]
    pat=re.compile(r'require\.Nil\(t, b\.AddLine\(\[\]byte\(`(?P<ok>[^`]*)`\)\)\)|errs :?= b\.AddLine\(\[\]byte\(`(?P<e>[^`]*)`\)\)|assertSingleError\(t, errs, `(?P<se>[^`]*)`\)|assert\.EqualError\(t, errs\[\d\], `(?P<me>[^`]*)`\)|require\.Nil\(t, errs\)|assert\.Len\(t, b\.Bytes\(\), (?P<len>0)\)|assertBytes\(t, (?P<by>.*?), b\.Bytes\(\)\)',re.S)
    cnt=0
    for x in pat.finditer(body):
        cnt+=1
        if x['ok'] is not None: steps.append([x['ok'],[],None])
        elif x['e'] is not None: steps.append([x['e'],[],None])
        elif x['se'] is not None: steps[-1][1].append(err(x['se']))
        elif x['me'] is not None: steps[-1][1].append(err(x['me']))
        elif x['len'] is not None: steps[-1][2]=[]
        elif x['by'] is not None:
            p=P(tok(x['by']),{}); v=p.expr()
            if isinstance(v,tuple): v=b'\n'.join(v[2])
            steps[-1][2]=[l for l in v.split(b'\n') if l]
    assert cnt==len(re.findall(r'AddLine|assert|require',body))-len(re.findall(r'require\.Nil\(t, b|require\.Len',body)),(name,cnt)
    n+=len(steps)
    out.append('(** downsampler/avgbucket_small_test.go %s *)\nExample conf_%s : conf_run [] [\n  %s] = true.\nProof. vm_compute. reflexivity. Qed.\n'%(name,name,';\n  '.join(
      '(%s, [%s], %s)'%(coqb(l.encode()),'; '.join(e),'None' if b is None else 'Some [%s]'%'; '.join(coqb(z) for z in b)) for l,e,b in steps)))
print(n,'steps',len(out),'tests')
open('/verif/rocq/theories/ConfAvg.v','w').write('''(** The cases of /repo/downsampler/avgbucket_small_test.go run on the model: evidence that the model agrees with the code,
    not part of any proof.  Generated by tools/gen_conf_avg.py.  strconv is an oracle in the model; here it is given by
    the literals which the tests use, floats being exact rationals. *)
From Coq Require Import QArith.
From Verif Require Import ConfTac Base Text Convert RulesSpec Avg.
Local Open Scope Z_scope.

Definition e78 : Q := inject_Z (10 ^ 78).
Definition conf_floats : list (bytes * Q) := [
  (lit "1.0", 1%Q); (lit "2.1", (21 # 10)%Q); (lit "3.2", (32 # 10)%Q); (lit "1", 1%Q); (lit "1.55", (155 # 100)%Q); (lit "2", 2%Q);
  (lit "1.2", (12 # 10)%Q); (lit "0.4", (4 # 10)%Q);
  (lit "-1.24e+78", ((-124 # 100) * e78)%Q); (lit "-1.30e+78", ((-130 # 100) * e78)%Q); (lit "-1.27e+78", ((-127 # 100) * e78)%Q)].
(** strconv.ParseFloat and FormatFloat on the literals of the tests; "1.0" and "-1.30e+78" are never printed. *)
Definition conf_parse (s : bytes) : option Q :=
  match find (fun p => beqs (fst p) s) conf_floats with Some p => Some (snd p) | None => None end.
Definition conf_format (q : Q) : bytes :=
  match find (fun p => Qeq_bool (snd p) q && negb (beqs (fst p) (lit "1.0"))) conf_floats with Some p => fst p | None => lit "?" end.
Definition foQ : floatOps := mkFloatOps Q Qplus Qminus Qdiv inject_Z conf_parse conf_format.

Definition lerr_eqb (a b : lerr) : bool :=
  match a, b with EInvalidField, EInvalidField | EMissingValue, EMissingValue | EQuoted, EQuoted | EWrongType, EWrongType => true | _, _ => false end.
Fixpoint same {A} (eqb : A -> A -> bool) (a b : list A) : bool :=
  match a, b with [], [] => true | x :: a', y :: b' => eqb x y && same eqb a' b' | _, _ => false end.
(** What assertBytes compares: the lines, in any order, each with the bucket's time. *)
Definition conf_lines (b : avgBucket foQ) (e : list bytes) : bool :=
  let out := concat (map (fun l => l ++ lit " 1500000000000000000" ++ [nl]) (isort bltb e)) in
  let order := isort (fun x y => bltb (fst x) (fst y)) b in
  beqs (bucketBytes foQ (@isort) 1500000000000000000 (map (fun x => (x, map fst (snd x))) order)) out.
Fixpoint conf_run (b : avgBucket foQ) (steps : list (bytes * list lerr * option (list bytes))) : bool :=
  match steps with
  | [] => true
  | (line, errs, out) :: steps' =>
      let (b', es) := AddLine foQ b line in
      same lerr_eqb es errs && match out with None => true | Some o => conf_lines b' o end && conf_run b' steps'
  end.

'''+'\n'.join(out))
