#!/usr/bin/env python3
"""Generates rocq/theories/ConfInflux.v: the vectors of the project's own unit tests for package influx, convert and
filter.extractTimestamp, evaluated in the model."""
import sys,os; sys.path.insert(0,os.path.dirname(__file__))
from gotests import *
R='/repo/'
out=[]
def section(title,name,fn,cases):
    out.append('(** %s *)\nExample %s : Forall (fun c => %s) [\n  %s].\nProof. table. Qed.\n'%(title,name,fn,';\n  '.join(cases)))
def vec(path,func,names,env): return calls(R+path,func,names,env)
ts=12345
f='influx/timestamps_small_test.go'
def tsv(func,model,ts):
    env={'ts':ts,'tsStr':str(ts).encode()}
    cs=[]
    for n,a in vec(f,func,['check','noTimestamp'],env):
        cs.append('(%s, (%s, %s))'%(coqb(a[0]),coqz(a[1]) if n=='check' else '(-1)',coqz(a[2]) if n=='check' else '(-1)'))
    section('%s %s'%(f,func),'conf_'+model,model+' (fst c) = snd c',cs)
tsv('TestExtractTimestamp','ExtractTimestamp',12345)
NANO=865483382000000001
import datetime
assert NANO==int(datetime.datetime(1997,6,5,4,3,2,tzinfo=datetime.timezone.utc).timestamp())*10**9+1
tsv('TestExtractNanos','ExtractNanos',NANO)
# SafeCalcTime: a table literal
src=open(R+f).read()
tab=re.findall(r'ts:\s+(\d+),\s+precision: "(\w*)",\s+exp:\s+(\d+)',src)
assert len(tab)==7
section(f+' TestSafeCalcTime','conf_SafeCalcTime','SafeCalcTime (fst (fst c)) (snd (fst c)) = Some (snd c)',['((%s, lit "%s"), %s)'%t for t in tab])
out.append('''(** influx/timestamps_small_test.go TestSafeCalcTimeOutOfRange *)
Example conf_SafeCalcTime_range :
  Forall (fun t => SafeCalcTime t [] = None) [minInt64; minInt64 + 1; maxInt64] /\\
  Forall (fun t => SafeCalcTime t [] <> None) [minInt64 + 2; maxInt64 - 1].
Proof. split; table. Qed.
''')
g='influx/unescape_small_test.go'
section(g+' TestUnescape','conf_Unescape','Unescape (fst c) = snd c',['(%s, %s)'%(coqb(a[0]),coqb(a[1])) for n,a in vec(g,'TestUnescape',['check'],{})])
g='influx/escape_small_test.go'
section(g+' TestEscape','conf_Escape','Escape (snd (fst c)) (fst (fst c)) = snd c',['((%s, %s), %s)'%tuple(map(coqb,a)) for n,a in vec(g,'TestEscape',['check'],{})])
section(g+' TestEscapeQuoted','conf_EscapeQuotedString','EscapeQuotedString (fst c) = snd c',['(%s, %s)'%tuple(map(coqb,a)) for n,a in vec(g,'TestEscapeQuoted',['check'],{})])
g='influx/token_small_test.go'
section(g+' TestToken','conf_Token','Token (snd (fst c)) (fst (fst c)) = snd c',['((%s, %s), (%s, %s))'%tuple(map(coqb,a)) for n,a in vec(g,'TestToken',['check'],{})])
section(g+' TestTokenEscaped','conf_TokenEscaped','TokenEscaped (snd (fst c)) (fst (fst c)) = snd c',['((%s, %s), (%s, %s))'%tuple(map(coqb,a)) for n,a in vec(g,'TestTokenEscaped',['check'],{})])
qe={b'input too short':'QTooShort',b'first character must be double quote':'QNoQuote',b'missing trailing double quote':'QMissing'}
section(g+' TestQuotedString','conf_QuotedString','QuotedString (fst c) = snd c',['(%s, %s)'%(coqb(a[0]),'QOk %s %s'%(coqb(a[1]),coqb(a[2])) if n=='check' else qe[a[1]]) for n,a in vec(g,'TestQuotedString',['check','fail'],{})])
g='influx/tags_small_test.go'
section(g+' TestParseTags','conf_ParseTags','ParseTags (fst c) = snd c',['(%s, %s)'%(coqb(a[0]),'POk %s %s %s'%(coqb(a[1]),coqtags(a[2]),coqb(a[3])) if n=='check' else 'PErr') for n,a in vec(g,'TestParseTags',['check','checkError'],{})])
section(g+' TestBytes','conf_TagsBytes','TagsBytes (fst c) = snd c',['(%s, %s)'%(coqtags(a[0]),coqb(a[1])) for n,a in vec(g,'TestBytes',['check'],{})])
out.append('''(** influx/tags_small_test.go TestTagSetSorting *)
Example conf_sort : isort tagLess [(lit "foo", lit "0"); (lit "zeal", lit "2"); (lit "longer", lit "1"); (lit "bar", lit "3")] =
  [(lit "bar", lit "3"); (lit "foo", lit "0"); (lit "longer", lit "1"); (lit "zeal", lit "2")].
Proof. vm_compute. reflexivity. Qed.

(** influx/tags_small_test.go TestSubsetOf *)
Definition conf_tags : list tag := [(lit "foo", lit "0"); (lit "bar", lit "1"); (lit "sne", lit "2")].
Example conf_SubsetOf : map (SubsetOf conf_tags) [
    [(lit "sne", lit "2"); (lit "bar", lit "1"); (lit "foo", lit "0")];
    [(lit "sne", lit "2"); (lit "a", lit "3"); (lit "bar", lit "1"); (lit "foo", lit "0"); (lit "zzzzz", lit "4")];
    [(lit "sne", lit "2"); (lit "foo", lit "0")]; [(lit "q", lit "0")]; []] = [true; true; false; false; false] /\\
  SubsetOf [] [(lit "foo", lit "bar")] = true.
Proof. vm_compute. auto. Qed.
''')
g='convert/convert_small_test.go'
env={'math.MaxInt64':2**63-1,'math.MinInt64':-2**63}
section(g+' TestToInt','conf_ToInt','ToInt (fst c) = snd c',['(%s, %s)'%(coqb(a[0]),'Some %s'%coqz(a[1]) if n=='check' else 'None') for n,a in vec(g,'TestToInt',['check','shouldFail'],env)])
g='filter/timestamp_small_test.go'
env={'ts':NANO,'tsStr':str(NANO).encode(),'defaultTs':777}
section(g+' TestExtractTimestamp (any default)','conf_filterTimestamp','filterTimestamp (fst c) 777 = snd c',['(%s, %s)'%(coqb(a[0]),coqz(a[1])) for n,a in vec(g,'TestExtractTimestamp',['check'],env)])
open('/verif/rocq/theories/ConfInflux.v','w').write('''(** The test vectors of /repo's unit tests for packages influx and convert, run on the model: evidence that the model
    agrees with the code, not part of any proof.  Generated by tools/gen_conf.py from the test sources. *)
From Verif Require Import ConfTac Base Text Timestamps Convert NumSpec RulesSpec FilterWorker.
Local Open Scope Z_scope.

'''+'\n'.join(out))
