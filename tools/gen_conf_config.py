#!/usr/bin/env python3
"""Generates rocq/theories/ConfConfig.v from config/config_small_test.go (TOML read with python's tomllib)."""
import sys,os,tomllib; sys.path.insert(0,os.path.dirname(__file__))
from gotests import *
src=open('/repo/config/config_small_test.go').read()
KEYS=['name','mode','nats_address','nats_subject','nats_subject_monitor','nats_subject_junkyard','influxdb_address','influxdb_protocol','influxdb_port','influxdb_dbname','batch_max_count','batch_max_size','batch_max_age','port','workers','write_timeout','writer_retry_batches','writer_retry_interval','writer_retry_timeout','read_buffer_size','nats_max_pending_size','rule','max_time_delta','stats_interval','probe_port','pprof_port','debug','downsample_period','downsample_suffix','nats_queue_group_name']
SIZES={'batch_max_size','read_buffer_size','nats_max_pending_size'}
DUR={'batch_max_age','write_timeout','writer_retry_interval','writer_retry_timeout','max_time_delta','stats_interval','downsample_period'}
def s(x): return coqb(x.encode())
def size(v): 
    if isinstance(v,int): return v
    m=re.fullmatch(r'(\d+)\s*(m|MB)',v); return int(m.group(1))*1024*1024
def dur(v):
    m=re.fullmatch(r'(\d+)(s|m|h)',v); return int(m.group(1))*{'s':1,'m':60,'h':3600}[m.group(2)]*10**9
def val(k,v):
    if k in SIZES: return coqz(size(v))
    if k in DUR: return coqz(dur(v))
    if isinstance(v,bool): return 'true' if v else 'false'
    if isinstance(v,int): return coqz(v)
    if isinstance(v,str): return s(v)
    if k=='rule':
        o=lambda r,f,g: 'None' if f not in r else '(Some %s)'%g(r[f])
        return '['+'; '.join('PRule %s %s %s %s'%(o(r,'type',s),o(r,'match',s),o(r,'tags',lambda t:'['+'; '.join('['+'; '.join(map(s,x))+']' for x in t)+']'),o(r,'subject',s)) for r in v)+']'
    return '['+'; '.join(map(s,v))+']'
def pfile(text):
    d=tomllib.loads(text)
    for k in d: assert k in KEYS or k=='batch',k   # batch: an unknown key, ignored
    return '(PFile %s)'%' '.join('(Some %s)'%val(k,d[k]) if k in d else 'None' for k in KEYS)
ERR={'invalid mode: frog':'EMode','listener port out of range':'EListenerPort','probe_port out of range':'EProbePort','pprof_port out of range':'EPprofPort','listener should only use one NATS subject':'EListenerSubject','listener batch must be 1MB or smaller':'EListenerBatch','filter should only use one NATS subject':'EFilterSubject','rule missing "type"':'ERuleType','rule missing "match"':'ERuleMatch','rule missing "subject"':'ERuleSubject','basic rule cannot use "tags"':'ERuleTags','tags rule cannot use "match"':'ETagsMatch','tags rule missing "tags"':'ETagsMissing','each tags item must contain 2 values':'ETagsPair','writer needs at least one NATS subject':'EWriterSubject','influxdb_protocol can only be http or https':'EDbProtocol','influxdb_port out of range':'EDbPort','writer rules shouldn\'t have subject ("matches")':'EWriterRuleSubject','downsample_period is only for downsampler mode':'EPeriodMode','downsample_suffix must be set':'ESuffix'}
body=re.search(r'^func TestValidateProblems.*?^}',src,re.S|re.M).group()
tests=re.findall(r'\{\s*\n\t\t(["`])(.*?)\1,\n\t\t`(.*?)`,',body,re.S)
n=body.count('mode =')
assert len(tests)==n,(len(tests),n)
probs=['(%s, %s)'%(pfile(c),ERR[e]) for _,e,c in tests]
def const(name): return re.search(r'const %s = `(.*?)`'%name,src,re.S).group(1)
full=pfile(const('validConfigSample')); rules=pfile(const('rulesConfig'))
m=re.search(r'func TestCommonOverlay.*?const commonConfig = `(.*?)`.*?const specificConfig = `(.*?)`',src,re.S); common,spec=map(pfile,m.groups())
def mode(x): return pfile('mode = "%s"'%x)
open('/verif/rocq/theories/ConfConfig.v','w').write(f'''(** The cases of /repo/config/config_small_test.go run on the model: evidence that the model agrees with the code, not part
    of any proof.  Generated by tools/gen_conf_config.py (TOML decoded by the generator). *)
From Verif Require Import ConfTac Base Config.
Local Open Scope Z_scope.

Definition file_name : bytes := lit "some/dir/something.toml".
Definition load (common : fileread) (p : pfile) (user pass : bytes) : loaded := NewConfigFromFile toml_rules common (FOk p) file_name user pass.
Definition parse (p : pfile) : loaded := load FAbsent p [] [].
Definition has {{A}} (f : cfg -> A) (l : loaded) : option A := match l with LoadOk c => Some (f c) | LoadErr => None end.

(** TestCorrectConfigFile *)
Example conf_correct : match parse {full} with LoadErr => False | LoadOk c =>
  (c_name c, c_mode c, c_port c, c_batch_count c, c_batch_size c, c_batch_age c, c_workers c) = (lit "thor", lit "writer", 10001, 10, 5 * MB, minute, 96) /\\
  (c_write_timeout c, c_retry_batches c, c_retry_interval c, c_retry_timeout c) = (32 * second, 5, 30 * second, 120 * minute) /\\
  (c_read_buffer c, c_max_pending c, c_max_time_delta c) = (43210, 100 * MB, 789 * second) /\\
  (c_db_port c, c_db_name c, c_db_address c, c_db_protocol c) = (8086, lit "junk_nats", lit "localhost", lit "https") /\\
  (c_subjects c, c_subject_monitor c, c_nats_address c) = ([lit "spout"], lit "spout-monitor", lit "nats://localhost:4222") /\\
  (c_stats_interval c, c_probe_port c, c_pprof_port c) = (5 * second, 6789, 5432) end.
Proof. vm_compute. repeat split. Qed.

(** TestAllDefaults *)
Example conf_defaults : match parse {mode('writer')} with LoadErr => False | LoadOk c =>
  (c_name c, c_nats_address c, c_subjects c, c_subject_monitor c, c_subject_junk c) =
    (lit "something", lit "nats://localhost:4222", [lit "influx-spout"], lit "influx-spout-monitor", lit "influx-spout-junk") /\\
  (c_db_address c, c_db_protocol c, c_db_port c, c_db_user c, c_db_pass c, c_db_name c) = (lit "localhost", lit "http", 8086, [], [], lit "influx-spout-junk") /\\
  (c_batch_count c, c_batch_size c, c_batch_age c, c_port c, c_mode c, c_workers c) = (10, 10 * MB, 5 * minute, 0, lit "writer", 8) /\\
  (c_write_timeout c, c_retry_batches c, c_retry_interval c, c_retry_timeout c) = (30 * second, 1, 10 * second, minute) /\\
  (c_period c, c_suffix c, c_read_buffer c, c_max_pending c) = (0, lit "-archive", 4 * MB, 200 * MB) /\\
  (c_max_time_delta c, c_stats_interval c, c_probe_port c, c_pprof_port c, c_debug c, c_rules c) = (10 * minute, 3 * second, 0, 0, false, []) end.
Proof. vm_compute. repeat split. Qed.

(** TestDefaultPortListener, TestDefaultPortHTTPListener, TestDefaultPortMonitor, TestDefaultListenerBatchSize,
    TestDefaultHTTPListenerBatchSize, TestDefaultDownsamplePeriod *)
Example conf_dynamic : has c_port (parse {mode('listener')}) = Some 10001 /\\ has c_port (parse {mode('listener_http')}) = Some 13337 /\\
  has c_port (parse {mode('monitor')}) = Some 9331 /\\ has c_batch_size (parse {mode('listener')}) = Some MB /\\
  has c_batch_size (parse {mode('listener_http')}) = Some MB /\\ has c_period (parse {mode('downsampler')}) = Some minute.
Proof. vm_compute. repeat split. Qed.

(** TestInfluxAuth, TestNoMode, TestInvalidTOML *)
Example conf_auth : has (fun c => (c_db_user c, c_db_pass c)) (load FAbsent {mode('writer')} (lit "user") (lit "secret")) = Some (lit "user", lit "secret").
Proof. vm_compute. reflexivity. Qed.
Example conf_no_mode : parse {pfile('')} = LoadErr /\\ NewConfigFromFile toml_rules FAbsent FBad file_name [] [] = LoadErr.
Proof. vm_compute. auto. Qed.

(** TestRulesConfig *)
Example conf_rules : has c_rules (parse {rules}) = Some [
  CRule (lit "basic") (lit "hello") [] (lit "hello-subject"); CRule (lit "regex") (lit "world") [] (lit "world-subject");
  CRule (lit "tags") [] [[lit "foo"; lit "bar"]; [lit "aaa"; lit "zzz"]] (lit "foo-subject")].
Proof. vm_compute. reflexivity. Qed.

(** TestCommonOverlay, TestInvalidTOMLInCommonConfig, TestErrorOpeningCommonFile, TestOpenError *)
Example conf_overlay : has (fun c => (c_mode c, c_batch_count c, c_db_name c, c_debug c)) (load (FOk {common}) {spec} [] []) = Some (lit "listener", 100, lit "massive", true) /\\
  load FBad {spec} [] [] = LoadErr /\\ load FUnreadable {spec} [] [] = LoadErr /\\ NewConfigFromFile toml_rules FAbsent FAbsent file_name [] [] = LoadErr.
Proof. vm_compute. auto. Qed.

(** TestValidateDefaults, TestTextValidateAuth *)
Definition dflt (user pass : bytes) : cfg := decode toml_rules {mode('writer')} (set_user_pass newDefaultConfig user pass).
Example conf_validate : Validate (dflt [] []) = None /\\ Validate (dflt (lit "hello") []) = Some EUser /\\ Validate (dflt [] (lit "hello")) = Some EPass.
Proof. vm_compute. auto. Qed.

(** TestValidateProblems: the file is refused, for that reason. *)
Example conf_problems : Forall (fun t => parse (fst t) = LoadErr /\\
    Validate (dynamic file_name [] [] (decode toml_rules (fst t) newDefaultConfig)) = Some (snd t)) [
  {(";"+chr(10)+"  ").join(probs)}].
Proof. table. Qed.
''')
print(len(probs),'problems')
