"""usage: reg.py SPEC.json : registers new files and properties.
SPEC: {"files":[...], "props":[[id,title,statement,quantifier,why,[anchors]]], "notes":{id:text}, "design":[plan rows], "layout":[rows]}"""
import json,sys,os
os.chdir(os.path.join(os.path.dirname(os.path.abspath(__file__)),".."))
d=json.load(open(sys.argv[1]))
p='rocq/_CoqProject';s=open(p).read().rstrip('\n').split('\n')
for f in d.get('files',[]):
    l='theories/%s.v'%f
    if l not in s: s.append(l)
open(p,'w').write('\n'.join(s)+'\n')
p='tools/gen_properties.py';s=open(p).read()
for (i,t,st,q,w,a) in d.get('props',[]):
    assert 'p("%s"'%i not in s
    row='p(%s,\n  %s)\n'%(json.dumps(i)+', '+json.dumps(t,ensure_ascii=False),',\n  '.join(json.dumps(x,ensure_ascii=False) for x in [st,q,w]+a))
    s=s.replace('\nout = os.path',row+'\nout = os.path')
open(p,'w').write(s)
p='tools/notes.json';n=json.load(open(p));n.update(d.get('notes',{}))
json.dump(n,open(p,'w'),indent=1,ensure_ascii=False)
p='DESIGN.md';s=open(p).read().split('\n')
k=max(i for i,l in enumerate(s) if l.startswith('| C'))
s[k+1:k+1]=d.get('design',[])
k=[i for i,l in enumerate(s) if l.startswith('| start and stop |')][0]
s[k+1:k+1]=d.get('layout',[])
open(p,'w').write('\n'.join(s))
