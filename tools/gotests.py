"""Mini reader of Go test tables: turns calls like check("a"+ts, 1) of a test function into argument lists of
Python values (bytes, int, list of tag pairs, None)."""
import re
def tok(s):
    out=[];i=0
    while i<len(s):
        c=s[i]
        if c.isspace(): i+=1; continue
        if s.startswith('//',i):
            j=s.find('\n',i); i=len(s) if j<0 else j; continue
        if c=='`':
            j=s.index('`',i+1); out.append(('s',s[i+1:j].encode())); i=j+1; continue
        if c=='"':
            j=i+1
            while s[j]!='"': j+=2 if s[j]=='\\' else 1
            raw=s[i+1:j]
            b=re.sub(r'\\(.)',lambda m:{'n':'\n','t':'\t','"':'"','\\':'\\','r':'\r'}[m.group(1)],raw)
            out.append(('s',b.encode())); i=j+1; continue
        m=re.match(r'[A-Za-z_][A-Za-z_0-9.]*',s[i:])
        if m: out.append(('i',m.group())); i+=m.end(); continue
        m=re.match(r'[0-9][0-9_.eE]*',s[i:])
        if m: out.append(('n',m.group())); i+=m.end(); continue
        out.append(('p',c)); i+=1
    return out
class P:
    def __init__(s,toks,env): s.t=toks; s.i=0; s.env=env
    def pk(s): return s.t[s.i] if s.i<len(s.t) else ('e','')
    def nx(s): x=s.pk(); s.i+=1; return x
    def ex(s,c):
        x=s.nx(); assert x==('p',c),(x,c,s.t[s.i-5:s.i+5])
    def expr(s):
        v=s.atom()
        while s.pk() in (('p','+'),('p','-')):
            op=s.nx()[1]; w=s.atom(); v=v+w if op=='+' else v-w
        return v
    def args(s,close):
        r=[]
        while s.pk()!=('p',close):
            r.append(s.expr())
            if s.pk()==('p',','): s.nx()
        s.nx(); return r
    def atom(s):
        k,v=s.nx()
        if k=='s': return v
        if k=='n': return int(v)
        if (k,v)==('p','-'): return -s.atom()
        if (k,v)==('p','('):
            x=s.expr(); s.ex(')'); return x
        if k=='i':
            if v=='nil': return None
            if s.pk()==('p','('):
                s.nx(); a=s.args(')')
                if v=='NewTag' or v.endswith('.NewTag'): return tuple(a)
                if v in ('int64','string'): return a[0]
                return ('call',v,a)
            if s.pk()==('p','{'):
                s.nx(); return s.args('}')
            return s.env[v]
        if (k,v)==('p','['):
            s.ex(']'); name=s.nx()
            if s.pk()==('p','('): s.nx(); return s.args(')')[0]
            s.ex('{'); return s.args('}')
        raise Exception((k,v))
def calls(path,func,names,env):
    """All calls of the local checkers in the named test function: list of (checker, args)."""
    src=open(path).read()
    m=re.search(r'^func '+func+r'\(.*?^}',src,re.S|re.M); body=m.group()
    res=[]
    for m in re.finditer(r'^\t(%s)\('%'|'.join(names),body,re.M):
        p=P(tok(body[m.end():]),env); res.append((m.group(1),p.args(')')))
    return res
def coqb(b):
    """bytes -> Coq term of type bytes"""
    if b is None: return '[]'
    parts=b.split(b'\n'); 
    q=['lit "%s"'%x.decode('utf8').replace('"','""') for x in parts]
    return '('+' ++ [nl] ++ '.join(q)+')'
def coqz(n): return str(n) if n>=0 else '(%d)'%n
def coqtags(t): return '[]' if not t else '['+'; '.join('(%s, %s)'%(coqb(k),coqb(v)) for k,v in t)+']'
