#!/usr/bin/env python3
"""Generates rocq/theories/TfModel.v from /repo/src/test_functions/mod.rs.
Straight-line functions (length assertion, let x1 = x[0]; ..., one expression) are translated mechanically; functions
with loops are written by hand below, with the arithmetic expressions between {{ }} translated mechanically (and checked
to occur in the source).  The generated file is committed; this script only documents where it comes from."""
import re,sys
SRC=open('/repo/src/test_functions/mod.rs').read().split('\n')
FN={}
for k,l in enumerate(SRC):
    m=re.match(r'pub fn (\w+)\(',l)
    if m:
        j=k
        while SRC[j]!='}': j+=1
        FN[m.group(1)]=(k+1,j+1,'\n'.join(x for x in SRC[k+1:j] if not x.strip().startswith('//')))
def norm(s): return re.sub(r'\s+','',s).replace(',)',')')
ALL=norm('\n'.join(SRC))
TOK=re.compile(r'\s*(?:(\d+(?:\.\d+)?(?:_f64|_usize)?)|(f64::consts::PI|f64::consts::E|(?:f64::|i32::)?[A-Za-z_]\w*)|(.))')
class P:
    def __init__(s,t):
        s.t=[];p=0;t=t.strip()
        while p<len(t):
            m=TOK.match(t,p); p=m.end()
            if m.group(1): s.t.append(('num',m.group(1)))
            elif m.group(2): s.t.append(('id',m.group(2)))
            elif m.group(3).strip(): s.t.append(('op',m.group(3)))
        s.i=0
    def pk(s): return s.t[s.i] if s.i<len(s.t) else ('eof','')
    def nx(s): s.i+=1; return s.t[s.i-1]
    def ex(s,v):
        t=s.nx(); assert t[1]==v,(t,v,s.t[max(0,s.i-5):s.i+5])
    def expr(s):
        a=s.term()
        while s.pk() in(('op','+'),('op','-')): o=s.nx()[1]; a=('bin',o,a,s.term())
        return a
    def term(s):
        a=s.unary()
        while s.pk() in(('op','*'),('op','/')): o=s.nx()[1]; a=('bin',o,a,s.unary())
        return a
    def unary(s):
        if s.pk()==('op','-'): s.nx(); return ('neg',s.unary())
        if s.pk()==('op','*'): s.nx(); return s.unary()   # dereference
        return s.cast()
    def cast(s):
        a=s.post()
        while s.pk()==('id','as'):
            s.nx(); t=s.nx()[1]; a=('cast',t,a)
        return a
    def post(s):
        a=s.atom()
        while True:
            if s.pk()==('op','['): s.nx(); i=s.expr(); s.ex(']'); a=('ix',a,i)
            elif s.pk()==('op','.'):
                s.nx(); n=s.nx()[1]; s.ex('('); s.ex(')'); a=('meth',n,a)
            else: return a
    def atom(s):
        k,v=s.nx()
        if k=='num': return ('num',v)
        if v=='(':
            a=s.expr(); s.ex(')'); return a
        assert k=='id',(k,v,s.t[max(0,s.i-5):s.i+5])
        if s.pk()==('op','('):
            s.nx(); args=[]
            while s.pk()!=('op',')'):
                args.append(s.expr())
                if s.pk()==('op',','): s.nx()
            s.ex(')'); return ('call',v.replace('f64::',''),args)
        return ('id',v)
FUNS=dict(sin='nsin',cos='ncos',tan='ntan',tanh='ntanh',exp='nexp',ln='nln',sqrt='nsqrt',abs='nabs',powf='npowf',log='nlog',min='nmin')
def lit(v):
    v=v.replace('_f64','').replace('_usize','')
    if '.' in v:
        a,b=v.split('.'); b=b.rstrip('0'); n=int(a+b) ; d=10**len(b)
        return ('# %d'%n,9) if d==1 else ('lit %d %d'%(n,d),10)
    return ('# %d'%int(v),9)
def par(x,l): return x[0] if x[1]<=l else '('+x[0]+')'
# levels: atom 0, application 10, '#' 9, unary minus 35, * / 40, + - 50
def fl(a):
    k=a[0]
    if k=='num': return lit(a[1])
    if k=='id': return ({'f64::consts::PI':'npi','f64::consts::E':'nE'}.get(a[1],a[1]),0)
    if k=='neg': return ('- '+par(fl(a[1]),35),35)
    if k=='bin':
        L={'+':50,'-':50,'*':40,'/':40}[a[1]]
        return (par(fl(a[2]),L)+' '+a[1]+' '+par(fl(a[3]),L-1),L)
    if k=='cast':
        assert a[1]=='f64',a
        if re.fullmatch(r'[\d\s()/]*%nat',it(a[2])[0]): return ('nlit '+it(a[2])[0].replace('%nat','%Z')+' 1',10)
        return ('of_nat '+par(it(a[2]),0),10)
    if k=='call':
        n,args=a[1],a[2]
        if n=='powi': return ('powi '+par(fl(args[0]),0)+' '+par(zt(args[1]),0),10)
        return (FUNS[n]+' '+' '.join(par(fl(x),0) for x in args),10)
    if k=='meth': raise Exception(a)
    raise Exception(a)
def it(a):
    k=a[0]
    if k=='num': return (a[1],0)
    if k=='id': return (a[1],0)
    if k=='bin':
        def q(b): return it(b)[0] if b[0] in('num','id') else '('+it(b)[0].rstrip('%nat')+')'
        return ('(%s %s %s)%%nat'%(q(a[2]),a[1],q(a[3])),0)
    if k=='meth' and a[1]=='len': return ('(length %s)'%a[2][1],0)
    raise Exception(a)
def zt(a):
    if a[0]=='num': return (a[1],0)
    if a[0]=='neg' and a[1][0]=='num': return ('(-%s)'%a[1][1],0)
    if a[0]=='cast': return ('(Z.of_nat %s)'%it(a[2])[0],0)
    raise Exception(a)
def tr(s): 
    p=P(s); a=p.expr(); assert p.pk()[0]=='eof',p.pk(); return fl(a)[0]
out=[]
def emit(s): out.append(s)
def cite(n,extra=''): emit('(** mod.rs:%d-%d%s *)'%(FN[n][0],FN[n][1],extra))
DONE=set()
def simple(n):
    body=FN[n][2]
    m=re.match(r'\s*assert_eq!\(\s*(?:(\d+),\s*x\.len\(\)|x\.len\(\),\s*(\d+)),\s*"[^"]*"\s*\);',body)
    if not m: return False
    d=int(m.group(1) or m.group(2)); rest=body[m.end():].strip(); vs=[]
    while True:
        q=re.match(r'let (x\d) = x\[(\d)\];\s*',rest)
        if not q: break
        vs.append((q.group(1),int(q.group(2)))); rest=rest[q.end():]
    if 'let ' in rest or 'for ' in rest: return False
    cite(n)
    emit('Definition %s (x : list T) : outcome T :='%n)
    emit('  _ ← rassert (bool_decide (length x = %d));'%d)
    emit('  '+' '.join('%s ← index x %d;'%v for v in vs))
    emit('  Ok (%s).'%tr(rest)); DONE.add(n); return True
def hand(n,text,extra=''):
    def sub(m):
        s=m.group(1)
        assert norm(s) in ALL,('not in source',n,s)
        return tr(s)
    cite(n,extra); emit(re.sub(r'\{\{(.*?)\}\}',sub,text.strip('\n'),flags=re.S)); DONE.add(n)
exec(open('/verif/tools/tf_hand.py').read())
HEAD=open('/verif/tools/tf_head.txt').read()
for n in FN:
    if n in HAND: hand(n,*HAND[n])
    elif not simple(n): print('TODO',n,file=sys.stderr)
open('/verif/rocq/theories/TfModel.v','w').write(HEAD+'\n'.join(out)+'\nEnd Functions.\n')
print(len(DONE),'of',len(FN),file=sys.stderr)
