"""Random testing of the rewrite rules, to find candidates for refutation before proving.  Not part of the proofs."""
import random,sys
from rules_ast import load
PI,NI,BAD='PI','NI','BAD'
MIN,MAX=-2**63,2**63-1
def fin(a): return isinstance(a,int)
def neg(a): return {PI:NI,NI:PI,BAD:BAD}.get(a) if not fin(a) else -a
def ediv(a,b):
    if b==0:return 0
    q=a//abs(b); return q if b>0 else -q
def emod(a,b): return 0 if b==0 else a%abs(b)
def add(a,b):
    if BAD in(a,b):return BAD
    if fin(a)and fin(b):return a+b
    if {a,b}=={PI,NI}:return BAD
    return PI if PI in(a,b) else NI
def inf(s): return BAD if s==0 else PI if s>0 else NI
def mul(a,b):
    if BAD in(a,b):return BAD
    if fin(a)and fin(b):return a*b
    if fin(b): a,b=b,a
    if fin(a): return inf(a if b==PI else -a)
    return PI if a==b else NI
def div(a,b):
    if BAD in(a,b):return BAD
    if fin(a)and fin(b):return ediv(a,b)
    if fin(b): return inf(b if a==PI else -b)
    return BAD
def key(a): return (0,0) if a==NI else (2,0) if a==PI else (1,a)
def mn(a,b): return BAD if BAD in(a,b) else min(a,b,key=key)
def mx(a,b): return BAD if BAD in(a,b) else max(a,b,key=key)
def cmp(f):
    def g(a,b):
        if BAD in(a,b) or (a==b and not fin(a)):return BAD
        return int(f(key(a),key(b)))
    return g
def b2(f):
    def g(a,b):
        if fin(a)and fin(b):return int(f(a!=0,b!=0))
        return BAD
    return g
OPS=dict(Add=add,Sub=lambda a,b:add(a,neg(b)),Mul=mul,Div=div,Mod=lambda a,b:emod(a,b) if fin(a)and fin(b) else BAD,Min=mn,Max=mx,
 Equal=cmp(lambda x,y:x==y),NotEqual=cmp(lambda x,y:x!=y),Less=cmp(lambda x,y:x<y),LessEqual=cmp(lambda x,y:x<=y),
 And=b2(lambda x,y:x and y),Or=b2(lambda x,y:x or y))
def stair(x,a,b,c): return mul(div(add(x,a),b),c)
def psem(p,v,c):
    k=p[0]
    if k=='wild':return v[p[1]]
    if k=='const':return c[p[1]]
    if k=='lit':return p[1]
    if k=='opt':return psem(p[1],v,c)
    if k=='bin':return OPS[p[1]](psem(p[2],v,c),psem(p[3],v,c))
    if k=='not':
        a=psem(p[1],v,c); return int(a==0) if fin(a) else BAD
    if k=='sel':
        q=psem(p[1],v,c)
        if not fin(q):return BAD
        return psem(p[2] if q else p[3],v,c)
    if k=='call':
        if p[1]=='positive_infinity':return PI
        if p[1]=='negative_infinity':return NI
        if p[1]=='abs':
            a=psem(p[2],v,c); return a if a==BAD else PI if not fin(a) else abs(a)
        a=psem(p[2],v,c)
        if not fin(a):return BAD
        stop=p[1]=='or_else'
        if (a!=0)==stop:return int(stop)
        a=psem(p[3],v,c)
        if not fin(a):return BAD
        return int(a!=0)
    if k=='stair':return stair(*[psem(q,v,c) for q in p[1:]])
    raise Exception(p)
class Ov(Exception):pass
class UBx(Exception):pass
def is_index(p):
    k=p[0]
    if k in('const','lit','eval','pred','ssum'):return True
    if k=='opt':return is_index(p[1])
    if k=='bin':return is_index(p[2])and is_index(p[3])
    if k=='not':return is_index(p[1])
    return False
def wrap32(a): return (a+2**31)%2**32-2**31
def ssum(sign,a1,b1,c1,a2,b2,c2):
    # exact bounds of stair1+stair2 over all ints when bounded (int32 semantics: truncated args, UB on overflow)
    a1,b1,c1,a2,b2,c2=map(wrap32,(a1,b1,c1,a2,b2,c2))
    # base/modulus_remainder? mimic: period lcm
    def y(x): return ediv(x+a1,b1)*c1+ediv(x+a2,b2)*c2
    from math import gcd
    if b1==0 or b2==0: 
        return SSUM0(sign,a1,b1,c1,a2,b2,c2)
    p=abs(b1*b2)//gcd(b1,b2)
    if y(p)!=y(0): return MIN if sign=='min' else MAX
    if p>2000: raise UBx
    vals=[y(x) for x in range(p)]
    return min(vals) if sign=='min' else max(vals)
def SSUM0(sign,*a): raise UBx
def isub(p,c,pr):
    k=p[0]
    if k=='const':return c[p[1]]
    if k=='lit':return p[1]
    if k in('opt','eval'):return isub(p[1],c,pr)
    if k=='not':return int(isub(p[1],c,pr)==0)
    if k=='pred':return int(pr(p[1],p[2]))
    if k=='ssum':return ssum(p[1],*[isub(q,c,pr) for q in p[2:]])
    if k=='bin':
        a=isub(p[2],c,pr);b=isub(p[3],c,pr)
        r=OPS[p[1]](a,b)
        if not MIN<=r<=MAX:
            raise (UBx if p[1] in('Div','Mod') else Ov)
        if p[1]=='Mod' and a==MIN and b==-1: raise UBx
        return r
    raise Exception(p)
def rsem(p,v,c,pr):
    if is_index(p):return isub(p,c,pr)
    k=p[0]
    if k=='wild':return v[p[1]]
    if k=='opt':return rsem(p[1],v,c,pr)
    if k=='bin':return OPS[p[1]](rsem(p[2],v,c,pr),rsem(p[3],v,c,pr))
    if k=='not':
        a=rsem(p[1],v,c,pr); return int(a==0) if fin(a) else BAD
    if k=='sel':
        q=rsem(p[1],v,c,pr); t=rsem(p[2],v,c,pr); f=rsem(p[3],v,c,pr)
        if not fin(q):return BAD
        return t if q else f
    if k=='bool':
        a=rsem(p[1],v,c,pr); return BAD if a==BAD else 1 if not fin(a) else int(a!=0)
    if k=='call':
        if len(p)==2:return PI if p[1][0]=='p' else NI
        assert p[1]=='abs'
        a=rsem(p[2],v,c,pr); return a if a==BAD else PI if not fin(a) else abs(a)
    if k=='stair':
        x=rsem(p[1],v,c,pr); return stair(x,*[isub(q,c,pr) for q in p[2:]])
    raise Exception(p)
def alts(rule,v,c,pr):
    for r,pd in rule['alts']:
        try:
            if pd is not None and not isub(pd,c,pr): continue
            return rsem(r,v,c,pr)
        except Ov: continue
    return None
SMALL=list(range(-4,5))
def rc(mode):
    if mode==0: return random.randint(-4,4)
    if mode==1: return random.choice([random.randint(-12,12),random.randint(-3,3)])
    if mode==2: return random.choice([random.randint(-4,4),MIN+random.randint(0,3),MAX-random.randint(0,3)])
    return random.choice([random.randint(-4,4),2**32+random.randint(-3,3),-2**32+random.randint(-3,3),2**31,-2**31])
def rv(mode):
    if random.random()<.25:return random.choice([PI,NI,BAD])
    if mode==1:return random.randint(-20,20)
    if mode==2 and random.random()<.3:return random.choice([MIN+random.randint(0,3),MAX-random.randint(0,3)])
    return random.randint(-5,5)
def inr(x): return not fin(x) or MIN<=x<=MAX
def operands(lhs): return lhs[2:] if lhs[0] in('bin','call') else lhs[1:]
def test(rule,n,mode):
    bad=None;hits=0
    for _ in range(n):
        v=[rv(mode) for _ in range(7)]; c=[rc(mode) for _ in range(7)]
        q={}
        def pr(kind,i):
            if (kind,i) in q:return q[kind,i]
            x=v[i]
            ok={'is_boolean':x in(0,1,BAD),'is_finite':fin(x) or x==BAD,'is_zero':x==0,'is_non_positive':x==NI or(fin(x)and x<=0),'is_constant':fin(x),'is_non_negative':False}[kind]
            q[kind,i]=ok and (kind=='is_zero' or random.random()<.7)
            return q[kind,i]
        try:
            if not all(inr(psem(p,v,c)) for p in operands(rule['lhs'])): continue
            r=alts(rule,v,c,pr)
        except UBx: continue
        if r is None: continue
        hits+=1
        l=psem(rule['lhs'],v,c)
        if l!=BAD and l!=r:
            return hits,(v,c,l,r)
    return hits,None
if __name__=='__main__':
    random.seed(1)
    N=int(sys.argv[1]) if len(sys.argv)>1 else 3000
    for t,rs in load().items():
        for rule in rs:
            for mode in range(4):
                h,b=test(rule,N,mode)
                if b: print('FAIL',t,rule['line'],'mode',mode,rule['text'],b)
                elif h<20 and mode<2: print('few hits',t,rule['line'],mode,h)
