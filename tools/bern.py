from fractions import Fraction as Fr
from math import comb
import ast,re
src=open('/repo/ml4gw/waveforms/cbc/phenom_d.py').read()
cls=[n for n in ast.parse(src).body if isinstance(n,ast.ClassDef)][0]
FN={n.name:n for n in cls.body if isinstance(n,ast.FunctionDef)}
class Po:
    def __init__(s,d): s.d={k:v for k,v in d.items() if v!=0}
    @staticmethod
    def c(x): return x if isinstance(x,Po) else Po({(0,0):Fr(x)})
    def __add__(s,o):
        o=Po.c(o); r=dict(s.d)
        for k,v in o.d.items(): r[k]=r.get(k,0)+v
        return Po(r)
    __radd__=__add__
    def __neg__(s): return Po({k:-v for k,v in s.d.items()})
    def __sub__(s,o): return s+(-Po.c(o))
    def __rsub__(s,o): return Po.c(o)-s
    def __mul__(s,o):
        o=Po.c(o); r={}
        for (a,b),v in s.d.items():
            for (c,e),w in o.d.items(): r[a+c,b+e]=r.get((a+c,b+e),0)+v*w
        return Po(r)
    __rmul__=__mul__
    def __truediv__(s,o): return s*(Fr(1)/o)
def ev(n,env):
    if isinstance(n,ast.Constant): return Po.c(Fr(ast.get_source_segment(src,n)))
    if isinstance(n,ast.Name): return env[n.id]
    if isinstance(n,ast.UnaryOp): return -ev(n.operand,env)
    a,b=ev(n.left,env),ev(n.right,env)
    return {ast.Add:lambda:a+b,ast.Sub:lambda:a-b,ast.Mult:lambda:a*b}[type(n.op)]()
U=Po({(1,0):Fr(1)}); W=Po({(0,1):Fr(1)})
def fit(name,eta,xi):
    return ev(FN[name].body[-1].value,{'eta':eta,'eta2':eta*eta,'xi':xi})
def bern(P,du=None,dw=None):
    du=du if du is not None else max(a for a,b in P.d); dw=dw if dw is not None else max(b for a,b in P.d)
    B={}
    for i in range(du+1):
        for j in range(dw+1):
            s=Fr(0)
            for (a,b),v in P.d.items():
                if a<=i and b<=j: s+=v*Fr(comb(i,a),comb(du,a))*Fr(comb(j,b),comb(dw,b))
            B[i,j]=s
    return du,dw,B
def q(fr):
    n,d=fr.numerator,fr.denominator
    return f'{n}' if d==1 else f'({n} / {d})'
def cert(du,dw,B,u,u1,w,w1):
    return ' + '.join(f'{q(B[i,j]*comb(du,i)*comb(dw,j))} * ({u} ^ {i} * {u1} ^ {du-i} * ({w} ^ {j} * {w1} ^ {dw-j}))' for i in range(du+1) for j in range(dw+1) if B[i,j]!=0) or '0'
if __name__=='__main__':
    eta=U*Fr(1,4); xi=W*(-2)
    for n,P in [('g2lo',fit('gamma2_fun',eta,xi)-Fr(6,10)),('g3lo',fit('gamma3_fun',eta,xi)-1),('g3hi',Fr(135,100)-fit('gamma3_fun',eta,xi)),('g1lo',fit('gamma1_fun',eta,xi)-Fr(1,1000))]:
        du,dw,B=bern(P); print(n,du,dw,float(min(B.values())), min(B,key=B.get))
    # final spin
    s=(1-2*eta)*(2*W-1)
    e2=eta*eta; e3=e2*eta
    f=Fr
    A=f('3.4641016151377544')-f('4.399247300629289')*eta+f('9.397292189321194')*e2-f('13.180949901606242')*e3
    Bq=(-f('0.0850917821418767')-f('5.837029316602263')*eta)+(f('0.1014665242971878')-f('2.0967746996832157')*eta)*s+(-f('1.3546806617824356')+f('4.108962025369336')*eta)*s*s+(-f('0.8676969352555539')+f('2.064046835273906')*eta)*s*s*s
    fs=eta*A+s+eta*Bq*s
    for n,P in [('fshi',1-fs),('fslo',fs+1)]:
        du,dw,B=bern(P); print(n,du,dw,float(min(B.values())),min(B,key=B.get),sum(v<0 for v in B.values()))
    t=2*W-1
    N=eta*(f('0.055974469826360077')+f('0.5809510763115132')*eta-f('0.9606726679372312')*e2+f('3.352411249771192')*e3)*(1+(-f('0.0030302335878845507')-f('2.0066110851351073')*eta+f('7.7050567802399215')*e2)*t)
    D=1+(-f('0.6714403054720589')-f('1.4756929437702908')*eta+f('7.304676214885011')*e2)*t
    for n,P in [('erN',N),('erD',D),('erDN',D-N), ('erDN2',D*Fr(13,100)-N)]:
        du,dw,B=bern(P); print(n,du,dw,float(min(B.values())),min(B,key=B.get),sum(v<0 for v in B.values()))
