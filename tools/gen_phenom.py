"""Translate the scalar formulas of phenom_d.py / phenom_p.py into Coq real expressions (run by hand; output is committed)."""
import ast, re, sys
from fractions import Fraction
D='/repo/ml4gw/waveforms/cbc/phenom_d.py'; P='/repo/ml4gw/waveforms/cbc/phenom_p.py'
def num(seg):
    seg=seg.replace('_','')
    fr=Fraction(seg)
    if fr.denominator==1: return str(fr.numerator)
    m=re.fullmatch(r'(\d*)\.?(\d*)(?:e([+-]?\d+))?',seg,re.I)
    a,b,e=m.group(1),m.group(2),int(m.group(3) or 0)
    n=int(a+b); k=len(b)-e
    return f'({n} / {10**k})'
class Tr:
    def __init__(s,src): s.src=src
    def e(s,n,p=0):
        """p: 0 additive context, 1 multiplicative operand, 2 atom"""
        if isinstance(n,ast.Constant): return num(ast.get_source_segment(s.src,n))
        if isinstance(n,ast.Name): return n.id
        if isinstance(n,ast.Attribute) and n.attr=='mT': return s.e(n.value,p)
        if isinstance(n,ast.UnaryOp) and isinstance(n.op,ast.USub): return f'(- {s.e(n.operand,2)})'
        if isinstance(n,ast.BinOp):
            if isinstance(n.op,ast.Pow):
                r=n.right
                if isinstance(r,ast.Constant) and float(r.value)==int(r.value): return f'{s.e(n.left,2)} ^ {int(r.value)}' if p<2 else f'({s.e(n.left,2)} ^ {int(r.value)})'
                t=f'Rpower {s.e(n.left,2)} {s.e(r,2)}'
                return t if p==0 else f'({t})'
            op={ast.Add:'+',ast.Sub:'-',ast.Mult:'*',ast.Div:'/'}[type(n.op)]
            if op in '+-':
                t=f'{s.e(n.left,0)} {op} {s.e(n.right,1)}'
                return t if p==0 else f'({t})'
            t=f'{s.e(n.left,1)} {op} {s.e(n.right,2)}'
            return t if p<=1 else f'({t})'
        if isinstance(n,ast.Call):
            f=n.func
            if isinstance(f,ast.Attribute) and f.attr=='sqrt': return f'(sqrt {s.e(n.args[0],2)})'
            if isinstance(f,ast.Attribute) and f.attr=='clamp': return f'(Rmax {s.e(n.args[0],2)} 0)'
            if isinstance(f,ast.Attribute) and isinstance(f.value,ast.Name) and f.value.id=='self':
                return '('+f.attr+' '+' '.join(s.e(a,2) for a in n.args)+')'
        raise Exception(ast.dump(n))
def funcs(path):
    src=open(path).read(); t=ast.parse(src)
    cls=[n for n in t.body if isinstance(n,ast.ClassDef)][0]
    return Tr(src),{n.name:n for n in cls.body if isinstance(n,ast.FunctionDef)}
def wrap(t,w=150,ind='  '):
    out=[];line=''
    for tok in t.split(' '):
        if len(line)+len(tok)+1>w: out.append(line); line=tok
        else: line=(line+' '+tok) if line else tok
    out.append(line)
    return ('\n'+ind).join(out)
def body(tr,stmts):
    """straight-line assignments; returns list of (name, expr) and the return expr(s)"""
    lets=[]
    for st in stmts:
        if isinstance(st,ast.Assign) and isinstance(st.targets[0],ast.Name): lets.append((st.targets[0].id,tr.e(st.value)))
        elif isinstance(st,ast.Return):
            v=st.value
            return lets,([tr.e(x) for x in v.elts] if isinstance(v,ast.Tuple) else [tr.e(v)])
        else: raise Exception(ast.dump(st))
    return lets,[]
def defn(name,args,lets,ret,lo,hi,f,note=''):
    s=f'(** {f} {lo}-{hi}, [{name}]{note} *)\nDefinition {name} ({" ".join(args)} : R) : R{" * R"*(len(ret)-1)} :=\n'
    for a,b in lets: s+='  '+wrap(f'let {a} := {b} in',ind='    ')+'\n'
    return s+'  '+wrap('('+', '.join(ret)+')' if len(ret)>1 else ret[0])+'.\n'
def main():
    out='''(** Formulas of ml4gw/waveforms/cbc/phenom_d.py, translated expression by expression from the source by tools/gen_phenom.py
    (one batch element; decimal literals are taken as the exact rationals they denote). *)
From Coq Require Import Reals.
Local Open Scope R_scope.

'''
    tr,F=funcs(D)
    for n in ['chiPN']+[f'sigma{i}Fit' for i in (1,2,3,4)]+[f'gamma{i}_fun' for i in (1,2,3)]+[f'beta{i}Fit' for i in (1,2,3)]+[f'alpha{i}Fit' for i in (1,2,3,4,5)]+[f'rho{i}_fun' for i in (1,2,3)]+['FinalSpin0815','PhenomInternal_EradRational0815','AmpIntColFitCoeff']:
        fn=F[n]; args=[a.arg for a in fn.args.args[1:]]
        lets,ret=body(tr,fn.body); out+=defn(n,args,lets,ret,fn.lineno,fn.end_lineno,'phenom_d.py')
    fn=F['delta_values']; lets,ret=body(tr,fn.body); args=[a.arg for a in fn.args.args[1:]]
    pre=[l for l in lets if not l[0].startswith('delta')]; 
    st={s.targets[0].id:s for s in fn.body if isinstance(s,ast.Assign)}
    for k in range(5):
        d=dict(lets)[f'delta_{k}']; s=st[f'delta_{k}']; used=set(re.findall(r'[a-z]\w*',d))
        out+=defn(f'delta_{k}',args,[l for l in pre if l[0] in used or any(l[0] in re.findall(r'\w+',q[1]) for q in pre)],[d],s.lineno,s.end_lineno,'phenom_d.py')
    fn=F['phenom_d_inspiral_amp']
    for s in fn.body:
        if isinstance(s,ast.Assign) and s.targets[0].id.startswith('prefactors'):
            out+=defn(s.targets[0].id,['eta','eta2','Seta','xi','chi1','chi2','chi12','chi22'],[('SetaPlus1','1 + Seta')],[tr.e(s.value)],s.lineno,s.end_lineno,'phenom_d.py')
    fn=F['subtract3PNSS']
    s=[s for s in fn.body if isinstance(s,ast.Assign) and getattr(s.targets[0],'id','')=='pn_ss3'][0]
    out+=defn('pn_ss3',['eta','m1byM','m2byM','chi1','chi2'],[('chi1sq','chi1 * chi1'),('chi2sq','chi2 * chi2')],[tr.e(s.value)],s.lineno,s.end_lineno,'phenom_d.py')
    open('/verif/rocq/theories/Phd_fits.v','w').write(out)
    # QNM tables
    d=open('/repo/ml4gw/waveforms/cbc/phenom_d_data.py').read()
    out='''(** The tables of ml4gw/waveforms/cbc/phenom_d_data.py, as integers in units of 1e-10 (copied from the source by tools/gen_phenom.py). *)
From Coq Require Import ZArith List.
Import ListNotations.
Local Open Scope Z_scope.

'''
    for n in ['QNMData_a','QNMData_fring','QNMData_fdamp']:
        m=re.search(n+r'\s*=\s*torch\.tensor\(\s*\[(.*?)\]',d,re.S)
        v=[Fraction(x.strip())*10**10 for x in m.group(1).replace('\n',' ').split(',') if x.strip()]
        assert all(x.denominator==1 for x in v)
        lo=d[:m.start()].count('\n')+1; hi=d[:m.end()].count('\n')+1
        out+=f'(** phenom_d_data.py {lo}-{hi} *)\nDefinition {n}_z : list Z := [\n  '+wrap('; '.join(str(x) for x in v))+'].\n'
    open('/verif/rocq/theories/Phd_data.v','w').write(out)
    # PhenomP
    tr,F=funcs(P)
    fn=F['ComputeNNLOanglecoeffs']
    pre=[];co=[]
    for s in fn.body:
        if isinstance(s,ast.Assign) and isinstance(s.targets[0],ast.Name):
            if s.targets[0].id!='angcoeffs': pre.append((s.targets[0].id,tr.e(s.value)))
        elif isinstance(s,ast.Assign): co.append((s.targets[0].slice.value,s))
    out='''(** The NNLO angle coefficients of ml4gw/waveforms/cbc/phenom_p.py, translated from the source by tools/gen_phenom.py. *)
From Coq Require Import Reals.
Local Open Scope R_scope.

'''
    P0=dict(pre)
    for k,s in co:
        ex=tr.e(s.value)
        used=set(re.findall(r'[a-z]\w*',ex)); ch=True
        while ch:
            ch=False
            for a,b in pre:
                if a in used:
                    u=set(re.findall(r'[a-z]\w*',b))-used
                    if u: used|=u; ch=True
        out+=defn(k,['q','chil','chip'],[p for p in pre if p[0] in used],[ex],s.lineno,s.end_lineno,'phenom_p.py')
    open('/verif/rocq/theories/Php_fits.v','w').write(out)
main()
