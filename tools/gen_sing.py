"""Translates the closed-form fields of cafes/particle/singularity/UandPNormal.hpp and UandPTang.hpp into Coq.
Every C++ 'double t = e;' becomes 'let t := e in'; the calls of the chiTrunc family become arguments of the
body and are supplied by the definition that carries the C++ name.  Usage: gen_sing.py <repo> <outdir>"""
import re,sys
repo,out=sys.argv[1:3]
KIND={'chiTrunc':'c0','dchiTrunc':'c1','d2chiTrunc':'c2','d3chiTrunc':'c3'}
def num(m):
    s=m.group(0)
    from fractions import Fraction
    f=Fraction(s)
    assert f.denominator==1,s
    return str(f.numerator)
def expr(e):
    e=re.sub(r'(?<![\w.])\d+\.?\d*(?:e\d+)?(?![\w\]])',num,e)
    # pow(x, 2) -> (x)^2
    while True:
        i=e.find('pow(')
        if i<0: break
        d=0;j=i+3
        while True:
            if e[j]=='(': d+=1
            if e[j]==')':
                d-=1
                if d==0: break
            j+=1
        inner=e[i+4:j]; k=inner.rindex(','); assert inner[k+1:].strip()=='2'
        a=inner[:k].strip()
        e=e[:i]+'(%s)^2'%a+e[j+1:]
    return e.strip()
def gen(fn,outname,wanted,head):
    src=open(repo+'/cafes/particle/singularity/'+fn).read()
    nolines=src
    res=[head]
    for m in re.finditer(r'PetscScalar (\w+)\((position(\d)d) X[^)]*\)\s*\{(.*?)\n    \}',src,re.S):
        name,dim,body=m.group(1),m.group(3),m.group(4)
        if name not in wanted: continue
        l0=src[:m.start()].count('\n')+1; l1=src[:m.end()].count('\n')+1
        gap=re.search(r'PetscReal H, PetscReal M, PetscReal (\w+)',m.group(0)).group(1)
        body=re.sub(r'//[^\n]*','',body); body=re.sub(r'\s+',' ',body)
        used=[]
        def call(mm):
            assert re.sub(r'\s','',mm.group(2))=='r,l,eps'
            k=KIND[mm.group(1)]
            if k not in used: used.append(k)
            return k
        body=re.sub(r'(d?\d?chiTrunc) ?\(([^)]*)\)',call,body.replace('X[1], l, eps','r, l, eps'))
        lets=[];ret=None
        for st in body.split(';'):
            st=st.strip()
            if not st: continue
            if st.startswith('double '):
                n,e=[x.strip() for x in st[7:].split('=',1)]
                if n=='mu': lets.append(('mu','1')); continue
                if n in('r','z'): continue
                e=e.replace('X[0]*X[0]+X[1]*X[1]','r2').replace('X[1]*X[1]','r * r')
                lets.append((n,expr(e)))
            elif st.startswith('return '): ret=expr(st[7:].replace('X[1]*X[1]','r * r'))
            else: raise Exception(name+': '+st)
        used.sort()
        text=' '.join(e for _,e in lets)+' '+ret
        need=lambda v: re.search(r'\b%s\b'%v,text)
        lets=[(n,e) for n,e in lets if n!='mu' or need('mu')]
        args=(['r2'] if dim=='3' else [])+['r','z','H','M',gap,'U']+used
        res.append('(** %s l.%d-%d *)'%(fn,l0,l1))
        res.append('Definition %s_body (%s : R) : R :='%(name,' '.join(args)))
        for n,e in lets: res.append('  let %s := %s in'%(n,e))
        res.append('  %s.'%ret)
        ch={v:k for k,v in KIND.items()}
        if dim=='2':
            res.append('Definition %s (X : list R) (H M %s U l eps : R) : R :='%(name,gap))
            res.append('  let r := nth 1 X 0 in let z := nth 0 X 0 in')
            res.append('  %s_body r z H M %s U%s.'%(name,gap,''.join(' (%s r l eps)'%ch[c] for c in used)))
        else:
            res.append('Definition %s (X : list R) (H M %s U l eps : R) : R :='%(name,gap))
            res.append('  let r2 := nth 0 X 0 * nth 0 X 0 + nth 1 X 0 * nth 1 X 0 in let r := sqrt r2 in let z := nth 2 X 0 in')
            res.append('  %s_body r2 r z H M %s U%s.'%(name,gap,''.join(' (%s r l eps)'%ch[c] for c in used)))
        res.append('')
        wanted.remove(name)
    assert not wanted,wanted
    open(out+'/'+outname,'w').write('\n'.join(res))
H='''(** Generated by tools/gen_sing.py from cafes/particle/singularity/%s: the closed-form
    singular fields, term by term (each C++ local is a [let]).  The values of chiTrunc,
    dchiTrunc, d2chiTrunc, d3chiTrunc at r are the arguments c0, c1, c2, c3 of the bodies.
    Real arithmetic stands for double; [pow(x,2)] is [x^2]; unused [param] is dropped. *)
From Verif Require Import Base M_Truncation.
Open Scope R_scope.
'''
gen('UandPNormal.hpp','M_SingNormal.v',['p_sing_withT_normalMvt2D','uz_sing_normalMvt2D','ux_sing_normalMvt2D','dzuz_sing_normalMvt2D','dxux_sing_normalMvt2D','dxuz_sing_normalMvt2D','dzux_sing_normalMvt2D','p_sing_withT_normalMvt3D','ur_sing_normalMvt3D','uz_sing_normalMvt3D','drur_sing_normalMvt3D','dzur_sing_normalMvt3D','druz_sing_normalMvt3D','dzuz_sing_normalMvt3D'],H%'UandPNormal.hpp')
gen('UandPTang.hpp','M_SingTang.v',['p_sing_withT_tangMvt2D','ux_sing_tangMvt2D','uz_sing_tangMvt2D','dxux_sing_tangMvt2D','dzux_sing_tangMvt2D','dxuz_sing_tangMvt2D','dzuz_sing_tangMvt2D','U0_tang3D','V0_tang3D','W0_tang3D','drU0_tang3D','dzU0_tang3D','drV0_tang3D','dzV0_tang3D','drW0_tang3D','dzW0_tang3D'],H%'UandPTang.hpp')
