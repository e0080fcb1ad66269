"""Print Assumptions of every theorem of MANIFEST.json -> ASSUMPTIONS.md (needs a built rocq/)."""
import json,re,glob,os,subprocess,collections
V='/verif'
ths=[(c['property'],t) for c in json.load(open(V+'/MANIFEST.json'))['claims'] for t in c['theorems']]
where={}
for f in sorted(glob.glob(V+'/rocq/theories/*.v')):
    s=open(f).read()
    for m in re.finditer(r'^(?:Theorem|Lemma)\s+(\w+)',s,re.M): where.setdefault(m.group(1),os.path.basename(f)[:-2])
mods=sorted({where[t] for _,t in ths})
q='From Coquelicot Require Import Coquelicot.\n'+''.join(f'From Verif Require {m}.\n' for m in mods)
for _,t in ths: q+=f'Goal True. idtac "@@{t}". exact I. Qed.\nPrint Assumptions Verif.{where[t]}.{t}.\n'
os.makedirs('/tmp/as',exist_ok=True); open('/tmp/as/Q.v','w').write(q)
o=subprocess.run(f'cd /tmp/as && coqc -Q {V}/rocq/theories Verif Q.v 2>/dev/null',shell=True,capture_output=True,text=True).stdout
res={}
for part in o.split('@@')[1:]:
    nm,body=part.split('\n',1)
    ax=tuple(sorted(set(re.findall(r'^([A-Za-z_][\w.]*) *(?::|$)',body,re.M))-{'Axioms','Closed','Section','Variables'}))
    res[nm.strip()]=ax
short=lambda a:a
groups=collections.OrderedDict()
for c,t in ths: groups.setdefault(res[t],[]).append(t)
out=['# What Print Assumptions lists for each theorem of MANIFEST.json','',
 'Written by `tools/assumptions.py`. Every name is an axiom of the Coq standard library; the real-number ones are those on which',
 '`Coq.Reals` itself is built.','']
for g,l in sorted(groups.items(),key=lambda x:len(x[0])):
    out+=['## '+(', '.join('`'+a+'`' for a in g) if g else 'Closed under the global context (no axiom)'),'',', '.join(l),'']
open(V+'/ASSUMPTIONS.md','w').write('\n'.join(out)); print([(g,len(l)) for g,l in groups.items()], len(res),len(ths))
