#!/usr/bin/env python3
"""Writes /verif/ASSUMPTIONS.md: what Print Assumptions says for each theorem of MANIFEST.json.
Needs an up-to-date build of /verif/rocq."""
import json,subprocess,re,os,collections
V=os.path.join(os.path.dirname(os.path.abspath(__file__)),'..')
m=json.load(open(V+'/MANIFEST.json'))
ths=[]
for c in m['claims']:
    for t in c['theorems']:
        if t not in ths: ths.append(t)
files=[l.strip() for l in open(V+'/rocq/_CoqProject') if l.strip().endswith('.v')]
loc={}
for f in files:
    s=open(V+'/rocq/'+f).read()
    for t in re.findall(r'^\s*(?:Theorem|Lemma|Corollary)\s+([\w\']+)',s,re.M):
        loc[t]=os.path.basename(f)[:-2]
out=['From Verif Require '+' '.join(sorted(set(loc[t] for t in ths)))+'.']
for t in ths:
    out.append('Goal True. idtac "@@ %s". exact I. Qed. Print Assumptions Verif.%s.%s.'%(t,loc[t],t))
open('/tmp/pa.v','w').write('\n'.join(out)+'\n')
r=subprocess.run('cd %s/rocq/theories && coqc -Q . Verif /tmp/pa.v'%V,shell=True,capture_output=True,text=True)
assert r.returncode==0, r.stderr
g=collections.OrderedDict()
for blk in r.stdout.split('@@ ')[1:]:
    lines=blk.split('\n'); n=lines[0].strip(); ax=[]
    for l in lines[1:]:
        k=re.match(r'^([A-Za-z_][\w.\']*)\s*(:|$)',l)
        if k and k.group(1) not in('Axioms','Closed'): ax.append(k.group(1))
    g.setdefault(tuple(sorted(ax)),[]).append(n)
w=open(V+'/ASSUMPTIONS.md','w')
w.write('# Print Assumptions for each theorem of MANIFEST.json\n\nGenerated by tools/assumptions.py; theorems grouped by the set of axioms they use.\n')
for k,v in sorted(g.items(),key=lambda x:len(x[0])):
    w.write('\n## '+('Closed under the global context (no axiom)' if not k else ', '.join('`%s`'%a for a in k))+'\n\n')
    w.write('\n'.join('* `%s` (%s.v)'%(t,loc[t]) for t in v)+'\n')
