#!/usr/bin/env python3
# what Print Assumptions lists for every theorem Cnn_... of rocq/theories/Props*.v, grouped by the set of axioms;
# rewrites the section between the markers in DESIGN.md.  Needs compiled files in rocq/theories.
import re,glob,subprocess,os,tempfile,collections
th='/verif/rocq/theories'
groups=collections.OrderedDict()
for f in sorted(glob.glob(th+'/Props*.v')):
    mod=os.path.basename(f)[:-2]
    names=re.findall(r'^\s*Theorem\s+(C\d\d_\w+)',open(f).read(),re.M)
    if not names: continue
    with tempfile.TemporaryDirectory() as d:
        open(d+'/A.v','w').write('From Verif Require %s.\n'%mod+''.join('Print Assumptions %s.%s.\n'%(mod,n) for n in names))
        out=subprocess.run(['coqc','-Q',th,'Verif',d+'/A.v'],capture_output=True,text=True,cwd=d).stdout
    blocks=re.split(r'^(?=Closed under the global context|Axioms:)',out,flags=re.M)[1:]
    assert len(blocks)==len(names),(mod,len(blocks),len(names),out[:300])
    for n,b in zip(names,blocks):
        ax=tuple(sorted(set(re.findall(r'^([A-Za-z_][\w.\']*)\s*(?::|$)',b,re.M))-{'Axioms','Closed'})) if b.startswith('Axioms') else ()
        groups.setdefault(ax,[]).append(n)
s=''
for ax,ns in sorted(groups.items(),key=lambda x:len(x[0])):
    s+='* '+('closed under the global context (no axioms)' if not ax else ', '.join('`%s`'%a for a in ax))+' — %d theorems: '%len(ns)+', '.join(sorted(ns))+'.\n'
p='/verif/DESIGN.md'; t=open(p).read(); a='<!-- assumptions -->\n'; b='<!-- /assumptions -->'
t=t[:t.index(a)+len(a)]+s+t[t.index(b):]
open(p,'w').write(t); print({k:len(v) for k,v in groups.items()})
