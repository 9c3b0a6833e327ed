#!/usr/bin/env python3
"""Seeded-bug runs: mutate.py MUTATIONS.json [names...]
Each mutation: {"def":..., "file": "X.v", "old":..., "new":..., "claim":...}.  Works in the scratch
copy /tmp/mut (pristine compiled copy in /tmp/mut0); prints one JSON line per mutation."""
import json, subprocess, sys, re, os
muts=json.load(open(sys.argv[1])); only=set(sys.argv[2:])
J=os.environ.get('MJ','2')
def sync(): subprocess.run('rm -rf /tmp/mut; cp -a /tmp/mut0 /tmp/mut',shell=True,check=True)
def enclosing(f,line):
    name='?'
    for k,l in enumerate(open(f),1):
        if k>line: break
        m=re.match(r'\s*(?:Local |Global |#\[[^]]*\] )?(Lemma|Theorem|Example|Corollary|Fact|Definition|Fixpoint)\s+([\w\']+)',l)
        if m: name=m.group(2)
    return name
for m in muts:
    if only and m['def'] not in only: continue
    sync()
    p='/tmp/mut/theories/'+m['file']; s=open(p).read()
    if s.count(m['old'])<1: print(json.dumps({"def":m['def'],"error":"pattern not found","old":m['old']}),flush=True); continue
    s=s.replace(m['old'],m['new'],1); open(p,'w').write(s)
    r=subprocess.run(['make','-k','-j'+J,'TIMER=timeout 400'],cwd='/tmp/mut',capture_output=True,text=True)
    out=r.stdout+r.stderr
    failed=[]
    for f,l in re.findall(r'File "\./(theories/\w+\.v)", line (\d+)[^\n]*\nError',out):
        failed.append(os.path.basename(f)+':'+enclosing('/tmp/mut/'+f,int(l)))
    tmo=re.findall(r'\[Makefile[^\]]*: (theories/\w+)\.vo\] Error 124',out)
    failed+=[os.path.basename(t)+':TIMEOUT' for t in tmo]
    stale=[]
    for f in sorted(os.listdir('/tmp/mut/theories')):
        if f.startswith('Props') and f.endswith('.v'):
            vo='/tmp/mut/theories/'+f+'o'
            if not os.path.exists(vo) or any(False for _ in ()): stale.append(f)
    q=subprocess.run(['make','-q'],cwd='/tmp/mut',capture_output=True,text=True)
    blocked=sorted(set(re.findall(r"Target '?theories/(Props\w+)\.vo' not remade",out)))
    print(json.dumps({"definition":m['file']+' '+m['def'],"edit":m['old']+'  =>  '+m['new'],"claim":m['claim'],"failed":failed,"blocked":blocked,"survived": not failed}),flush=True)
