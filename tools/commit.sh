#!/bin/bash
# add new theory files to _CoqProject (args: module names in order), regenerate the manifest, commit
cd /verif/rocq
m="$1"; shift
for f in "$@"; do grep -q "theories/$f.v" _CoqProject || echo theories/$f.v >> _CoqProject; done
cd .. && python3 tools/manifest.py && git add -A && git commit -qm "$m" && vcheck 2>&1 | tail -1 | python3 -c "
import sys,json
s=sys.stdin.read(); i=s.find('{'); d=json.loads(s[i:])
print({k:d[k] for k in ('gate','why','wall','manifest_status','manifest_theorems','manifest_missing','n_theorems')})"
