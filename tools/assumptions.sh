#!/bin/bash
# Print Assumptions for every theorem of MANIFEST.json (needs a built /verif/rocq)
cd /verif/rocq || exit 1
python3 - > /tmp/Assumptions.v <<'E'
import json,re,glob
names=set(t for c in json.load(open('/verif/MANIFEST.json'))['claims'] for t in c['theorems'])
mods={}
for f in glob.glob('theories/*.v'):
    for m in re.finditer(r'^ *(?:Theorem|Lemma|Corollary|Example) (C\d\d_\w+)',open(f).read(),re.M):
        mods[m.group(1)]=f[9:-2]
for n in sorted(names):
    print('From Verif Require %s.\nPrint Assumptions %s.%s.'%(mods[n],mods[n],n))
E
coqc -Q theories Verif /tmp/Assumptions.v | sort | uniq -c
