#!/usr/bin/env python3
"""Apply one seeded bug to a scratch copy of the model and report which theorems stop proving.

usage: seed.py FILE.v OLD NEW CLAIM [--log] [--def NAME] [--note TEXT]
Works in /tmp/seed (never in /verif).  A proof that no longer goes through is cut and
replaced by Admitted in the scratch copy so that the rest of the file is still checked;
property theorems that depend on such a proof are found with Print Assumptions.
"""
import sys, os, re, subprocess, shutil, json, argparse
ap = argparse.ArgumentParser()
ap.add_argument('file'); ap.add_argument('old'); ap.add_argument('new'); ap.add_argument('claim')
ap.add_argument('--log', action='store_true'); ap.add_argument('--def', dest='defn', default='')
ap.add_argument('--tight', default=''); ap.add_argument('--note', default='')
ap.add_argument('--count', type=int, default=1)
ap.add_argument('--only', default='')  # regexp of files to recheck
a = ap.parse_args()
SRC = os.environ.get('SEED_SRC', '/verif/rocq'); W = '/tmp/seed/w_%d' % os.getpid()
shutil.rmtree(W, ignore_errors=True)
subprocess.run(['cp', '-a', SRC, W], check=True)
T = W + '/theories'
files = [l.strip() for l in open(W + '/_CoqProject') if l.strip().endswith('.v')]
p = T + '/' + a.file
s = open(p).read()
if s.count(a.old) != a.count:
    print('OLD occurs %d times' % s.count(a.old)); shutil.rmtree(W); sys.exit(2)
open(p, 'w').write(s.replace(a.old, a.new))
# dependency order as in _CoqProject
def deps(f):
    t = open(W + '/' + f).read()
    r = set()
    for m in re.finditer(r'From Verif Require Import ([^.]*)\.', t): r |= set(m.group(1).split())
    for m in re.finditer(r'Verif\.(\w+)', t): r.add(m.group(1))
    return r
changed = {a.file[:-2]}
checked = set()
failed = []; brokendefs = []
for f in files:
    name = os.path.basename(f)[:-2]
    if name not in changed and not (deps(f) & changed): continue
    changed.add(name)
    if a.only and name + '.v' != a.file and not re.search(a.only, name): continue
    checked.add(name)
    while True:
        r = subprocess.run('ulimit -v 8000000; timeout 400 coqc -Q theories Verif ' + f, shell=True, cwd=W, capture_output=True, text=True)
        if r.returncode == 0: break
        m = re.search(r'line (\d+), characters', r.stderr)
        if not m:
            # timeout
            print('no location in', f, r.stderr[-300:]); brokendefs.append(name + ':?'); break
        ln = int(m.group(1))
        L = open(W + '/' + f).read().split('\n')
        # find enclosing statement start
        i = ln - 1
        while i >= 0 and not re.match(r'\s*(Theorem|Lemma|Corollary|Remark|Example|Definition|Fixpoint|Inductive|Record|Fact|Ltac|Goal)\b', L[i]): i -= 1
        h = L[i]; mm = re.match(r'\s*(\w+)\s+(\w+)', h)
        if i < 0 or not re.match(r'\s*(Theorem|Lemma|Corollary|Remark|Example|Fact)', h):
            print('definition broke:', h, r.stderr[-400:]); brokendefs.append(h.strip()); break
        # find Proof. and Qed.
        j = i
        while j < len(L) and not re.search(r'\bProof\b', L[j]): j += 1
        k = j
        while k < len(L) and not re.search(r'\b(Qed|Defined)\.', L[k]): k += 1
        if k < ln - 1 and False: pass
        failed.append(mm.group(2))
        pre = L[j][:L[j].index('Proof')]
        L[j:k+1] = [pre + 'Proof. Admitted.']
        open(W + '/' + f, 'w').write('\n'.join(L))
# dependants
props = []
for f in files:
    name = os.path.basename(f)[:-2]
    if name in checked:
        for m in re.finditer(r'^\s*(?:Theorem|Lemma|Corollary) (C\d\d_\w+)', open(W + '/' + f).read(), re.M): props.append((name, m.group(1)))
hit = []
if props and not brokendefs:
    mods = sorted({n for n, _ in props})
    q = 'From Verif Require %s.\n' % ' '.join(mods) + ''.join('Print Assumptions Verif.%s.%s.\n' % x for x in props)
    open(W + '/q.v', 'w').write(q)
    r = subprocess.run('coqc -Q theories Verif q.v', shell=True, cwd=W, capture_output=True, text=True)
    chunks = re.split(r'(?m)^(?=Closed under|Axioms:)', r.stdout)
    chunks = [c for c in chunks if c.strip()]
    if len(chunks) == len(props):
        for (n, t), c in zip(props, chunks):
            if c.startswith('Axioms'): hit.append(t)
    else: print('assumption count mismatch', len(chunks), len(props), r.stderr[-300:])
print('FAILED proofs:', failed); print('PROPERTY theorems lost:', hit); print('broken defs:', brokendefs)
if a.log:
    rec = dict(definition=(a.defn or '?') + ' (' + a.file + ')', edit='`%s` -> `%s`' % (a.old, a.new), claim=a.claim,
               theorems_failed=hit or [x for x in failed], proofs_failed=failed, tightened=[x for x in a.tight.split(',') if x])
    if a.note: rec['note'] = a.note
    if brokendefs: rec['broken'] = brokendefs
    open('/verif/seeded/LOG.jsonl', 'a').write(json.dumps(rec) + '\n')
shutil.rmtree(W)
