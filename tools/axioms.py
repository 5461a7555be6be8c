#!/usr/bin/env python3
"""Runs Print Assumptions on every theorem of MANIFEST.json (the theories must be built) and
writes tools/axioms.json: theorem -> list of axioms.  With arguments (names of theories) only the
theorems of these are looked at again."""
import json, re, glob, os, subprocess, sys, tempfile
root = os.path.dirname(os.path.dirname(os.path.abspath(__file__)))
where = {}
for f in sorted(glob.glob(root + '/rocq/theories/*_props.v')):
    for m in re.finditer(r'^Theorem (C\d\d+\w*)', open(f).read(), re.M):
        where.setdefault(os.path.basename(f)[:-2], []).append(m.group(1))
only = sys.argv[1:]
res = {}
if only:
    old = json.load(open(root + '/tools/axioms.json'))
    res = {t: old[t] for f, ts in where.items() if f not in only for t in ts if t in old}
    where = {f: ts for f, ts in where.items() if f in only}
for f, ts in where.items():
    d = tempfile.mkdtemp()
    p = d + '/ax.v'
    with open(p, 'w') as o:
        o.write('From Coq Require Import String. From Verif Require %s.\n' % f)
        for t in ts:
            o.write('Eval compute in ("@@%s"%%string).\nPrint Assumptions %s.%s.\n' % (t, f, t))
    out = subprocess.run(['coqc', '-Q', 'theories', 'Verif', p], cwd=root + '/rocq', stdout=subprocess.PIPE, stderr=subprocess.STDOUT, text=True).stdout
    parts = re.split(r'= "@@(\w+)"(?:%string)?\s*: string', out)
    assert len(parts) == 2 * len(ts) + 1, (f, out[-500:])
    for i, t in enumerate(ts):
        body = parts[2 * i + 2]
        if 'Closed under the global context' in body:
            res[t] = []
        else:
            res[t] = sorted(set(re.findall(r'^([A-Za-z_][\w.\']*)\s*(?::|$)', body, re.M)) - {'Axioms', 'Section'})
            assert res[t], (t, body)
json.dump(res, open(root + '/tools/axioms.json', 'w'), indent=0, sort_keys=True)
kinds = {}
for t, a in res.items():
    kinds.setdefault(tuple(a), []).append(t)
for a, ts in kinds.items():
    print(len(ts), a)
