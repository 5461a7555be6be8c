#!/usr/bin/env python3
"""Regenerates MANIFEST.json from the theorem names Cnn_* in rocq/theories/*_props.v.
A property with a theorem named *_refuted or *_partial is "partial", otherwise "proved".
Notes are read from tools/notes.json."""
import json, re, glob, os
root = os.path.dirname(os.path.dirname(os.path.abspath(__file__)))
notes = json.load(open(root + '/tools/notes.json'))
props = [json.loads(l)['id'] for l in open(root + '/properties.jsonl') if l.strip()]
listed = open(root + '/rocq/_CoqProject').read()
thms = {}
for f in sorted(glob.glob(root + '/rocq/theories/*_props.v')):
    assert 'theories/' + os.path.basename(f) in listed, f
    for m in re.finditer(r'^Theorem (C\d\d+)(\w*)', open(f).read(), re.M):
        thms.setdefault(m.group(1), []).append(m.group(1) + m.group(2))
for i in list(thms) + list(notes):
    assert i in props, i
claims = []
for i in props:
    t = thms.get(i, [])
    note = notes.get(i, '')
    if not t:
        if note.startswith('NA: '):
            claims.append({"property": i, "status": "not_applicable", "theorems": [], "note": note[4:]})
        continue
    st = 'partial' if any(x.endswith('_refuted') or x.endswith('_partial') for x in t) else 'proved'
    if note.startswith('PARTIAL: '):
        st, note = 'partial', note[9:]
    claims.append({"property": i, "status": st, "theorems": t, "note": note})
json.dump({"claims": claims}, open(root + '/MANIFEST.json', 'w'), indent=1)
print(len(claims), 'claims;', 'missing:', [i for i in props if i not in [c['property'] for c in claims]])
