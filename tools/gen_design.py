#!/usr/bin/env python3
"""Regenerates DESIGN.md from tools/design_head.md, tools/design_how.json, properties.jsonl,
MANIFEST.json and tools/axioms.json (run gen_manifest.py and axioms.py before)."""
import json, re, glob, os
root = os.path.dirname(os.path.dirname(os.path.abspath(__file__)))
def load(f): return json.load(open(root + '/' + f))
how, ax = load('tools/design_how.json'), load('tools/axioms.json')
claims = {c['property']: c for c in load('MANIFEST.json')['claims']}
props = [json.loads(l) for l in open(root + '/properties.jsonl') if l.strip()]
where, models = {}, {}
for f in sorted(glob.glob(root + '/rocq/theories/*.v')):
    b, t = os.path.basename(f)[:-2], open(f).read()
    models[b] = sorted({w for m in re.finditer(r'From Verif Require (?:Import|Export) ([^.]*)\.', t) for w in m.group(1).split() if w.endswith('_model')})
    if b.endswith('_props'):
        for m in re.finditer(r'^Theorem (C\d\d+\w*)', t, re.M): where[m.group(1)] = b
short = {'ClassicalDedekindReals.sig_forall_dec': 'sig_forall_dec', 'ClassicalDedekindReals.sig_not_dec': 'sig_not_dec',
         'Classical_Prop.classic': 'classic', 'FunctionalExtensionality.functional_extensionality_dep': 'funext'}
sets = {(): '0', ('sig_forall_dec',): 'R1', ('sig_forall_dec', 'funext'): 'R2', ('sig_forall_dec', 'sig_not_dec', 'funext'): 'R3',
        ('sig_forall_dec', 'sig_not_dec', 'classic', 'funext'): 'R4'}
def letter(t):
    a = [short[x] for x in ax[t]]
    k = tuple(x for x in ('sig_forall_dec', 'sig_not_dec', 'classic', 'funext') if x in a)
    return sets[k]
out = []
for p in props:
    i = p['id']; c = claims[i]
    files = sorted({where[t] for t in c['theorems']})
    mods = sorted({m for f in files for m in models[f]})
    out.append('### %s %s (%s)\n' % (i, p['title'], c['status']))
    out.append('- How: %s' % how[i])
    if files: out.append('- Files: %s; models: %s' % (', '.join(f + '.v' for f in files), ', '.join(mods) if mods else 'in the same file'))
    if c['theorems']: out.append('- Theorems [axioms]: ' + ', '.join('%s [%s]' % (t, letter(t)) for t in c['theorems']))
    if c['note']: out.append('- Result: ' + c['note'])
    out.append('')
head = open(root + '/tools/design_head.md').read()
open(root + '/DESIGN.md', 'w').write(head.replace('@@PROPERTIES@@', '\n'.join(out)))
print(len(props), 'properties')
