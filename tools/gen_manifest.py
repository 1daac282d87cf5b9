#!/usr/bin/env python3
"""Regenerates MANIFEST.json from the theorem names Cnn_* in rocq/theories/Prop*.v and tools/notes.json."""
import re, json, glob, os
root = os.path.join(os.path.dirname(os.path.abspath(__file__)), '..')
notes = json.load(open(os.path.join(root, 'tools/notes.json')))
props = [json.loads(l)['id'] for l in open(os.path.join(root, 'properties.jsonl')) if l.strip()]
th = {}
for f in sorted(glob.glob(os.path.join(root, 'rocq/theories/Prop*.v'))):
    for m in re.finditer(r'^\s*(?:Theorem|Lemma|Corollary)\s+(C\d+_\w*)', open(f).read(), re.M):
        th.setdefault(m.group(1).split('_')[0], []).append(m.group(1))
claims = []
for p in props:
    n = notes.get(p, {})
    ts = th.get(p, [])
    if not ts:
        if n.get('status') == 'not_applicable':
            claims.append({'property': p, 'status': 'not_applicable', 'theorems': [], 'note': n.get('note', '')})
        continue
    st = n.get('status') or ('partial' if any(re.search(r'_(partial|refuted)$', t) for t in ts) else 'proved')
    claims.append({'property': p, 'status': st, 'theorems': ts, 'note': n.get('note', '')})
json.dump({'claims': claims}, open(os.path.join(root, 'MANIFEST.json'), 'w'), indent=1)
print(len(claims), 'claims;', 'missing:', [p for p in props if p not in {c['property'] for c in claims}])
