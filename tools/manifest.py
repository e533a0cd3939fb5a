#!/usr/bin/env python3
"""Regenerates MANIFEST.json from the theorem names in rocq/theories/Properties*.v.
A property is 'proved' when no theorem of it is marked _partial or _refuted; notes come from tools/notes.json."""
import re, json, glob, os
root = os.path.dirname(os.path.dirname(os.path.abspath(__file__)))
thms = {}
for f in sorted(glob.glob(root + '/rocq/theories/Properties*.v'), key=lambda f: int(re.search(r'(\d+)\.v', f)[1])):
    for m in re.finditer(r'^\s*(?:Theorem|Lemma|Corollary)\s+((C\d\d+)_\w+)', open(f).read(), re.M):
        thms.setdefault(m[2], []).append(m[1])
notes = json.load(open(root + '/tools/notes.json'))
claims = []
for l in open(root + '/properties.jsonl'):
    p = json.loads(l)['id']
    ts = thms.get(p, [])
    if not ts:
        continue
    part = any(t.endswith('_partial') or t.endswith('_refuted') for t in ts)
    claims.append({"property": p, "status": "partial" if part else "proved", "theorems": ts, "note": notes.get(p, "")})
with open(root + '/MANIFEST.json', 'w') as f:
    json.dump({"claims": claims}, f, indent=1)
    f.write('\n')
print(len(claims), 'claims;', sum(c['status'] == 'proved' for c in claims), 'proved;', sum(len(c['theorems']) for c in claims), 'theorems')
missing = [p for p in thms if p not in [c['property'] for c in claims]]
if missing: print('NOT IN properties.jsonl:', missing)
nonote = [c['property'] for c in claims if c['status'] == 'partial' and not c['note']]
if nonote: print('partial without note:', nonote)
