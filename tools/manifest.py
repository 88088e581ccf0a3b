#!/usr/bin/env python3
"""Regenerates MANIFEST.json from the P_*.v files: every Theorem is attributed to the
property ids named in the nearest preceding comment that starts with Cnn.
Notes and non-default statuses are read from tools/notes.json."""
import json, re, glob, os
root = os.path.dirname(os.path.dirname(os.path.abspath(__file__)))
notes = json.load(open(root + '/tools/notes.json'))
thms = {}
for f in sorted(glob.glob(root + '/rocq/theories/P_*.v')):
    cur = []
    for m in re.finditer(r'\(\*\*\s*((?:C\d\d+[ ,]*)+)|^Theorem\s+(\w+)', open(f).read(), re.M):
        if m.group(1):
            cur = re.findall(r'C\d\d+', m.group(1))
        else:
            for c in cur:
                thms.setdefault(c, []).append(m.group(2))
ids = [json.loads(l)['id'] for l in open(root + '/properties.jsonl')]
claims = []
for i in ids:
    n = notes.get(i, {})
    if i not in thms and 'status' not in n:
        continue
    st = n.get('status', 'partial' if any(t.endswith('_partial') for t in thms.get(i, [])) else 'proved')
    claims.append({"property": i, "status": st, "theorems": thms.get(i, []), "note": n.get('note', '')})
json.dump({"claims": claims}, open(root + '/MANIFEST.json', 'w'), indent=1)
print(len(claims), 'claims of', len(ids), '; missing', [i for i in ids if i not in thms])
print('unknown ids', sorted(set(thms) - set(ids)))
