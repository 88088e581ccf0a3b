#!/usr/bin/env python3
"""prop.py < JSON list of property objects: adds or replaces (field-wise) lines of properties.jsonl."""
import json, sys, os
p = os.path.dirname(os.path.dirname(os.path.abspath(__file__))) + '/properties.jsonl'
props = [json.loads(l) for l in open(p)]
by = {d['id']: d for d in props}
for n in json.load(sys.stdin):
    if n['id'] in by: by[n['id']].update(n)
    else:
        by[n['id']] = n; props.append(n)
with open(p, 'w') as f:
    for d in props: f.write(json.dumps(d) + '\n')
