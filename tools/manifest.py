#!/usr/bin/env python3
"""Writes MANIFEST.json from the table below."""
import json
C = {}
def c(prop, status, thms, note): C[prop] = dict(property=prop, status=status, theorems=thms, note=note)
exec(open('/verif/tools/claims.py').read())
ids=[json.loads(l)['id'] for l in open('/verif/properties.jsonl')]
json.dump({"claims":[C[i] for i in ids if i in C]}, open('/verif/MANIFEST.json','w'), indent=1)
missing=[i for i in ids if i not in C]
print("missing", missing)
