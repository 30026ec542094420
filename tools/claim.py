#!/usr/bin/env python3
"""Set one claim in MANIFEST.json: claim.py ID status thm1,thm2 [note]"""
import json, sys
p = '/verif/MANIFEST.json'
m = json.load(open(p))
i, st, th = sys.argv[1:4]
note = sys.argv[4] if len(sys.argv) > 4 else ''
cl = [c for c in m['claims'] if c['property'] != i]
cl.append({"property": i, "status": st, "theorems": [t for t in th.split(',') if t], "note": note})
cl.sort(key=lambda c: c['property'])
with open(p, 'w') as f:
    f.write('{"claims": [\n' + ',\n'.join(' ' + json.dumps(c) for c in cl) + '\n]}\n')
