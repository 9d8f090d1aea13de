#!/usr/bin/env python3
"""Generate MANIFEST.json from the theorems in rocq/theories/*Props.v plus the notes below."""
import re, glob, json, collections
NOTES = json.load(open('/verif/tools/notes.json'))
th = collections.OrderedDict()
for f in sorted(glob.glob('/verif/rocq/theories/*Props*.v')) + ['/verif/rocq/theories/ValidEnds.v', '/verif/rocq/theories/VValidHist.v']:
    for m in re.finditer(r'^(?:Theorem|Lemma)\s+(C\d\d)_(\w+)', open(f).read(), re.M):
        th.setdefault(m.group(1), []).append(m.group(1)+'_'+m.group(2))
claims = []
for l in open('/verif/properties.jsonl'):
    pid = json.loads(l)['id']
    ts = th.get(pid, [])
    n = NOTES.get(pid, {})
    if not ts and 'status' not in n:
        print('no theorem yet:', pid); continue
    status = n.get('status') or ('partial' if any(t.endswith('_partial') or t.endswith('_refuted') for t in ts) else 'proved')
    claims.append({'property': pid, 'status': status, 'theorems': ts, 'note': n.get('note', '')})
json.dump({'claims': claims}, open('/verif/MANIFEST.json', 'w'), indent=1)
print(len(claims), 'claims')
