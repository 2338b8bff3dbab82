"""Regenerate MANIFEST.json from the theorem names in rocq/theories/Prop*.v.

Theorem names start with the property id.  A property is "partial" when one
of its theorems ends in _partial or _refuted (part of the statement is false
of the code or not proved), "proved" otherwise.  Notes are in notes.json.
"""
import glob, json, os, re
root = os.path.dirname(os.path.dirname(os.path.abspath(__file__)))
thms = {}
for f in sorted(glob.glob(os.path.join(root, 'rocq/theories/Prop*.v'))):
    for m in re.finditer(r'^(?:Theorem|Corollary)\s+((C\d+)_\w+)', open(f).read(), re.M):
        thms.setdefault(m.group(2), []).append(m.group(1))
notes = json.load(open(os.path.join(root, 'tools/notes.json')))
claims = []
for line in open(os.path.join(root, 'properties.jsonl')):
    pid = json.loads(line)['id']
    ts = thms.get(pid, [])
    if not ts:
        n = notes.get(pid, 'Not modelled yet.')
        claims.append({'property': pid, 'status': 'not_applicable', 'theorems': [], 'note': n})
        continue
    part = any(t.endswith('_partial') or t.endswith('_refuted') for t in ts)
    claims.append({'property': pid, 'status': 'partial' if part else 'proved',
                   'theorems': ts, 'note': notes.get(pid, '')})
json.dump({'claims': claims}, open(os.path.join(root, 'MANIFEST.json'), 'w'), indent=1)
print(len(claims), 'claims', sum(c['status'] == 'proved' for c in claims), 'proved',
      sum(c['status'] == 'partial' for c in claims), 'partial',
      sum(len(c['theorems']) for c in claims), 'theorems')
