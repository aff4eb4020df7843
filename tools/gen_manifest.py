"""Regenerates MANIFEST.json from the theorem names in rocq/theories/Properties*.v.

Theorems are named Cnn_...; a name ending in _partial marks the property partial
unless tools/notes.json says otherwise. Notes come from tools/notes.json.
"""
import glob, json, re, os
root = os.path.dirname(os.path.dirname(os.path.abspath(__file__)))
thms = {}
for f in sorted(glob.glob(root + '/rocq/theories/Properties*.v')):
    for m in re.finditer(r'^(?:Theorem|Corollary)\s+(C\d\d+)(\w*)', open(f).read(), re.M):
        thms.setdefault(m.group(1), []).append(m.group(1) + m.group(2))
notes = json.load(open(root + '/tools/notes.json'))
claims = []
for line in open(root + '/properties.jsonl'):
    pid = json.loads(line)['id']
    t = thms.get(pid, [])
    n = notes.get(pid, {})
    status = n.get('status') or ('partial' if not t or any(x.endswith('_partial') for x in t) else 'proved')
    claims.append({'property': pid, 'status': status, 'theorems': t,
                   'note': n.get('note', '' if t else 'no theorem yet')})
json.dump({'claims': claims}, open(root + '/MANIFEST.json', 'w'), indent=1)
print({s: sum(c['status'] == s for c in claims) for s in ('proved', 'partial', 'not_applicable')},
      [c['property'] for c in claims if not c['theorems']])
