"""Regenerates MANIFEST.json from the theorem names in rocq/theories/P_*.v and the notes below."""
import glob, json, re, os, collections
ROOT = os.path.dirname(os.path.dirname(os.path.abspath(__file__)))
NOTES = json.load(open(os.path.join(ROOT, 'tools', 'notes.json')))
th = collections.OrderedDict()
for f in sorted(glob.glob(os.path.join(ROOT, 'rocq/theories/P_*.v'))):
    for m in re.finditer(r'^Theorem\s+((C\d+)_\w+)', open(f).read(), re.M):
        th.setdefault(m.group(2), []).append(m.group(1))
ids = [json.loads(l)['id'] for l in open(os.path.join(ROOT, 'properties.jsonl'))]
claims = []
for i in ids:
    ts = th.pop(i, [])
    n = NOTES.get(i, '')
    if not ts:
        claims.append({'property': i, 'status': 'partial' , 'theorems': [], 'note': n or 'no theorem yet'})
        continue
    bad = any('_refuted' in t or '_partial' in t for t in ts)
    claims.append({'property': i, 'status': 'partial' if bad else 'proved', 'theorems': ts, 'note': n})
assert not th, ('theorems without property', th)
json.dump({'claims': claims}, open(os.path.join(ROOT, 'MANIFEST.json'), 'w'), indent=1, ensure_ascii=False)
print(collections.Counter(c['status'] if c['theorems'] else 'todo' for c in claims))
