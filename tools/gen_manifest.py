# Regenerates MANIFEST.json from the theorem names in rocq/theories/Prop*.v and the status table below.
import json, os, re, glob
root = os.path.join(os.path.dirname(os.path.abspath(__file__)), '..')
names = {}
for f in sorted(glob.glob(os.path.join(root, 'rocq/theories/Prop*.v'))):
    for m in re.finditer(r'^Theorem (C(\d+)\w*)', open(f).read(), re.M):
        names.setdefault('C' + m.group(2), []).append(m.group(1))
# property -> (status, note); properties without an entry are "proved" when they have theorems.
ST = {}
exec(open(os.path.join(root, 'tools/status.py')).read())
claims = []
for l in open(os.path.join(root, 'properties.jsonl')):
    i = json.loads(l)['id']
    ths = names.get(i, [])
    if i in ST: st, note = ST[i]
    elif ths: st, note = 'proved', ''
    else: continue
    claims.append(dict(property=i, status=st, theorems=ths, note=note))
json.dump(dict(claims=claims), open(os.path.join(root, 'MANIFEST.json'), 'w'), indent=1, ensure_ascii=False)
print(len(claims), sum(len(c['theorems']) for c in claims))
