# Writes DESIGN.md: tools/design_head.md, the results per property from MANIFEST.json, and tools/design_findings.md.
import json, os
root = os.path.join(os.path.dirname(os.path.abspath(__file__)), '..')
rd = lambda p: open(os.path.join(root, p)).read()
claims = {c['property']: c for c in json.loads(rd('MANIFEST.json'))['claims']}
out = rd('tools/design_head.md') + '## Results per property\n\n'
for l in rd('properties.jsonl').splitlines():
    p = json.loads(l); c = claims.get(p['id'])
    out += '### %s %s\n\n%s\n\n' % (p['id'], p['title'], p['statement'])
    if c is None: out += '*No theorem yet.*\n\n'
    else:
        out += '**%s.** %s\n\nTheorems: %s.\n\n' % (c['status'], c['note'] or 'As stated.', ', '.join('`%s`' % t for t in c['theorems']))
out += rd('tools/design_findings.md')
open(os.path.join(root, 'DESIGN.md'), 'w').write(out)
