# Prints what the theorems of MANIFEST.json depend on (needs a built rocq/).
import json, os, subprocess, tempfile, glob
root = os.path.join(os.path.dirname(os.path.abspath(__file__)), '..')
names = [t for c in json.load(open(os.path.join(root, 'MANIFEST.json')))['claims'] for t in c['theorems']]
mods = sorted(os.path.basename(f)[:-2] for f in glob.glob(os.path.join(root, 'rocq/theories/Prop*.v')))
with tempfile.TemporaryDirectory() as d:
    f = os.path.join(d, 'Check.v')
    open(f, 'w').write('From Verif Require Import %s.\n' % ' '.join(mods) + ''.join('Print Assumptions %s.\n' % n for n in names))
    out = subprocess.run(['coqc', '-Q', os.path.join(root, 'rocq/theories'), 'Verif', f], capture_output=True, text=True)
closed = out.stdout.count('Closed under the global context')
print(len(names), 'theorems,', closed, 'closed under the global context')
rest = [l for l in out.stdout.splitlines() if not l.startswith('Closed')]
print('\n'.join(rest[:40])); print(out.stderr[:2000])
