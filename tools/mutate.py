#!/usr/bin/env python3
"""Apply seeded bugs to a scratch copy of the model and see which theorems no longer hold.

usage: mutate.py MUTANTS.json [id ...]      (run from anywhere; the scratch copy is /tmp/mut/rocq)

MUTANTS.json: list of {"id","file","old","new","claim","expect"}: [old] is replaced by [new] in theories/[file] (it must occur exactly once),
[claim] says in English what is then false, [targets] the files to check (all if missing), [expect] lists the properties (Cnn) at least one of whose theorems has to fail.

Every proof that no longer goes through is replaced by an admission (in the scratch copy only) so that all failing proofs are found, and Print
Assumptions then tells which theorems of the manifest rest on them.  One line per attempt is appended to /verif/seeded/LOG.jsonl.
"""
import json, os, re, subprocess, sys, shutil, time
SRC = os.environ.get('MUTSRC', '/verif/rocq'); W = os.environ.get('MUTW', '/tmp/mut/rocq'); LOG = '/verif/seeded/LOG.jsonl'
def sh(c, t=3000):
    try:
        return subprocess.run(c, shell=True, cwd=W, capture_output=True, text=True, timeout=t)
    except subprocess.TimeoutExpired:
        return None
def prepare():
    os.makedirs(W, exist_ok=True)
    subprocess.run(f'rsync -a --delete {SRC}/ {W}/ 2>/dev/null || (rm -rf {W} && cp -a {SRC} {W})', shell=True, check=True)
STMT = re.compile(r'^[ ]*(?:Local |Global )?(?:Lemma|Theorem|Example|Corollary|Fact|Remark|Program Definition|Instance|Definition|Fixpoint)\s+([\w\']+)', re.M)
def admit(path, line, col):
    """replace the proof around (line, col) by an admission; return the name of the statement or None"""
    s = open(path).read(); lines = s.split('\n'); pos = sum(len(l.encode()) + 1 for l in lines[:line-1]) + col
    b = s.encode(); pos = len(b[:pos].decode(errors='ignore'))
    heads = [m for m in STMT.finditer(s) if m.start() <= pos]
    if not heads: return None
    m = heads[-1]; end = re.compile(r'\b(Qed|Defined)\.').search(s, pos if pos > m.end() else m.end())
    # an error at Qed itself is reported on the Qed
    start = s.find('Proof', m.end())
    if start < 0 or end is None or start > pos: return None
    back = re.compile(r'\b(Qed|Defined)\.').search(s, start)
    if back and back.end() <= pos: return None
    s = s[:start] + 'Admitted.' + s[(back or end).end():]
    open(path, 'w').write(s)
    return m.group(1)
def theorems():
    out = []
    for f in sorted(os.listdir(W + '/theories')):
        if f.startswith('Prop') and f.endswith('.v'):
            for m in re.finditer(r'^Theorem (C\d+\w*)', open(f'{W}/theories/{f}').read(), re.M): out.append((f[:-2], m.group(1)))
    return out
def run(mu, rounds=60):
    prepare()
    edits = mu['edits'] if 'edits' in mu else [mu]
    changed = set()
    for e in edits:
        p = f"{W}/theories/{e['file']}"; s = open(p).read()
        if s.count(e['old']) != 1: return {'error': f"old text occurs {s.count(e['old'])} times in {e['file']}"}
        open(p, 'w').write(s.replace(e['old'], e['new']))
        changed.add(e['file'])
    failed = []; t0 = time.time()
    for i in range(rounds):
        r = sh('make -k -j2 ' + ' '.join(f'theories/{t}.vo' for t in mu.get('targets', [])) + ' 2>&1', 3000)
        if r is None: return {'error': 'timeout', 'failed': failed}
        errs = re.findall(r'File "\./(theories/\w+\.v)", line (\d+), characters (\d+)-\d+:\s*\nError', r.stdout)
        if not errs:
            if r.returncode != 0: return {'error': r.stdout[-600:], 'failed': failed}
            break
        done = set()
        for f, l, c in errs:
            if f in done: continue
            done.add(f)
            n = admit(f'{W}/{f}', int(l), int(c))
            if n is None:
                k = r.stdout.find(f'"./{f}", line {l}')
                return {'error': f'{f}:{l} ' + r.stdout[k:k+400], 'failed': failed}
            failed.append(f'{f[9:-2]}.{n}')
        if time.time() - t0 > 2400: return {'error': 'too long', 'failed': failed}
    th = [x for x in theorems() if not mu.get('targets') or x[0] in mu['targets']]
    req = sorted({f for f, _ in th})
    open(W + '/Ask.v', 'w').write('From Verif Require Import ' + ' '.join(req) + '.\n' + ''.join(f'Print Assumptions {f}.{n}.\n' for f, n in th))
    r = sh('coqc -Q theories Verif Ask.v 2>&1', 900)
    broken = []
    parts = re.split(r'^(Closed under the global context|Axioms:)', r.stdout, flags=re.M)[1:]
    ans = [(parts[i], parts[i+1]) for i in range(0, len(parts), 2)]
    if len(ans) != len(th): return {'error': f'{len(ans)} answers for {len(th)} theorems: ' + r.stdout[:300], 'failed': failed}
    names = {x.split('.')[1] for x in failed}
    for (f, n), (h, body) in zip(th, ans):
        if n in names or any(re.search(r'(^|[\s.])' + re.escape(x) + r'\s*:', body) for x in names): broken.append(n)
    return {'failed': failed, 'broken': broken, 'seconds': round(time.time() - t0)}
def main():
    mus = json.load(open(sys.argv[1])); want = set(sys.argv[2:])
    for mu in mus:
        if want and mu['id'] not in want: continue
        r = run(mu)
        ok = bool(r.get('broken')) and all(any(b.startswith(c + '_') for b in r['broken']) for c in mu['expect'])
        print(mu['id'], 'CAUGHT' if ok else 'SURVIVED' if 'error' not in r else 'ERROR', json.dumps(r)[:1500], flush=True)
        if 'error' in r: continue
        edits = mu['edits'] if 'edits' in mu else [mu]
        rec = {'id': mu['id'], 'definition': mu['definition'], 'file': ', '.join(sorted({e['file'] for e in edits})),
               'edit': '; '.join(f"{e['old']}  ==>  {e['new']}" for e in edits), 'claim_broken': mu['claim'], 'expected': mu['expect'],
               'failed_proofs': r['failed'], 'theorems_failed': r['broken'], 'caught': ok, 'checked': mu.get('targets') or 'all', 'tightened': mu.get('tightened', [])}
        with open(LOG, 'a') as f: f.write(json.dumps(rec) + '\n')
if __name__ == '__main__': main()
