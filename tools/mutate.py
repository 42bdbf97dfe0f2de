#!/usr/bin/env python3
"""Try wrong programs against the theorems.

usage: mutate.py [ID ...]     (all mutants of seeded/mutants.jsonl not yet in seeded/LOG.jsonl)

Each mutant is one line of seeded/mutants.jsonl:
  {"id", "file", "definition", "old", "new", "claim"}
The edit is applied to a scratch copy of rocq/ outside the repository. A proof
that no longer goes through is replaced by Admitted in the scratch copy and the
build goes on, so that afterwards Print Assumptions tells which property
theorems are lost.
"""
import json, os, re, shutil, subprocess, sys
V = '/verif'; D = os.environ.get('MUTDIR', '/tmp/mut'); BASE = D + '/base'; W = D + '/work'
COQC = 300

def sh(cmd, cwd=None, timeout=3600):
    p = subprocess.run(cmd, shell=True, cwd=cwd, stdout=subprocess.PIPE, stderr=subprocess.STDOUT, text=True, timeout=timeout)
    return p.returncode, p.stdout

def prepare():
    """Bring the base copy up to date, by contents, so that finished files stay finished."""
    os.makedirs(f'{BASE}/theories', exist_ok=True); keep = set()
    _, files = sh('git ls-files rocq', V)   # the committed state
    for f in files.split():
        f = f[len('rocq/'):]
        if not (f.endswith('.v') or f == '_CoqProject'): continue
        new = sh(f'git show HEAD:rocq/{f}', V)[1]; dst = f'{BASE}/{f}'; keep.add(f)
        if not os.path.exists(dst) or open(dst).read() != new: open(dst, 'w').write(new)
    for f in os.listdir(f'{BASE}/theories'):
        if f.endswith('.v') and 'theories/' + f not in keep: os.remove(f'{BASE}/theories/{f}')
    rc, out = sh("coq_makefile -f _CoqProject -o Makefile && make -j4 COQEXTRAFLAGS='-w none'", BASE)
    if rc: print(out[-2000:]); sys.exit("base does not build")

START = re.compile(r'^\s*(?:Local |Global |#\[.*?\]\s*)?(Lemma|Theorem|Corollary|Example|Fact|Remark|Proposition)\s+([\w\']+)')
def admit(path, line):
    """Replace the proof around [line] by Admitted; its name."""
    L = open(path).read().split('\n'); i = line - 1
    while i >= 0 and not START.match(L[i]): i -= 1
    if i < 0: return None
    name = START.match(L[i]).group(2); text = '\n'.join(L[i:])
    a = re.search(r'\bProof\.', text); b = re.search(r'\b(Qed|Defined)\.', text)
    if not a or not b or a.start() > b.start(): return None
    if text[:b.end()].count('\n') + i < line - 1: return None   # the error is after the proof
    if text[:a.start()].count('\n') + i > line - 1: return None # the error is in the statement
    text = text[:a.start()] + 'Admitted.' + '\n' * text[a.start():b.end()].count('\n') + text[b.end():]
    open(path, 'w').write('\n'.join(L[:i]) + ('\n' if i else '') + text)
    return name

def theorems():
    m = json.load(open(f'{V}/MANIFEST.json')); where = {}
    for f in sorted(os.listdir(f'{BASE}/theories')):
        if f.startswith('Props_') and f.endswith('.v'):
            for t in re.findall(r'^(?:Theorem|Lemma|Example|Corollary)\s+([\w\']+)', open(f'{BASE}/theories/{f}').read(), re.M): where[t] = f[:-2]
    return [(t, where[t]) for c in m['claims'] for t in c['theorems'] if t in where]

def run(mu):
    shutil.rmtree(W, ignore_errors=True); sh(f"cp -a {BASE} {W}")
    p = f"{W}/theories/{mu['file']}"; s = open(p).read()
    if s.count(mu['old']) != 1: return {'outcome': 'bad mutant', 'detail': f"old text occurs {s.count(mu['old'])} times"}
    open(p, 'w').write(s.replace(mu['old'], mu['new']))
    broken, dead = [], []
    for it in range(60):
        rc, out = sh(f"make -k -j4 COQEXTRAFLAGS='-w none' TIMECMD='timeout {COQC}'", W, 7200)
        if rc == 0: break
        errs = {}
        for f, l in re.findall(r'File "\./(theories/\w+\.v)", line (\d+), characters[^\n]*\nError', out): errs.setdefault(f, int(l))
        new = 0
        for f, l in errs.items():
            n = admit(f'{W}/{f}', l)
            if n: broken.append(f'{os.path.basename(f)[:-2]}.{n}'); new += 1
            elif f not in dead: dead.append(f)
        if not new:
            for f in re.findall(r'theories/(\w+)\.vo\] Error 124', out): dead.append(f'timeout {f}')
            break
    rebuilt = lambda m: os.path.exists(f'{W}/theories/{m}.vo')
    lost, gone = [], []
    stale = set(re.findall(r'theories/(\w+)\.vo', sh("make -n -k", W)[1])) if rc else set()
    ths = theorems(); mods = sorted({m for _, m in ths})
    for m in mods:
        mine = [t for t, k in ths if k == m]
        if m in stale or not rebuilt(m): gone += mine; continue
        if os.path.getmtime(f'{W}/theories/{m}.vo') == os.path.getmtime(f'{BASE}/theories/{m}.vo'): continue
        open(f'{W}/chk.v', 'w').write(f'From Verif Require Import {m}.\n' + ''.join(f'Print Assumptions {m}.{t}.\n' for t in mine))
        rc2, out = sh('timeout 600 coqc -w none -Q theories Verif chk.v', W)
        blocks = re.split(r'(?m)^(?=Closed under|Axioms:)', out)[1:]
        for t, b in zip(mine, blocks):
            if any(re.search(rf'\b{re.escape(x.split(".")[1])}\b', b) for x in broken): lost.append(t)
    names = {t for t, _ in ths}
    lost += [t for t in (x.split('.')[1] for x in broken) if t in names and t not in lost]   # its own proof is gone
    res = {'outcome': 'caught' if lost else ('does not compile' if dead and not broken else ('lemmas only' if broken else 'survived')),
           'broken_proofs': broken, 'theorems_failed': lost}
    if dead and all(d.startswith('timeout') for d in dead) and not broken: res['outcome'] = 'timeout'   # a proof no longer comes to an end
    if dead: res['files_failed'] = dead; res['theorems_unreachable'] = gone; res['outcome'] = 'caught' if lost or broken else res['outcome']
    return res

def dependents():
    """How many files have to be built again after a change, by file."""
    T = f'{BASE}/theories'; uses = {}
    for f in os.listdir(T):
        if f.endswith('.v'):
            uses[f[:-2]] = {w for r in re.findall(r'From Verif Require (?:Import|Export) ([^.]*)\.', open(f'{T}/{f}').read()) for w in r.split()}
    def closure(x):
        seen = {x}; todo = [x]
        while todo:
            y = todo.pop()
            for z, u in uses.items():
                if y in u and z not in seen: seen.add(z); todo.append(z)
        return len(seen)
    return {x: closure(x) for x in uses}

def main():
    mus = [json.loads(l) for l in open(f'{V}/seeded/mutants.jsonl') if l.strip()]
    log = f'{V}/seeded/LOG.jsonl'; done = {json.loads(l).get('id') for l in open(log) if l.strip()}
    ids = sys.argv[1:]; todo = [m for m in mus if (m['id'] in ids if ids else m['id'] not in done)]
    prepare()
    cost = dependents(); todo.sort(key=lambda m: cost.get(m['file'][:-2], 999))   # the cheap ones first
    for m in todo:
        r = run(m)
        e = {'id': m['id'], 'definition': f"{m['file']}: {m['definition']}", 'edit': f"{m['old']}  ==>  {m['new']}", 'claim': m['claim'], **r, 'theorems_tightened': m.get('tightened', [])}
        print(m['id'], r['outcome'], r.get('detail', ''), r.get('theorems_failed', [])[:6], r.get('broken_proofs', [])[:4], r.get('files_failed', ''), flush=True)
        if r['outcome'] != 'bad mutant':
            open(log, 'a').write(json.dumps(e) + '\n')
main()
