#!/usr/bin/env python3
"""Write DESIGN.md: the text below, plus theorem names from MANIFEST.json and
the output of Print Assumptions (rocq/ must be built).  usage: make_design.py [BUILD_DIR]"""
import json, os, re, subprocess, sys, tempfile, glob
R = os.path.dirname(os.path.dirname(os.path.abspath(__file__)))
B = sys.argv[1] if len(sys.argv) > 1 else R + '/rocq'
man = {c['property']: c for c in json.load(open(R + '/MANIFEST.json'))['claims']}
props = [json.loads(l) for l in open(R + '/properties.jsonl')]
where = {}
for f in sorted(glob.glob(R + '/rocq/theories/Props_*.v')):
    for t in re.findall(r'^(?:Theorem|Lemma)\s+(C\d+_\w+)', open(f).read(), re.M): where[t] = os.path.basename(f)[:-2]

def assumptions():
    mods = sorted(set(where.values())); out = {}
    for m in mods:
        ts = [t for t in where if where[t] == m]
        with tempfile.TemporaryDirectory() as d:
            open(d + '/chk.v', 'w').write(f'From Verif Require Import {m}.\n' + ''.join(f'Print Assumptions {m}.{t}.\n' for t in ts))
            p = subprocess.run(['timeout', '900', 'coqc', '-w', 'none', '-Q', B + '/theories', 'Verif', 'chk.v'], cwd=d, stdout=subprocess.PIPE, stderr=subprocess.STDOUT, text=True)
        bl = re.split(r'(?m)^(?=Closed under|Axioms:)', p.stdout)[1:]
        if len(bl) != len(ts): sys.exit(f'{m}: {p.stdout[-500:]}')
        for t, b in zip(ts, bl): out[t] = tuple(sorted(set(re.findall(r'(?m)^([A-Za-z_][\w.\']*) ?(?::|$)', b.split('Axioms:')[1])))) if 'Axioms:' in b else ()
    return out

D = {}
def d(ids, model, how):
    for i in ids.split(): D[i] = (model, how)
exec(open(R + '/tools/design_text.py').read())

ax = assumptions()
o = [INTRO.strip(), '']
o += ['## The properties', '']
for p in props:
    i = p['id']; c = man[i]; model, how = D.get(i, ('', ''))
    o += [f"### {i} {p['title']} ({c['status']})", '', f"*Modelled:* {model}", '', f"*Proof:* {how}", '']
    if c['note']: o += [f"*Extent:* {c['note']}", '']
    o += ['*Theorems:* ' + ', '.join(f"`{t}`" for t in c['theorems']) + (f" (in `{', '.join(sorted({where[t] for t in c['theorems']}))}.v`)" if c['theorems'] else ''), '']
o += [TRUST.strip(), '']
groups = {}
for t, a in ax.items(): groups.setdefault(a, []).append(t)
for a, ts in sorted(groups.items(), key=lambda x: len(x[0])):
    o += [f"**{'Closed under the global context (no axioms)' if not a else 'Axioms ' + ', '.join('`%s`' % x for x in a)}** — {len(ts)} theorems:", '']
    o += [', '.join(f'`{t}`' for t in sorted(ts)), '']
o += ['### What each model file covers', '']
for f in MODEL_FILES:
    s = open(f'{R}/rocq/theories/{f}.v').read(); i = s.index('(*'); txt = s[i+2:s.index('*)', i)]
    txt = '\n'.join(l.strip() for l in txt.split('\n')).replace('[', '`').replace(']', '`').lstrip('*').strip()
    o += [f'**`{f}.v`** ' + txt, '']
o += [FINDINGS.strip(), '']
open(R + '/DESIGN.md', 'w').write('\n'.join(o))
print(len(o), 'lines;', {len(k): len(v) for k, v in groups.items()}, 'without text:', [p['id'] for p in props if p['id'] not in D])
