#!/usr/bin/env python3
"""Rewrites section 6 of DESIGN.md from the output of Print Assumptions (needs a built rocq/)."""
import re, os, subprocess, sys
d = '/verif/rocq'
rows = {}
for f in sorted(os.listdir(d + '/theories')):
    if not (f.startswith('Prop') and f.endswith('.v')): continue
    s = open(f'{d}/theories/{f}').read()
    names = re.findall(r"^Print Assumptions ([A-Za-z0-9_']+)\.", s, re.M)
    os.makedirs('/tmp/assum', exist_ok=True); open('/tmp/assum/' + f, 'w').write(s)
    out = subprocess.run(['coqc', '-Q', 'theories', 'Verif', '/tmp/assum/' + f], cwd=d, capture_output=True, text=True).stdout
    blocks = re.findall(r'^(Closed under the global context\n|Axioms:\n(?:.+\n)*?)(?=^Closed|^Axioms:|\Z)', out, re.M)
    assert len(names) == len(blocks), (f, len(names), len(blocks))
    for n, b in zip(names, blocks):
        ax = set(re.findall(r'^([A-Za-z0-9_.\']+)\s*(?::|$)', b, re.M)) - {'Axioms'}
        k = {x.split('.')[-1] for x in ax}
        if b.startswith('Closed'): r = '-'
        else:
            unk = k - {'sig_forall_dec', 'sig_not_dec', 'functional_extensionality_dep', 'classic'}
            assert not unk, (n, unk)
            r = []
            if 'sig_forall_dec' in k or 'sig_not_dec' in k: r.append('R' if {'sig_forall_dec', 'sig_not_dec', 'functional_extensionality_dep'} <= k else '+'.join(sorted(k - {'classic'})))
            elif 'functional_extensionality_dep' in k: r.append('F')
            if 'classic' in k: r.append('C')
            r = ' '.join(r)
        rows.setdefault(r, []).append(n)
p = '/verif/DESIGN.md'; s = open(p).read(); i = s.index('Written by `tools/assumptions.py`.')
s = s[:i] + 'Written by `tools/assumptions.py`.\n'
for r in sorted(rows): s += f'\n* `{r}`: ' + ', '.join(sorted(rows[r])) + '\n'
open(p, 'w').write(s); print({r: len(x) for r, x in rows.items()})
