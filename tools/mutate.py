#!/usr/bin/env python3
"""Rebuild an edited copy of the model and report which theorems no longer hold.

usage: mutate.py base DIR            build DIR/rocq completely, remember the time of each file
       mutate.py try DIR SPEC.json   SPEC: list of {"file": "Chain", "old": "...", "new": "..."};
                                     copies DIR to DIR-m, edits, rebuilds what depends on the edits.
A lemma whose proof breaks is admitted in the copy, so that the theorems resting on it show up in
the output of Print Assumptions.  Never run inside the repository.
"""
import sys, os, re, json, subprocess, shutil, time
from concurrent.futures import ThreadPoolExecutor, FIRST_COMPLETED, wait
STD = ('ClassicalDedekindReals.', 'FunctionalExtensionality.', 'Classical_Prop.', 'functional_extensionality_dep', 'sig_', 'classic')
START = re.compile(r'^[ \t]*(?:Local |Global |#\[[^\]]*\] )?(Lemma|Theorem|Example|Corollary|Fact|Remark|Definition|Fixpoint|Inductive|Record|Program Definition)\s+([A-Za-z0-9_\']+)', re.M)

def deps(d):
    fs = sorted(f for f in os.listdir(d + '/theories') if f.endswith('.v'))
    out = subprocess.run(['coqdep', '-Q', 'theories', 'Verif'] + ['theories/' + f for f in fs], cwd=d, capture_output=True, text=True).stdout
    r = {}
    for l in out.splitlines():
        m = re.match(r'theories/(\w+)\.vo .*?: (.*)', l)
        if m: r[m[1]] = [x[9:-3] for x in m[2].split() if x.startswith('theories/') and x.endswith('.vo')]
    return r

def coqc(d, f, tmo):
    t0 = time.time()
    p = subprocess.Popen(['timeout', str(tmo), 'coqc', '-time', '-Q', 'theories', 'Verif', f'theories/{f}.v'], cwd=d, stdout=subprocess.PIPE, stderr=subprocess.STDOUT, text=True)
    out, _ = p.communicate()
    return p.returncode, out, time.time() - t0

def admit(d, f, pos):
    """admit the lemma around byte offset pos"""
    p = f'{d}/theories/{f}.v'
    s = open(p, 'rb').read().decode()
    b = s.encode(); pos = len(b[:pos].decode(errors='ignore'))
    ms = [m for m in START.finditer(s) if m.start() <= pos]
    if not ms: return None
    m = ms[-1]
    if m[1] in ('Inductive', 'Record', 'Fixpoint') : return None
    pr = re.compile(r'\bProof\b[^.]*\.').search(s, m.start())
    nx = START.search(s, m.end())
    end = re.compile(r'\b(Qed|Defined|Admitted)\.').search(s, m.start())
    if not pr or not end or (nx and pr.start() > nx.start()) : return None
    if pos < pr.start(): # the statement does not typecheck: drop it
        s2 = s[:m.start()] + f'(* dropped {m[2]} *)' + s[end.end():]
    else:
        if end[1] == 'Admitted': return None
        s2 = s[:pr.start()] + 'Proof. Admitted.' + s[end.end():]
    open(p, 'w').write(s2)
    return m[2]

def build(d, f, base):
    failed = []; total = 0
    while True:
        tmo = int(base.get(f, 300) * 3 + 120)
        rc, out, dt = coqc(d, f, tmo); total += dt
        if rc == 0: return failed, out, total, None
        m = re.search(r'^File "[^"]*", line (\d+), characters (\d+)-\d+:\nError', out, re.M)
        s = open(f'{d}/theories/{f}.v', 'rb').read()
        if m:
            ls = s.split(b'\n'); pos = sum(len(x) + 1 for x in ls[:int(m[1]) - 1]) + int(m[2])
        elif rc == 124 or 'overflow' in out or rc < 0 or rc == 137:
            c = re.findall(r'^Chars \d+ - (\d+) ', out, re.M); pos = int(c[-1]) + 2 if c else 0
        else: return failed, out, total, 'unknown error: ' + out[-500:]
        n = admit(d, f, pos)
        if n is None: return failed, out, total, f'cannot admit at {pos}: ' + s[max(0, pos-60):pos+60].decode(errors='ignore') + ' ' + out[-300:]
        failed.append(n)

def assumptions(d, f, out):
    s = open(f'{d}/theories/{f}.v').read()
    names = re.findall(r'^Print Assumptions ([A-Za-z0-9_\']+)\.', s, re.M)
    out = re.sub(r'^Chars .*\n', '', out, flags=re.M)
    blocks = re.findall(r'^(Closed under the global context\n|Axioms:\n(?:.+\n)*?)(?=^Closed|^Axioms:|\Z|^File|^\n)', out + '\n', re.M)
    r = {}
    for n, b in zip(names, blocks):
        ax = re.findall(r'^([A-Za-z0-9_.\']+)\s*(?::|$)', b, re.M)
        r[n] = [a for a in ax if a not in ('Axioms',) and not a.startswith(STD)]
    if len(names) != len(blocks): r['?'] = [f'{len(names)} {len(blocks)}']
    return r

def main():
    cmd, d = sys.argv[1:3]
    tf = d + '/times.json'
    base = json.load(open(tf)) if os.path.exists(tf) else {}
    if cmd == 'base': w = d; dirty = None
    else:
        w = d + '-m'; shutil.rmtree(w, ignore_errors=True); shutil.copytree(d, w, symlinks=True)
    r = w + '/rocq'
    D = deps(r)
    if cmd == 'base': dirty = set(D)
    else:
        edits = json.load(open(sys.argv[3])); dirty = set()
        for e in edits:
            p = f'{r}/theories/{e["file"]}.v'; s = open(p).read()
            assert s.count(e['old']) == 1, (e, s.count(e['old']))
            open(p, 'w').write(s.replace(e['old'], e['new'])); dirty.add(e['file'])
        ch = True
        while ch:
            ch = False
            for f, ds in D.items():
                if f not in dirty and any(x in dirty for x in ds): dirty.add(f); ch = True
        for f in dirty:
            for x in ('vo', 'vok', 'vos', 'glob'):
                try: os.remove(f'{r}/theories/{f}.{x}')
                except FileNotFoundError: pass
    done = {f for f in D if f not in dirty}; running = {}; left = set(dirty); res = {}; broken = {}
    with ThreadPoolExecutor(4) as ex:
        while left or running:
            for f in sorted(left, key=lambda f: -base.get(f, 0)):
                if len(running) >= 4: break
                if any(x in broken for x in D[f]): broken[f] = 'needs ' + str([x for x in D[f] if x in broken]); left.discard(f); continue
                if all(x in done for x in D[f]): left.discard(f); running[ex.submit(build, r, f, base)] = f
            if not running: continue
            ds, _ = wait(list(running), return_when=FIRST_COMPLETED)
            for x in ds:
                f = running.pop(x); failed, out, dt, err = x.result()
                if cmd == 'base': base[f] = dt
                if err: broken[f] = err
                else: done.add(f)
                res[f] = (failed, assumptions(r, f, out) if f.startswith('Prop') and not err else {})
                if failed or err: print(f'{f}: {" ".join(failed)} {err or ""}', flush=True)
    if cmd == 'base': json.dump(base, open(tf, 'w'), indent=1)
    bad = {}
    for f, (failed, a) in sorted(res.items()):
        for n, ax in a.items():
            if ax: bad[n] = ax
        if f.startswith('Prop'):
            for n in failed: bad.setdefault(n, ['(itself)'])
    print('BROKEN', {f: e for f, e in broken.items() if not e.startswith('needs')}, [f for f, e in broken.items() if e.startswith('needs')])
    print('THEOREMS', ' '.join(sorted(bad)))
    json.dump(bad, open(w + '/bad.json', 'w'), indent=1)
main()
