#!/usr/bin/env python3
"""Try a wrong program: edit a model file in a scratch copy, rebuild what depends
on it, and report which theorems no longer hold up.

A proof that no longer checks is replaced, in the scratch copy only, by an axiom
[broken]; the theorems whose Print Assumptions then mention it are the ones that
fail.  Usage: mutate.py edits.json out.jsonl [jobs]
edits.json: [{"file": "MFilter", "old": "...", "new": "...", "nth": 0,
              "definition": "...", "claim": "...",
              "only": ["PropsFilter"]}]   (optional: the property files to check)
"""
import json, os, re, shutil, subprocess, sys, tempfile
from concurrent.futures import ThreadPoolExecutor, wait, FIRST_COMPLETED

SRC = '/verif/rocq/theories'
BASE = '/tmp/mut/base'
USING = '/tmp/mut/using.json'
JOBS = int(sys.argv[3]) if len(sys.argv) > 3 else 4
BROKEN = '(broken_ax _)'

def files():
    return [l.strip()[len('theories/'):-2] for l in open('/verif/rocq/_CoqProject') if l.strip().endswith('.v')]

def deps(names):
    d = {}
    for n in names:
        t = open(f'{SRC}/{n}.v').read()
        t = re.sub(r'\(\*.*?\*\)', '', t, flags=re.S)
        s = set()
        for m in re.finditer(r'From Verif Require (?:Import|Export)?\s*([\w\s]+?)\.', t):
            s |= set(m.group(1).split())
        d[n] = s & set(names)
    return d

def coqc(dir, n, timeout=600):
    try:
        p = subprocess.run(['coqc', '-Q', '.', 'Verif', n + '.v'], cwd=dir, capture_output=True, text=True, timeout=timeout)
        return p.returncode, p.stdout, p.stderr
    except subprocess.TimeoutExpired as e:
        return -1, '', 'TIMEOUT'

def schedule(dir, todo, d, work):
    done = set(d) - set(todo)
    left = list(todo)
    running = {}
    res = {}
    with ThreadPoolExecutor(JOBS) as ex:
        while left or running:
            for n in [n for n in left if d[n] <= done]:
                if len(running) >= JOBS: break
                left.remove(n)
                running[ex.submit(work, dir, n)] = n
            if not running: raise Exception('cycle: ' + str(left))
            fin, _ = wait(running, return_when=FIRST_COMPLETED)
            for f in fin:
                n = running.pop(f)
                res[n] = f.result()
                done.add(n)
    return res

def prepare():
    names = files(); d = deps(names)
    os.makedirs(BASE, exist_ok=True)
    using = json.load(open(USING)) if os.path.exists(USING) else {}
    stale = set()
    for n in names:
        src = open(f'{SRC}/{n}.v').read()
        if n == 'GoBase': src += '\nAxiom broken_ax : forall P : Prop, P.\n'
        # suggestions for the section variables that each proof uses
        lines = src.split('\n')
        p = f'{BASE}/{n}.v'
        if not os.path.exists(p) or open(p).read() != src or not os.path.exists(p + 'o'):
            open(p, 'w').write(src); stale.add(n)
    ch = True
    while ch:
        ch = False
        for n in names:
            if n not in stale and d[n] & stale: stale.add(n); ch = True
    def work(dir, n):
        src = open(f'{dir}/{n}.v').read()
        i = src.find('\nFrom Coq Require'); 
        # the option goes after the last Require
        k = max([m.end() for m in re.finditer(r'^(From \w+ Require[^.]*\.(?:\s|$))', src, flags=re.M)] + [0])
        t = src[:k] + '\nSet Suggest Proof Using.\n' + src[k:]
        open(f'{dir}/{n}.v', 'w').write(t)
        rc, out, err = coqc(dir, n, 1200)
        open(f'{dir}/{n}.v', 'w').write(src)
        os.utime(f'{dir}/{n}.vo') if rc == 0 else None
        u = {}
        for m in re.finditer(r'The proof of (\w+) should start with one of the following commands:\s*(Proof using[^.]*\.)', out + err):
            u[m.group(1)] = m.group(2)
        return rc, u, err[-300:]
    if stale:
        print('preparing', len(stale), 'files', flush=True)
        for n, (rc, u, err) in schedule(BASE, [n for n in names if n in stale], d, work).items():
            if rc != 0: print('BASE FAILS', n, err); sys.exit(1)
            using[n] = u
        json.dump(using, open(USING, 'w'))
    return names, d, using

STMT = re.compile(r'^[ \t]*(?:Local |Global |#\[[^\]]*\] *)*(Theorem|Lemma|Example|Corollary|Remark|Fact|Instance|Definition|Fixpoint)\s+(\w+)', re.M)

def attempt(dir, n, using, log):
    """Compile n, replacing proofs that fail."""
    for _ in range(400):
        rc, out, err = coqc(dir, n)
        if rc == 0:
            return out
        src = open(f'{dir}/{n}.v').read()
        m = re.search(r'File "\./%s\.v", line (\d+), characters (\d+)-(\d+)' % n, err)
        if not m:
            # a proof may run forever: cannot tell which
            log['stuck'].append(n + ': ' + err[-150:])
            return None
        line, ch = int(m.group(1)), int(m.group(2))
        off = sum(len(l) + 1 for l in src.split('\n')[:line - 1]) + ch
        heads = [h for h in re.finditer(r'Proof(?: using[^.]*)?\.', src) if h.start() < off + 6]
        p = heads[-1].start() if heads else -1
        q = src.find('Qed.', p)
        if p < 0 or q < 0 or off > q + 4:
            log['stuck'].append(f'{n}:{line}: ' + err[-200:].replace('\n', ' '))
            return None
        st = [x for x in STMT.finditer(src, 0, p)][-1]
        name = st.group(2)
        own = heads[-1].group(0)
        u = own if own != 'Proof.' else using.get(n, {}).get(name, 'Proof.')
        rep = f'{u} exact (broken_ax _). Qed.'
        if src[p:q + 4] == rep or 'broken_ax' in src[p:q+4]:
            log['stuck'].append(f'{n}:{line}: ' + err[-200:].replace('\n', ' '))
            return None
        # keep the text before Proof. on the line
        src = src[:p] + rep + src[q + 4:]
        open(f'{dir}/{n}.v', 'w').write(src)
        log['broken'].append((st.group(1), name))
    log['stuck'].append(n + ': too many')
    return None

def mutant(e, names, d, using):
    dir = tempfile.mkdtemp(prefix='m', dir='/tmp/mut')
    log = {'broken': [], 'stuck': [], 'theorems': []}
    try:
        for f in os.listdir(BASE):
            if f.endswith('.v') or f.endswith('.vo'):
                os.symlink(f'{BASE}/{f}', f'{dir}/{f}')
        n = e['file']
        src = open(f'{BASE}/{n}.v').read()
        pos = -1
        for _ in range(e.get('nth', 0) + 1):
            pos = src.find(e['old'], pos + 1)
            if pos < 0: return {**e, 'error': 'text not found'}
        if 'nth' not in e and src.count(e['old']) != 1: return {**e, 'error': 'text not unique'}
        src = src[:pos] + e['new'] + src[pos + len(e['old']):]
        todo = {n}
        ch = True
        while ch:
            ch = False
            for x in names:
                if x not in todo and d[x] & todo: todo.add(x); ch = True
        if 'only' in e:
            # look at these property files and what they rest on
            need = set(e['only']); ch = True
            while ch:
                ch = False
                for x in list(need):
                    if d[x] - need: need |= d[x]; ch = True
            todo &= need
        for x in todo:
            for suf in ('.v', '.vo'):
                if os.path.islink(f'{dir}/{x}{suf}'): os.unlink(f'{dir}/{x}{suf}')
            shutil.copy(f'{BASE}/{x}.v', f'{dir}/{x}.v')
        open(f'{dir}/{n}.v', 'w').write(src)
        rc, out, err = coqc(dir, n)
        if rc != 0 and n.startswith('M'): return {**e, 'error': 'mutant does not compile: ' + err[-400:]}
        def work(dir, x):
            if log['stuck'] and any(y.split(':')[0] in d[x] or y.startswith('SKIP') and y[5:] in d[x] for y in log['stuck']):
                log['stuck'].append('SKIP ' + x); return None
            out = attempt(dir, x, using, log)
            if out is None: return None
            if x.startswith('Props'):
                asked = re.findall(r'^\s*Print Assumptions (\w+)\.', open(f'{dir}/{x}.v').read(), flags=re.M)
                ans = re.findall(r'(Closed under the global context|^Axioms:(?:\n(?!Closed|Axioms:).*)*)', out, flags=re.M)
                if len(asked) != len(ans): log['stuck'].append(f'{x}: {len(asked)} questions, {len(ans)} answers')
                for a, b in zip(asked, ans):
                    if 'broken_ax' in b: log['theorems'].append(a)
            return None
        order = [x for x in names if x in todo]
        schedule(dir, order, d, work)
        r = {**e, 'theorems_failed': sorted(log['theorems']),
             'lemmas_failed': sorted({b for k, b in log['broken'] if k != 'Example'}),
             'examples_failed': sorted({b for k, b in log['broken'] if k == 'Example'}),
             'unchecked': log['stuck']}
        return r
    finally:
        shutil.rmtree(dir, ignore_errors=True)

def main():
    names, d, using = prepare()
    done = set()
    if os.path.exists(sys.argv[2]):
        for l in open(sys.argv[2]):
            x = json.loads(l); done.add((x['file'], x['old'], x['new'], x.get('nth', 0)))
    for e in json.load(open(sys.argv[1])):
        if (e['file'], e['old'], e['new'], e.get('nth', 0)) in done: continue
        r = mutant(e, names, d, using)
        with open(sys.argv[2], 'a') as f: f.write(json.dumps(r) + '\n')
        print(e['file'], repr(e['new'][:50]), r.get('error') or (len(r['theorems_failed']), r['theorems_failed'][:6], r['examples_failed'][:3], r['unchecked'][:2]), flush=True)

if __name__ == '__main__':
    main()
