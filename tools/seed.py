#!/usr/bin/env python3
"""Test the theorems against wrong programs.

usage: seed.py seeds.json   (a list of {id, definition, file, old, new, edit, claim})

For every seed a scratch copy of rocq/ outside the repository is edited and
rebuilt.  A proof that no longer goes through is replaced by Admitted in the
scratch copy, so that Print Assumptions shows which theorems of Properties/
depended on it.  Prints one JSON line per seed; nothing is written to rocq/."""
import json, os, re, shutil, subprocess, sys
from concurrent.futures import ThreadPoolExecutor
root = os.path.dirname(os.path.dirname(os.path.abspath(__file__)))
START = re.compile(r'^[ \t]*(?:Local |Global |#\[[^\]]*\] *)*(Lemma|Theorem|Corollary|Example|Fact|Remark|Definition|Fixpoint|Instance|Inductive|Record|Program Definition)\s+([\w\']+)', re.M)
END = re.compile(r'\b(Qed|Defined|Admitted)\.')

def compile_file(d, f):
    try:
        r = subprocess.run(['coqc', '-time', '-q', '-Q', 'theories', 'Verif', f], cwd=d, capture_output=True,
                           text=True, errors='replace', timeout=240)
        if r.returncode == 0:
            return None, r.stdout
        out = r.stdout + r.stderr
        m = re.findall(r'File "[^"]*", line (\d+), characters (\d+)-(\d+):\n(?:Error|In |.*\nError)', out)
        if not m:
            m = re.findall(r'File "[^"]*", line (\d+), characters (\d+)-(\d+)', out)
        if not m:
            # coqc died without naming a place, e.g. of a stack overflow
            m = re.findall(r'Chars (\d+) - (\d+)', r.stdout)
            return (int(m[-1][1]) + 2 if m else 0), out
        line, a = int(m[-1][0]), int(m[-1][1])
        src = open(os.path.join(d, f), 'rb').read()
        off = sum(len(x) + 1 for x in src.split(b'\n')[:line - 1]) + a
        return off, out
    except subprocess.TimeoutExpired as e:
        out = (e.stdout or b'').decode(errors='replace')
        m = re.findall(r'Chars (\d+) - (\d+)', out)
        return (int(m[-1][1]) + 2 if m else 0), 'timeout'

def repair(d, f, off):
    """Admit or delete the item at byte offset off; return (name, what)."""
    p = os.path.join(d, f)
    src = open(p, 'rb').read().decode('latin1')
    cur = None
    for m in START.finditer(src):
        if m.start() <= off:
            cur = m
    if cur is None:
        return None
    e = END.search(src, cur.start())
    pr = re.compile(r'\bProof\b').search(src, cur.start())
    nxt = START.search(src, cur.end())
    has_proof = pr and e and pr.start() < e.start() and (not nxt or pr.start() < nxt.start())
    if has_proof and off >= pr.start() and off <= e.end():
        if e.group(1) == 'Admitted':
            return None
        new = src[:pr.start()] + 'Proof. Admitted.' + src[e.end():]
        what = 'proof'
    elif has_proof and off < pr.start():
        new = src[:cur.start()] + src[e.end():]
        what = 'statement'
    else:
        # a sentence outside proofs, e.g. a Print Assumptions of a deleted theorem
        s = src.rfind('\n', 0, off) + 1
        t = re.compile(r'\.\s').search(src, off)
        new = src[:s] + src[t.end():]
        what = 'sentence'
    open(p, 'w', encoding='latin1').write(new)
    return cur.group(2), what

def run(seed, d):
    files = [l.strip() for l in open(os.path.join(d, '_CoqProject')) if l.strip().endswith('.v')]
    p = os.path.join(d, seed['file'])
    src = open(p).read()
    if src.count(seed['old']) != 1:
        return {'id': seed['id'], 'error': 'old text occurs %d times' % src.count(seed['old'])}
    open(p, 'w').write(src.replace(seed['old'], seed['new']))
    broken, failed, dirty = [], [], set()
    deps = {}
    for f in files:
        t = open(os.path.join(d, f)).read()
        mods = set()
        for m in re.finditer(r'From Verif\.(\w+) Require Import ([\w\s]+)\.', t):
            for n in m.group(2).split():
                mods.add('theories/%s/%s.v' % (m.group(1), n))
        deps[f] = mods
    for f in files:
        if f != seed['file'] and not (deps[f] & dirty):
            continue
        dirty.add(f)
        for _ in range(400):
            off, out = compile_file(d, f)
            if off is None:
                break
            r = repair(d, f, off)
            if r is None:
                return {'id': seed['id'], 'error': 'cannot continue in %s: %s' % (f, out[-500:])}
            broken.append('%s:%s' % (os.path.basename(f)[:-2], r[0]))
            if f == seed['file'] and '/Model/' in f:
                return {'id': seed['id'], 'error': 'the edit does not compile: ' + out[-500:]}
        if '/Properties/' in f:
            cur = open(os.path.join(d, f), encoding='latin1').read()
            names = re.findall(r'Print Assumptions (\w+)\.', cur)
            chunks = re.split(r'Chars \d+ - \d+ \[Print~Assumptions[^\n]*\n', out)
            # the output of the command precedes its timing line
            for n, c in zip(names, chunks):
                body = re.sub(r'Chars [^\n]*\n', '', c)
                if 'Axioms:' in body:
                    failed.append(n)
    gone = sorted({b.split(':')[1] for b in broken if re.match(r'C\d\d', b.split(':')[1])})
    failed = sorted(set(failed) | {g for g in gone})
    return {'id': seed['id'], 'broken_lemmas': broken, 'failed': failed}

def work(args):
    i, seed = args
    d = '/tmp/seed/%s' % seed['id']
    shutil.rmtree(d, ignore_errors=True)
    shutil.copytree(root + '/rocq', d)
    try:
        r = run(seed, d)
    except Exception as e:
        r = {'id': seed['id'], 'error': repr(e)}
    shutil.rmtree(d, ignore_errors=True)
    print(json.dumps(r), flush=True)
    return r

if __name__ == '__main__':
    seeds = json.load(open(sys.argv[1]))
    os.makedirs('/tmp/seed', exist_ok=True)
    with ThreadPoolExecutor(int(os.environ.get('J', '3'))) as ex:
        list(ex.map(work, enumerate(seeds)))
