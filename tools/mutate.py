#!/usr/bin/env python3
"""Apply one wrong edit to the model in a scratch copy and find what breaks.

Every proof that no longer goes through is replaced by Admitted, so that the
rest can be checked; a property theorem is broken when its own proof fails or
its Print Assumptions lists such a lemma.

usage: mutate.py [--quick] BASE WORK MUTANTS.json [ID ...]
BASE is a built copy of /verif/rocq, WORK is scratch space.  With --quick only
the property files with theorems of the expected claims are checked.
"""
import concurrent.futures as cf, json, os, re, shutil, subprocess, sys, threading

JOBS = 3
TIMEOUT = 400

def deps(root):
    out = subprocess.run('coqdep -f _CoqProject', shell=True, cwd=root, capture_output=True, text=True).stdout
    d = {}
    for l in out.splitlines():
        m = re.match(r'(\S+?)\.vo\b.*?: (.*)', l)
        if m and m.group(1).startswith('theories/'):
            d[m.group(1)[9:]] = {w[9:-3] for w in m.group(2).split() if w.startswith('theories/') and w.endswith('.vo')}
    return d

HEAD = re.compile(r'^[ \t]*(?:Local |Global |#\[[^\]]*\] *)?(?:Lemma|Theorem|Example|Corollary|Instance|Fact|Remark|Definition)\s+([\w\']+)', re.M)

def admit_at(src, off):
    """replace the proof around offset off; returns (new source, name) or (None, reason)"""
    heads = [m for m in HEAD.finditer(src) if m.start() <= off]
    if not heads:
        return None, 'no enclosing lemma'
    h = heads[-1]
    p = re.compile(r'\bProof\b[^.]*\.(?=\s)').search(src, h.end())
    nxt = HEAD.search(src, h.end())
    if not p or (nxt and nxt.start() < p.start()):
        return None, 'error in definition ' + h.group(1)
    q = re.compile(r'\b(?:Qed|Defined|Admitted)\.').search(src, p.end())
    if off < p.start():
        return None, 'error in statement of ' + h.group(1)
    if off > q.end():
        return None, 'error after ' + h.group(1)
    return src[:p.start()] + 'Proof. Admitted.' + src[q.end():], h.group(1)

def compile_file(root, name):
    path = os.path.join(root, 'theories', name + '.v')
    broken = []
    while True:
        try:
            r = subprocess.run(['coqc', '-q', '-time', '-w', 'none', '-Q', 'theories', 'Verif', path],
                               cwd=root, capture_output=True, text=True, timeout=TIMEOUT)
            out, err, code = r.stdout, r.stderr, r.returncode
            m = re.search(r'line (\d+), characters (\d+)-', err)
            late = False
        except subprocess.TimeoutExpired as e:
            out = (e.stdout or b'').decode(); code = 1; m = None; late = True; err = 'timeout'
        if code == 0:
            return broken, None, out
        src = open(path, 'rb').read()
        if m:
            line, ch = int(m.group(1)), int(m.group(2))
            off = sum(len(l) for l in src.split(b'\n')[:line - 1]) + line - 1 + ch
        else:
            c = re.findall(r'^Chars \d+ - (\d+)', out, re.M)
            off = (int(c[-1]) if c else 0) + 3
        text = src.decode()
        off = len(src[:off].decode(errors='ignore'))
        new, nm = admit_at(text, off)
        if new is None:
            return broken, nm + ': ' + err.strip()[-300:], out
        broken.append(nm)
        open(path, 'w').write(new)

def run(base, work, mut, quick=False):
    if os.path.exists(work):
        shutil.rmtree(work)
    shutil.copytree(base, work, copy_function=shutil.copy2)
    for e in mut.get('edits') or [mut]:
        f = os.path.join(work, 'theories', e['file'] + '.v')
        s = open(f).read()
        n = s.count(e['from'])
        if n != e.get('count', 1):
            return {'id': mut['id'], 'error': f"{n} occurrences"}
        open(f, 'w').write(s.replace(e['from'], e['to']))
    d = deps(work)
    todo = {e['file'] for e in mut.get('edits') or [mut]}
    while True:
        more = {f for f, ds in d.items() if ds & todo} - todo
        if not more: break
        todo |= more
    if quick and mut.get('expect'):
        want = set()
        for f in d:
            if f.startswith('Properties_'):
                names = re.findall(r'^Theorem (\w+)', open(os.path.join(work, 'theories', f + '.v')).read(), re.M)
                if any(n.startswith(c + '_') for n in names for c in mut['expect']): want.add(f)
        while True:
            more = {x for f in want for x in d[f]} - want
            if not more: break
            want |= more
        skip = todo - want
        todo &= want
    else:
        skip = set()
    for f in todo | skip:
        for ext in ('.vo', '.glob', '.vos', '.vok'):
            p = os.path.join(work, 'theories', f + ext)
            if os.path.exists(p): os.remove(p)
    broken, dead, outs, done = {}, {}, {}, set()
    with cf.ThreadPoolExecutor(JOBS) as ex:
        running = {}
        left = set(todo)
        while left or running:
            for f in sorted(left):
                ds = d[f] & todo
                if ds & set(dead):
                    dead[f] = 'needs ' + ','.join(sorted(ds & set(dead))); left.discard(f)
                elif ds <= done:
                    running[ex.submit(compile_file, work, f)] = f; left.discard(f)
            if not running:
                if left: continue
                break
            fin, _ = cf.wait(running, return_when=cf.FIRST_COMPLETED)
            for x in fin:
                f = running.pop(x); b, e, out = x.result()
                if b: broken[f] = b
                if e: dead[f] = e
                else: done.add(f); outs[f] = out
    lemmas = {l for b in broken.values() for l in b}
    failed = []
    for f in sorted(todo):
        if not f.startswith('Properties_'): continue
        src = open(os.path.join(work, 'theories', f + '.v')).read()
        names = re.findall(r'Print Assumptions (\w+)', src)
        if f in dead:
            failed += [n + ' (file)' for n in names]; continue
        text = '\n'.join(l for l in outs[f].splitlines() if not l.startswith('Chars '))
        blocks = re.split(r'^(?=Axioms:|Closed under)', text, flags=re.M)[1:]
        for n, b in zip(names, blocks):
            used = set(re.findall(r"^([\w'.]+)\s*:", b, re.M)) | set(re.findall(r"^([\w'.]+)\s*$", b, re.M))
            used = {u.split('.')[-1] for u in used}
            if used & lemmas or n in broken.get(f, []):
                failed.append(n)
    return {'id': mut['id'], 'quick': bool(skip), 'failed': failed, 'lemmas': broken, 'dead': dead}

if __name__ == '__main__':
    quick = '--quick' in sys.argv
    if quick: sys.argv.remove('--quick')
    base, work, ms = sys.argv[1:4]
    for m in json.load(open(ms)):
        if len(sys.argv) > 4 and m['id'] not in sys.argv[4:]: continue
        r = run(base, work, m, quick)
        r['expect'] = m.get('expect', [])
        r['missed'] = [c for c in r['expect'] if not any(t.startswith(c) for t in r.get('failed', []))]
        print(json.dumps(r), flush=True)
