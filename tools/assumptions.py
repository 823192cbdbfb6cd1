#!/usr/bin/env python3
"""Collect what Print Assumptions says for every theorem of the Properties files.

Run in a built tree: tools/assumptions.py.  Prints a Markdown table grouped by
the set of axioms; DESIGN.md contains its output."""
import re, subprocess, sys, os, tempfile, collections
root = os.path.join(os.path.dirname(os.path.abspath(__file__)), '..', 'rocq')
files = [l.strip() for l in open(os.path.join(root, '_CoqProject')) if 'Properties_' in l]
groups = collections.OrderedDict()
for f in files:
    src = open(os.path.join(root, f)).read()
    names = re.findall(r'^Print Assumptions (\w+)\.', src, re.M)
    with tempfile.TemporaryDirectory() as d:
        out = subprocess.run(['coqc', '-Q', 'theories', 'Verif', '-o', os.path.join(d, os.path.basename(f) + 'o'), f],
                             cwd=root, capture_output=True, text=True)
        if out.returncode: sys.exit(out.stderr)
    blocks = re.split(r'^(?=Closed under the global context|Axioms:)', out.stdout, flags=re.M)
    blocks = [b for b in blocks if b.startswith(('Closed', 'Axioms'))]
    assert len(blocks) == len(names), (f, len(blocks), len(names))
    for n, b in zip(names, blocks):
        ax = tuple(sorted(re.findall(r'^([\w.]+)(?: :|$)', b[len('Axioms:'):], re.M))) if b.startswith('Axioms') else ()
        groups.setdefault(ax, []).append(n)
print('| axioms | theorems |\n|---|---|')
for ax, ns in sorted(groups.items(), key=lambda x: len(x[0])):
    print('| %s | %s |' % (', '.join('`%s`' % a for a in ax) or '(none: closed under the global context)', ', '.join(ns)))
