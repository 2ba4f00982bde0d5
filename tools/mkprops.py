#!/usr/bin/env python3
"""Generate rocq/theories/Props/*.v from tools/props/*.tmpl.

A line '@@NAME' in a template becomes 'Theorem NAME : <statement>' where the
statement is copied from 'Lemma NAME_proof' in rocq/theories/Proofs, closed by
'exact NAME_proof' and followed by Print Assumptions.
"""
import re, glob, os, sys
root = os.path.join(os.path.dirname(os.path.abspath(__file__)), '..')
lem = {}
for f in glob.glob(root + '/rocq/theories/Proofs/*.v'):
    s = open(f).read()
    for m in re.finditer(r'\bLemma (C\d\d\d?_\w+)_proof\b(.*?)\.\s*\nProof\.', s, re.S):
        lem[m.group(1)] = m.group(2)
used = set()
for t in sorted(glob.glob(root + '/tools/props/*.tmpl')):
    out = []
    for line in open(t).read().split('\n'):
        if line.startswith('@@'):
            n = line[2:].strip()
            if n not in lem:
                sys.exit('no lemma for ' + n + ' in ' + t)
            used.add(n)
            out.append('Theorem %s%s.\nProof. exact %s_proof. Qed.\nPrint Assumptions %s.' % (n, lem[n], n, n))
        else:
            out.append(line)
    p = root + '/rocq/theories/Props/' + os.path.basename(t)[:-5] + '.v'
    new = '\n'.join(out)
    if not os.path.exists(p) or open(p).read() != new:
        open(p, 'w').write(new)
for n in sorted(set(lem) - used):
    print('unused:', n)
