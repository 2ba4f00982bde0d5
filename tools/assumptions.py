#!/usr/bin/env python3
"""Write ASSUMPTIONS.md: what Print Assumptions lists for each theorem in Props/.

Run after a build of rocq/. Needs coqc."""
import re, glob, os, subprocess, tempfile
root = os.path.dirname(os.path.dirname(os.path.abspath(__file__)))
mods, theorems = [], []
for f in sorted(glob.glob(root + '/rocq/theories/Props/*.v')):
    m = os.path.basename(f)[:-2]
    mods.append(m)
    theorems += [(m, t) for t in re.findall(r'^Theorem (\w+)', open(f).read(), re.M)]
src = 'From Verif Require %s.\n' % ' '.join('Props.' + m for m in mods)
for m, t in theorems:
    src += 'Goal True. idtac "@@%s". exact I. Qed.\nPrint Assumptions Verif.Props.%s.%s.\n' % (t, m, t)
d = tempfile.mkdtemp()
open(d + '/assm.v', 'w').write(src)
out = subprocess.run(['coqc', '-Q', root + '/rocq/theories', 'Verif', d + '/assm.v'],
                     capture_output=True, text=True, check=True).stdout
groups = {}
for part in out.split('@@')[1:]:
    name, _, rest = part.partition('\n')
    axioms = tuple(sorted(re.findall(r'^([A-Z]\w*\.\w+)', rest, re.M)))
    groups.setdefault(axioms, []).append(name.strip())
w = ['# What `Print Assumptions` lists', '',
     'Written by `tools/assumptions.py` from a build. All are axioms of the standard library.', '']
for axioms in sorted(groups, key=len):
    w += ['## ' + (', '.join('`%s`' % a for a in axioms) or 'Closed under the global context'), '',
          ', '.join(sorted(groups[axioms])), '']
open(root + '/ASSUMPTIONS.md', 'w').write('\n'.join(w))
