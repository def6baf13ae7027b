#!/usr/bin/env python3
"""Write ASSUMPTIONS.md: what Print Assumptions lists for every property theorem.
Needs a built tree (make in rocq/)."""
import glob, os, re, subprocess, tempfile
ROOT = os.path.join(os.path.dirname(os.path.abspath(__file__)), '..')
TH = os.path.join(ROOT, 'rocq', 'theories')
groups = {}
order = []
for f in sorted(glob.glob(TH + '/P_*.v')):
    mod = os.path.basename(f)[:-2]
    names = re.findall(r'^Theorem\s+(C\d+\w*)', open(f).read(), re.M)
    with tempfile.TemporaryDirectory() as d:
        q = os.path.join(d, 'q.v')
        with open(q, 'w') as g:
            g.write('From Verif Require Import %s.\n' % mod)
            for n in names:
                g.write('Goal True. idtac "@@%s". Abort.\nPrint Assumptions %s.\n' % (n, n))
        out = subprocess.run(['coqc', '-Q', TH, 'Verif', q], capture_output=True, text=True)
    got = {}
    for x in out.stdout.split('@@')[1:]:
        n, _, body = x.partition('\n')
        got[n.strip()] = tuple(sorted(set(re.findall(r'^([A-Za-z_][\w.]*)\s*(?::|$)', body, re.M)) - {'Axioms'}))
    for n in names:
        assert n in got, (mod, n, out.stderr[-500:])
        groups.setdefault(got[n], []).append(n)
with open(os.path.join(ROOT, 'ASSUMPTIONS.md'), 'w') as g:
    g.write('# Axioms of each theorem\n\nGenerated by `tools/assumptions.py` from `Print Assumptions`; all of them are axioms of Coq\'s standard library.\n')
    for k in sorted(groups, key=lambda k: (len(k), k)):
        g.write('\n## ' + (', '.join('`%s`' % a for a in k) if k else 'none (closed under the global context)') + '\n\n')
        g.write(', '.join(sorted(groups[k])) + '\n')
print({k: len(v) for k, v in groups.items()})
