#!/usr/bin/env python3
"""Write section 5 of DESIGN.md: what Print Assumptions lists for each theorem of MANIFEST.json.
Needs a finished build."""
import json, os, re, subprocess, tempfile, glob
root = os.path.join(os.path.dirname(os.path.abspath(__file__)), '..')
rocq = os.path.join(root, 'rocq')
claims = json.load(open(os.path.join(root, 'MANIFEST.json')))['claims']
where = {}
for f in sorted(glob.glob(os.path.join(rocq, 'theories', '*Props*.v'))):
    for n in re.findall(r'^Theorem (C\d\d+_\w+)', open(f).read(), re.M):
        where[n] = os.path.basename(f)[:-2]
axioms = {}
for mod in sorted(set(where.values())):
    names = [n for n in where if where[n] == mod]
    with tempfile.TemporaryDirectory() as d:
        v = os.path.join(d, 'Q.v')
        with open(v, 'w') as f:
            f.write(f'From Verif Require {mod}.\n')
            for n in names: f.write(f'Print Assumptions {mod}.{n}.\nCheck {mod}.{n}.\n')
        out = subprocess.run(['coqc', '-Q', os.path.join(rocq, 'theories'), 'Verif', v], capture_output=True, text=True, check=True).stdout
    pos = 0
    for n in names:
        i = re.compile(r'^(?:\w+\.)?' + n + r'$|^(?:\w+\.)?' + n + r'\s', re.M).search(out, pos)
        part = out[pos:i.start()]
        part = part[max(part.rfind('Closed under'), part.rfind('Axioms:')):]
        assert part.startswith('Closed') or part.startswith('Axioms:'), (n, part)
        axioms[n] = [] if part.startswith('Closed') else re.findall(r'^([A-Za-z_][\w.]*)\s*(?=:|$)', part[7:], re.M)
        pos = i.end()
sets = sorted({tuple(a) for a in axioms.values() if a})
lines = ['## 5. Results', '', f'{len(claims)} properties, {len(axioms)} theorems; statuses and theorem names are in `MANIFEST.json`.',
         'What `Print Assumptions` lists (generated by `tools/gen_results.py`):', '']
for i, s in enumerate(sets):
    lines.append(f'* **R{i+1}**: ' + ', '.join(f'`{a}`' for a in s) + ' (all from the standard library, through Flocq and the real numbers).')
lines += ['* **none**: "Closed under the global context".', '', '| property | status | theorem: assumptions |', '|---|---|---|']
for c in claims:
    cells = []
    for n in c['theorems']:
        a = tuple(axioms[n])
        cells.append(f'`{n}`: ' + ('none' if not a else f'R{sets.index(a)+1}'))
    lines.append(f"| {c['property']} | {c['status']} | " + '; '.join(cells) + ' |')
f = os.path.join(root, 'DESIGN.md')
s = open(f).read()
s = s[:s.index('## 5. Results')] + '\n'.join(lines) + '\n'
open(f, 'w').write(s)
print(len(axioms), 'theorems;', sum(1 for a in axioms.values() if a), 'with axioms;', len(sets), 'sets')
