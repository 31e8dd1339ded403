#!/usr/bin/env python3
"""Compile the property files and write what Print Assumptions says of each theorem to the end of
DESIGN.md. Run after a build."""
import glob, os, re, subprocess
root = os.path.join(os.path.dirname(os.path.abspath(__file__)), '..')
os.chdir(os.path.join(root, 'rocq'))
rows = []
for f in sorted(glob.glob('theories/Prop*.v')):
    names = re.findall(r'^Print Assumptions (\w+)\.', open(f).read(), re.M)
    theorems = re.findall(r'^Theorem (\w+)', open(f).read(), re.M)
    assert names == theorems, f
    out = subprocess.run(['coqc', '-Q', 'theories', 'Verif', f], capture_output=True, text=True, check=True).stdout
    answers = [' '.join(a.split()) for a in re.split(r'\n(?=Closed|Axioms)', out.strip())]
    assert len(names) == len(answers), (f, len(names), len(answers))
    rows += ['| %s | %s |' % p for p in zip(names, answers)]
head = '## Assumptions of each theorem\n'
text = open('../DESIGN.md').read()
if head in text:
    text = text[:text.index(head)]
open('../DESIGN.md', 'w').write(text.rstrip() + '\n\n' + head + '\n| Theorem | Print Assumptions |\n|---|---|\n' + '\n'.join(sorted(rows)) + '\n')
print(len(rows), sum('Closed under the global context' in r for r in rows))
