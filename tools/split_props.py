#!/usr/bin/env python3
"""Split a property template into a file of lemmas with proofs and a file that holds only the
property theorems, each closed by `exact`, with their examples.

    split_props.py IN.tpl LEMMAS.v THEOREMS.v

Template blocks: `@head lemmas`, `@head theorems`, `@raw` (goes to the lemma file),
`@text` (comment for the theorem file), `@thm NAME`, `@example NAME`; statement and proof of a
theorem or example are separated by `@proof`.
"""
import re, sys
src, lem, thm = sys.argv[1:4]
blocks, cur = [], None
for line in open(src):
    m = re.match(r'@(head|raw|text|thm|example)\b\s*(.*)', line)
    if m:
        cur = [m.group(1), m.group(2).strip(), []]
        blocks.append(cur)
    elif cur is not None:
        cur[2].append(line)
L, T = [], []
for kind, arg, lines in blocks:
    body = ''.join(lines).strip('\n')
    if kind == 'head':
        (L if arg == 'lemmas' else T).append(body)
    elif kind == 'raw':
        L.append(body)
    elif kind == 'text':
        T.append('(** ' + body + ' *)')
    else:
        stmt, proof = body.split('@proof')
        stmt, proof = stmt.strip(), proof.strip('\n').rstrip()
        if kind == 'thm':
            low = arg[0].lower() + arg[1:]
            L.append(f'Lemma {low} :\n  {stmt}.\nProof.\n{proof}\nQed.')
            T.append(f'Theorem {arg} :\n  {stmt}.\nProof. exact {low}. Qed.\nPrint Assumptions {arg}.')
        else:
            T.append(f'Example {arg} :\n  {stmt}.\nProof.\n{proof}\nQed.')
open(lem, 'w').write('\n\n'.join(L) + '\n')
open(thm, 'w').write('\n\n'.join(T) + '\n')
