#!/usr/bin/env python3
"""Try wrong programs against the theorems, in a scratch copy.

    mutate.py BASE WORK MUTANTS.json OUT.jsonl

BASE is a built copy of rocq/ outside the repository and BASE/../suggest.txt the output of a build
of its files that have sections with `-set "Suggest Proof Using"`. Each mutant is
{"file", "definition", "old", "new", "claim"}. A lemma whose proof no longer goes through is
replaced by an axiom so that the rest can be checked; a property theorem counts as failed when it
depends on such an axiom or its own example fails.
"""
import json, os, re, shutil, subprocess, sys
base, work, muts, out = sys.argv[1:5]
order = [l.strip() for l in open(base + '/_CoqProject') if l.strip().endswith('.v')]
deps = {}
for f in order:
    names = set()
    for m in re.finditer(r'From Verif Require (?:Import|Export)([^.]*)\.', open(base + '/' + f).read()):
        names |= set(m.group(1).split())
    deps[f] = {'theories/%s.v' % n for n in names}
using = {}
txt = ' '.join(open(os.path.dirname(base) + '/suggest.txt').read().split())
for m in re.finditer(r'The proof of (\w+) should start with one of the following commands:\s*Proof using ([^.]*)\.', txt):
    using[m.group(1)] = m.group(2)
START = re.compile(r'^[ ]*(?:Local )?(Lemma|Theorem|Example|Corollary|Fact|Remark) (\w+\'?)', re.M)

def run(f):
    cmd = 'ulimit -v 7000000; timeout 1200 coqc -time -Q theories Verif ' + f
    p = subprocess.run(['bash', '-c', cmd], cwd=work, stdout=subprocess.PIPE, stderr=subprocess.STDOUT)
    return p.returncode, p.stdout.decode(errors='replace')

def admit(f, pos):
    s = open(work + '/' + f, 'rb').read().decode()
    best = None
    for m in START.finditer(s):
        if m.start() <= pos: best = m
    if not best: return None
    # end of the statement and of the proof
    pm = re.compile(r'\bProof\b[^.]*\.').search(s, best.start())
    qm = re.compile(r'\b(Qed|Defined|Admitted)\.').search(s, pm.end())
    if pos > qm.end() or pos < pm.start(): return None
    u = using.get(best.group(2))
    pr = 'Proof using %s. Admitted.' % u if u is not None else 'Proof. Admitted.'
    s = s[:pm.start()] + pr + s[qm.end():]
    open(work + '/' + f, 'w').write(s)
    return best.group(2)

def error_pos(f, rc, o):
    s = open(work + '/' + f, 'rb').read()
    lines = s.split(b'\n')
    m = None
    for m in re.finditer(r'File "[^"]*", line (\d+), characters (\d+)-(\d+):\s*\n(?:.*\n)*?Error', o): pass
    if m:
        return len(b'\n'.join(lines[:int(m.group(1)) - 1]).decode()) + 1 + int(m.group(2))
    t = None
    for t in re.finditer(r'^Chars (\d+) - (\d+) ', o, re.M): pass
    return len(s[:int(t.group(2))].decode()) + 1 if t else None

done = set()
if os.path.exists(out):
    done = {(json.loads(l)['definition'], json.loads(l)['edit']) for l in open(out)}
for mu in json.load(open(muts)):
    edit = mu.get('edit') or ('`%s` becomes `%s`' % (mu['old'], mu['new']))
    if (mu['definition'], edit) in done: continue
    shutil.rmtree(work, ignore_errors=True)
    subprocess.check_call(['cp', '-a', base, work])
    p = work + '/theories/' + mu['file']
    s = open(p).read()
    n = s.count(mu['old'])
    if n != 1:
        print('BAD', mu['definition'], n, mu['old'], flush=True)
        continue
    open(p, 'w').write(s.replace(mu['old'], mu['new']))
    dirty = {'theories/' + mu['file']}
    broken, failed, abort = [], [], None
    for f in order:
        if f in dirty or deps[f] & dirty:
            dirty.add(f)
            for _ in range(200):
                rc, o = run(f)
                if rc == 0: break
                pos = error_pos(f, rc, o)
                nm = admit(f, pos) if pos is not None else None
                if nm is None:
                    abort = f + ': ' + o[-400:]
                    break
                broken.append(nm)
            if abort: break
            if os.path.basename(f).startswith('Prop'):
                names = re.findall(r'^Print Assumptions (\w+)\.', open(work + '/' + f).read(), re.M)
                res = re.findall(r'^(Closed under|Axioms:)', o, re.M)
                assert len(names) == len(res)
                failed += [n for n, r in zip(names, res) if r == 'Axioms:']
    rec = {'definition': mu['definition'], 'edit': edit, 'claim': mu['claim'],
           'failed': failed, 'tightened': mu.get('tightened', []),
           'broken_lemmas': broken[:40]}
    if abort: rec['note'] = 'stopped at ' + abort
    if mu.get('note'): rec['note'] = mu['note']
    with open(out, 'a') as g: g.write(json.dumps(rec) + '\n')
    print(('KILLED ' if failed or broken or abort else 'SURVIVED ') + mu['definition'], failed, len(broken), abort or '', flush=True)
