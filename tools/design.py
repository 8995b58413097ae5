#!/usr/bin/env python3
"""Regenerate sections 5 and 6 of DESIGN.md from MANIFEST.json and from the Print Assumptions
output of a built tree (run after make in rocq/)."""
import hashlib, json, os, re, subprocess, tempfile
root = os.path.dirname(os.path.dirname(os.path.abspath(__file__)))
rocq = os.path.join(root, 'rocq')
claims = json.load(open(os.path.join(root, 'MANIFEST.json')))['claims']
sets, where = {}, {}
# output of files whose compiled form has not changed since the last run
cache_file = os.path.join(tempfile.gettempdir(), 'assumptions.json')
cache = json.load(open(cache_file)) if os.path.exists(cache_file) else {}
for f in sorted(os.listdir(os.path.join(rocq, 'theories'))):
    if not re.search(r'Props\d*\.v$', f):
        continue
    src = open(os.path.join(rocq, 'theories', f)).read()
    names = re.findall(r'^Print Assumptions ([A-Za-z0-9_]+)\.', src, re.M)
    key = hashlib.sha256(open(os.path.join(rocq, 'theories', f + 'o'), 'rb').read()).hexdigest()
    if key not in cache:
        with tempfile.TemporaryDirectory() as t:
            cache[key] = subprocess.run(['coqc', '-Q', 'theories', 'Verif', '-o', os.path.join(t, f + 'o'), 'theories/' + f],
                                        cwd=rocq, stdout=subprocess.PIPE, stderr=subprocess.STDOUT, text=True).stdout
        json.dump(cache, open(cache_file, 'w'))
    out = cache[key]
    blocks = re.split(r'^(?=Axioms:|Closed under the global context)', out, flags=re.M)[1:]
    assert len(blocks) == len(names), (f, len(blocks), len(names))
    for n, b in zip(names, blocks):
        sets[n] = tuple(sorted(set(re.findall(r'^([A-Za-z_][A-Za-z0-9_.\']*)\s*(?::|$)', b, re.M)) - {'Axioms', 'Closed'}))
        where[n] = f
groups = {}
for n, s in sets.items():
    groups.setdefault(s, []).append(n)
o = ['## 5. Axioms\n',
     'Union over all theorems: ' + ', '.join('`%s`' % a for a in sorted(set(sum(map(list, groups), [])))) + '.',
     'All of them belong to the Coq standard library (classical real numbers, functional extensionality, excluded middle);',
     'the development declares none.  What `Print Assumptions` lists for each theorem, grouped by equal lists:\n']
for s, ns in sorted(groups.items(), key=lambda p: (len(p[0]), p[0])):
    o.append('* **%s** (%d theorems): %s\n' % (', '.join('`%s`' % a for a in s) or 'no axiom (closed under the global context)', len(ns), ', '.join('`%s`' % n for n in ns)))
o.append('## 6. Outcome per property\n')
o.append('| id | status | file | note |')
o.append('|---|---|---|---|')
for c in claims:
    fs = sorted({where[t] for t in c['theorems'] if t in where})
    o.append('| %s | %s | %s | %s |' % (c['property'], c['status'], ', '.join(fs), c['note'].replace('|', '/').replace('\n', ' ')))
p = os.path.join(root, 'DESIGN.md')
s = open(p).read()
s = s.split('\n## 5. Axioms')[0].rstrip('\n') + '\n\n' + '\n'.join(o) + '\n'
open(p, 'w').write(s)
