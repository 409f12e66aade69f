#!/usr/bin/env python3
"""Generates ../MANIFEST.json and ../rocq/theories/Properties.v from the table in claims.py.
Properties.v restates, property by property, the theorems proved in the *Proofs.v files and prints
the assumptions of each."""
import json, os, re
from claims import CLAIMS
here = os.path.dirname(os.path.abspath(__file__))
th = os.path.join(here, '..', 'rocq', 'theories')
order = [l.strip()[len('theories/'):] for l in open(os.path.join(here, '..', 'rocq', '_CoqProject')) if l.strip().startswith('theories/')]
order = [f for f in order if f != 'Properties.v']
index = {}
for f in order:
    s = open(os.path.join(th, f)).read()
    for m in re.finditer(r'^(?:Theorem|Lemma|Corollary) (\w+)(.*?)\nProof\.', s, re.S | re.M):
        index[m.group(1)] = (f, m.group(2))

def split_binders(t):
    """binders text up to the top level ':' and the names bound"""
    depth, i = 0, 0
    while i < len(t):
        c = t[i]
        if c in '({[': depth += 1
        elif c in ')}]': depth -= 1
        elif c == ':' and depth == 0: break
        i += 1
    b = t[:i]
    names = []
    for tok in re.finditer(r'[({]([^:(){}]*)(?::[^(){}]*(?:\([^()]*\)[^(){}]*)*)?[)}]|(\S+)', b):
        names += (tok.group(1) if tok.group(1) is not None else tok.group(2)).split()
    return b, names

out = ['(** The proved properties, one section per property of properties.jsonl. Generated by tools/manifest.py:',
       '    each statement is repeated verbatim from the file that proves it. *)',
       'From Coq Require Import Reals ZArith QArith Qabs List Lia Bool Permutation Sorted.',
       'From Verif Require Import ' + ' '.join(f[:-2] for f in order) + '.',
       'Import ListNotations.', 'Open Scope Z_scope.', '']
manifest = []
titles = {}
for l in open(os.path.join(here, '..', 'properties.jsonl')):
    p = json.loads(l); titles[p['id']] = p['title']
thms = []
for pid in titles:
    if pid not in CLAIMS:
        continue
    status, names, note = CLAIMS[pid]
    out.append(f'(** * {pid}: {titles[pid]} *)\n')
    ts = []
    for n in names:
        f, t = index[n]
        b, args = split_binders(t)
        new = f'{pid}_{n}'
        ts.append(new)
        out.append(f'(** from {f} *)')
        if f == 'LutReal.v': out.append('Open Scope R_scope.')
        out.append(f'Theorem {new}{t}\nProof. exact ({"@" + n + " " + " ".join(args) if args else n}). Qed.')
        if f == 'LutReal.v': out.append('Close Scope R_scope.')
        out.append(f'Print Assumptions {new}.\n')
    manifest.append(dict(property=pid, status=status, theorems=ts, note=note))
open(os.path.join(th, 'Properties.v'), 'w').write('\n'.join(out) + '\n')
json.dump(dict(claims=manifest), open(os.path.join(here, '..', 'MANIFEST.json'), 'w'), indent=1)
missing = [p for p in titles if p not in CLAIMS]
print('claims', len(manifest), 'theorems', sum(len(m['theorems']) for m in manifest), 'not yet claimed:', missing)
