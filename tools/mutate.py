#!/usr/bin/env python3
"""Apply seeded bugs to a scratch copy of the model, rebuild, and log which proofs fail.
usage: mutate.py FILE.json   where FILE.json is a list of
  {"file": "X.v", "definition": "...", "old": "...", "new": "...", "edit": "...", "claim": "C.."}"""
import json, os, re, shutil, subprocess, sys
SRC = '/verif/rocq'; DST = '/tmp/mut_' + str(os.getpid())
LOG = '/verif/seeded/LOG.jsonl'

def deps():
    out = subprocess.run(['coqdep', '-f', '_CoqProject'], cwd=SRC, capture_output=True, text=True).stdout
    d = {}
    for line in out.splitlines():
        m = re.match(r'theories/(\w+)\.vo [^:]*: (.*)', line)
        if m: d[m.group(1)] = [x for x in re.findall(r'theories/(\w+)\.vo\b', m.group(2))]
    return d

def users(f, d):
    res = {f}; ch = True
    while ch:
        ch = False
        for k, v in d.items():
            if k not in res and any(x in res for x in v): res.add(k); ch = True
    return res

def lemma_at(path, line):
    ls = open(path).read().split('\n')
    for i in range(line - 1, -1, -1):
        m = re.match(r'\s*(?:Theorem|Lemma|Corollary|Example|Definition|Fixpoint)\s+(\w+)', ls[i])
        if m: return m.group(1)
    return '?'

shutil.copytree(SRC, DST)
d = deps()
for mu in json.load(open(sys.argv[1])):
    path = f'{DST}/theories/{mu["file"]}'
    orig = open(path).read()
    if orig.count(mu['old']) < 1:
        print('NO MATCH', mu['definition'], mu['old']); continue
    i = orig.index(mu.get('after', mu['old'])) if mu.get('after') else 0
    j = orig.index(mu['old'], i)
    open(path, 'w').write(orig[:j] + mu['new'] + orig[j + len(mu['old']):])
    order = [x for x in re.findall(r'theories/(\w+)\.v', open(f'{SRC}/_CoqProject').read())]
    todo = [x for x in order if x in users(mu['file'][:-2], d) and x != 'Properties']
    failed, bad = [], set()
    for x in todo:
        if any(y in bad for y in d.get(x, [])): bad.add(x); failed.append(f'{x}.v (depends on a failed file)'); continue
        try:
            r = subprocess.run(['timeout', '600', 'coqc', '-q', '-Q', 'theories', 'Verif', f'theories/{x}.v'], cwd=DST, capture_output=True, text=True)
        except Exception as e:
            r = None
        if r is None or r.returncode != 0:
            m = re.search(r'line (\d+)', r.stderr) if r else None
            bad.add(x); failed.append(f'{x}.{lemma_at(f"{DST}/theories/{x}.v", int(m.group(1))) if m else "timeout"}')
    open(path, 'w').write(orig)
    invalid = bool(failed) and failed[0].startswith(mu['file'][:-2] + '.') and not mu.get('self_ok')
    if invalid: print('BAD MUTANT (does not compile)', mu['definition'], '|', mu['edit'], flush=True)
    else: print(('KILLED  ' if failed else 'SURVIVED'), mu['claim'], mu['definition'], '|', mu['edit'], '|', failed[:3], flush=True)
    if not invalid and (failed or mu.get('log_survivor')):
        with open(LOG, 'a') as f:
            f.write(json.dumps({'definition': f'{mu["file"]}:{mu["definition"]}', 'edit': mu['edit'], 'claim': mu['claim'],
                'failed': failed, 'tightened': mu.get('tightened', []), **({'note': mu['note']} if 'note' in mu else {})}) + '\n')
    # restore compiled state
    for x in todo:
        for ext in ('vo', 'glob', 'vos', 'vok'):
            s = f'{SRC}/theories/{x}.{ext}'
            if os.path.exists(s): shutil.copy2(s, f'{DST}/theories/{x}.{ext}')
shutil.rmtree(DST)
