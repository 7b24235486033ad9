#!/usr/bin/env python3
"""Seed one wrong edit in a scratch copy of the model and report which theorems stop proving.

usage: mutate.py FILE OLD NEW DEFINITION EDIT CLAIM [TIGHTENED]
FILE is relative to rocq/theories.  Failing proofs are replaced by Admitted in the scratch copy
and the build goes on; the theorems of *Props.v that then rest on an admitted lemma are the ones
the edit breaks.  One JSON line is appended to seeded/LOG.jsonl.
"""
import json, os, re, shutil, subprocess, sys, glob
root = os.path.dirname(os.path.dirname(os.path.abspath(__file__)))
SCR = os.environ.get('MUT_DIR', '/tmp/mut')
HEAD = re.compile(r'^(?:#\[[^\]]*\]\s*)?(?:Local |Global )?(Lemma|Theorem|Corollary|Example|Fact|Remark|Instance)\s+([\w\']+)', re.M)

def order():
    fs = [l.strip() for l in open(root + '/rocq/_CoqProject') if l.strip().endswith('.v')]
    return [os.path.basename(f)[:-2] for f in fs]

def deps(th):
    d = {}
    for m in order():
        t = open(f'{th}/{m}.v').read()
        d[m] = set(x for l in re.findall(r'From Verif Require (?:Import|Export)\s+([^.]*)\.', t) for x in l.split())
    return d

def main():
    f, old, new, defn, edit, claim = sys.argv[1:7]
    tight = sys.argv[7:] 
    os.makedirs(SCR, exist_ok=True)
    subprocess.run(['rsync', '-a', '--delete', root + '/rocq/', SCR + '/'], check=False) if shutil.which('rsync') else (shutil.rmtree(SCR), shutil.copytree(root + '/rocq', SCR, copy_function=shutil.copy2))
    th = SCR + '/theories'
    p = f'{th}/{f}'
    s = open(p).read()
    if s.count(old) != 1:
        print('pattern occurs', s.count(old), 'times'); sys.exit(2)
    open(p, 'w').write(s.replace(old, new))
    d = deps(th)
    mod = f[:-2]
    affected = {mod}
    todo = []
    for m in order():
        if m in affected or d[m] & affected:
            affected.add(m); todo.append(m)
    admitted, broken = [], None
    for m in todo:
        t = open(f'{th}/{m}.v').read()
        open(f'{th}/{m}.v', 'w').write('Set Default Timeout 30. ' + t)  # a failing search may run for ever
        while True:
            r = subprocess.run(['timeout', '1200', 'coqc', '-Q', '.', 'Verif', m + '.v'], cwd=th, capture_output=True, text=True)
            if r.returncode == 0: break
            e = re.findall(r'File "\./' + m + r'\.v", line (\d+)', r.stderr)
            if not e:
                broken = m + ': ' + (r.stderr[-300:] or f'exit {r.returncode}'); break
            n = int(e[-1])
            t = open(f'{th}/{m}.v').read()
            pos = sum(len(x) for x in t.splitlines(True)[:n - 1]) + 1
            hs = [h for h in HEAD.finditer(t) if h.start() <= pos]
            if not hs:
                broken = m + ': ' + r.stderr[-300:]; break
            h = hs[-1]
            pm = re.compile(r'Proof( using[^.]*)?\.').search(t, h.start()); a = pm.start() if pm else -1; b = re.compile(r'\b(Qed|Defined)\.').search(t, h.start())
            if a < 0 or not b or not (a < pos < b.end()):
                broken = m + ' line %d: ' % n + r.stderr[-300:]; break
            admitted.append(m + '.' + h.group(2))
            t = t[:a] + pm.group(0) + ' Admitted.' + t[b.end():]
            open(f'{th}/{m}.v', 'w').write(t)
        if broken: break
    failed = []
    if not broken:
        adm = {x.split('.')[1] for x in admitted}
        for m in todo:
            if not m.endswith('Props'): continue
            names = re.findall(r'^Theorem\s+([\w\']+)', open(f'{th}/{m}.v').read(), re.M)
            q = f'From Verif Require Import {m}.\n' + ''.join(f'Print Assumptions {x}.\n' for x in names)
            open(f'{th}/Zq.v', 'w').write(q)
            r = subprocess.run(['coqc', '-Q', '.', 'Verif', 'Zq.v'], cwd=th, capture_output=True, text=True)
            parts = re.split(r'(?=^(?:Closed under|Axioms:))', r.stdout, flags=re.M)
            parts = [x for x in parts if x.startswith(('Closed', 'Axioms'))]
            for x, o in zip(names, parts):
                heads = {l.split()[0].split('.')[-1] for l in o.splitlines() if l and not l[0].isspace() and l.split()}
                if heads & adm:
                    failed.append(x)
    ex = [x for x in admitted if x.split('.')[0].endswith('Props') and x.split('.')[1] not in failed]
    rec = dict(definition=defn, edit=edit, claim=claim, theorems_failed=failed, examples_failed=ex, first_failing=(admitted[0] if admitted else None), tightened=tight)
    if broken: rec['build'] = broken
    print(json.dumps(rec, indent=1))
    if os.environ.get('NOLOG') is None:
        with open(root + '/seeded/LOG.jsonl', 'a') as g: g.write(json.dumps(rec) + '\n')
main()
