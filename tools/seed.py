#!/usr/bin/env python3
"""Test the theorems against a wrong program.

usage: seed.py FILE.v OLD NEW "definition" "claim it breaks" [tightened]

Copies rocq/ to a scratch directory, replaces OLD by NEW (must occur exactly once) in the model
file, rebuilds everything that depends on it.  A proof that no longer goes through is replaced by
Admitted in the scratch copy, so that the property theorems resting on it can be found through
Print Assumptions.  Appends one line to seeded/LOG.jsonl."""
import sys, os, re, subprocess, shutil, json, tempfile
ROOT = '/verif'
def deps(files):
    d = {}
    for f in files:
        s = open(f).read()
        r = set()
        for m in re.finditer(r'From Verif Require Import ([^.]*)\.', s):
            r |= set(m.group(1).split())
        d[os.path.basename(f)[:-2]] = r
    return d
def main():
    fname, old, new, defn, claim = sys.argv[1:6]
    tight = sys.argv[6:] 
    scratch = tempfile.mkdtemp(prefix='seed', dir='/tmp')
    th = scratch + '/theories'
    shutil.copytree(ROOT + '/rocq/theories', th)
    p = th + '/' + fname
    s = open(p).read()
    if s.count(old) != 1:
        print('OLD occurs', s.count(old), 'times'); sys.exit(2)
    open(p, 'w').write(s.replace(old, new))
    order = [os.path.basename(l.strip())[:-2] for l in open(ROOT + '/rocq/_CoqProject') if l.strip().endswith('.v')]
    d = deps([th + '/' + m + '.v' for m in order])
    touched = {fname[:-2]}
    for m in order:
        if d[m] & touched: touched.add(m)
    failed_lemmas = []; failed_thms = []; broken_defs = []
    for m in order:
        if m not in touched: continue
        f = th + '/' + m + '.v'
        for _ in range(80):
            r = subprocess.run(['timeout', '300', 'coqc', '-Q', th, 'Verif', f], capture_output=True, text=True)
            if r.returncode == 0: break
            e = re.search(r'line (\d+), characters', r.stderr)
            if not e and r.returncode != 124:
                print(r.stderr[-500:]); sys.exit(3)
            src = open(f).read()
            if r.returncode == 124 and not e:
                print('timeout in', m); broken_defs.append(m + ' (timeout)'); break
            errs = re.findall(r'line (\d+), characters (\d+)', r.stderr)
            line = int(errs[-1][0])
            lines = src.split('\n')
            pos = sum(len(x) + 1 for x in lines[:line-1]) + 1 + int(errs[-1][1])
            starts = [x for x in re.finditer(r'^ *(?:#\[[a-z]*\] *)?(Lemma|Theorem|Example|Corollary|Remark|Definition|Fixpoint) +(\w+)', src, re.M) if x.start() <= pos]
            st = starts[-1]
            name = st.group(2)
            q = re.compile(r'^ *Proof\b(?s:.*?)\b(Qed|Defined)\.|\bProof\.(?s:.*?)\b(Qed|Defined)\.', re.M).search(src, st.start())
            nxt = re.compile(r'^ *(?:#\[[a-z]*\] *)?(Lemma|Theorem|Example|Corollary|Remark|Definition|Fixpoint) +(\w+)', re.M).search(src, st.end())
            if not q or (nxt and q.start() > nxt.start()):
                print('definition broken:', m, name, r.stderr[-400:]); broken_defs.append(name); 
                break
            if m.endswith('Props') and re.match(r'C\d\d', name): failed_thms.append(name)
            else: failed_lemmas.append(name)
            src = src[:q.start()] + 'Admitted.' + src[q.end():]
            open(f, 'w').write(src)
        if m.endswith('Props'):
            out = r.stdout
            src = open(f).read()
            names = re.findall(r'^Print Assumptions (\w+)\.', src, re.M)
            blocks = re.split(r'(?=^(?:Closed under the global context|Axioms:))', out, flags=re.M)
            blocks = [b for b in blocks if b.strip()]
            for n, b in zip(names, blocks):
                ax = [x.split('.')[-1] for x in re.findall(r'^([\w.]+)\s*:', b, re.M)]
                if any(a in failed_lemmas for a in ax) and n not in failed_thms: failed_thms.append(n)
    shutil.rmtree(scratch)
    rec = {'file': fname, 'definition': defn, 'edit': old.strip() + '  ==>  ' + new.strip(), 'claim': claim,
           'theorems_failed': [t for t in failed_thms if re.match(r'C\d\d\w*', t)], 'lemmas_failed': failed_lemmas,
           'theorems_tightened': tight}
    if broken_defs: rec['broken'] = broken_defs
    open(ROOT + '/seeded/LOG.jsonl', 'a').write(json.dumps(rec) + '\n')
    print('FAILED:', rec['theorems_failed'], '| lemmas:', failed_lemmas, broken_defs)
main()
