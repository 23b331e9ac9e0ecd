#!/usr/bin/env python3
"""Generate rocq/theories/Props*.v from the proof files.

Every lemma preceded by a comment `(*! Cxx ... *)` and named `Cxx_..._l` becomes
`Theorem Cxx_...` with the same statement, proved by `exact`, followed by Print Assumptions.
"""
import re, glob, os, sys
root = os.path.join(os.path.dirname(os.path.abspath(__file__)), '..', 'rocq', 'theories')
names = []
for f in sorted(glob.glob(os.path.join(root, '*.v'))):
    base = os.path.basename(f)[:-2]
    if base.startswith('Props'):
        continue
    s = open(f).read()
    items = re.findall(r'\(\*!\s*(.*?)\*\)\s*Lemma\s+(\w+)_l\s*:(.*?)\.\s*\nProof\.', s, re.S)
    cnt = len(re.findall(r'\(\*!', s))
    if cnt != len(items):
        sys.exit('%s: %d marks but %d lemmas' % (base, cnt, len(items)))
    if not items:
        continue
    head = []
    for line in s.split('\n'):
        if re.match(r'(From .*Require|Require|Import |Local Open Scope|Local Notation)', line):
            m = re.match(r'From Verif Require Import (.*)\.$', line)
            if m:
                line = 'From Verif Require Import %s %s.' % (m.group(1), base)
            head.append(line)
        elif re.match(r'(Lemma|Definition|Section|Ltac|Notation|Theorem)', line):
            break
    short = base.replace('Proofs', '')
    out = ['(** Property theorems proved in %s.v (generated by tools/gen_props.py). *)' % base] + head + ['']
    for com, n, st in items:
        com = ' '.join(com.split())
        out.append('(** %s *)' % com)
        out.append('Theorem %s :%s.\nProof. exact %s_l. Qed.\nPrint Assumptions %s.\n' % (n, st, n, n))
        names.append(n)
    txt = '\n'.join(out)
    g = os.path.join(root, 'Props%s.v' % short)
    if not os.path.exists(g) or open(g).read() != txt:
        open(g, 'w').write(txt)
if len(set(names)) != len(names):
    sys.exit('duplicate names: %s' % sorted(n for n in names if names.count(n) > 1))
open('/tmp/w/theorems.txt', 'w').write('\n'.join(names) + '\n') if os.path.isdir('/tmp/w') else None
print(len(names), 'theorems')
