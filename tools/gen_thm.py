#!/usr/bin/env python3
"""Writes theories/ThmX.v from theories/XProps.v.

Every statement `Lemma NAME_pf` becomes `Theorem NAME`, closed by `exact NAME_pf`
and followed by `Print Assumptions`.  Every `Lemma NAME_expf` becomes
`Example NAME`.  The comment directly before a statement is copied."""
import re, sys, os
T = os.path.join(os.path.dirname(__file__), '..', 'rocq', 'theories')

def gen(src, dst):
    s = open(os.path.join(T, src + '.v')).read()
    imports = re.findall(r'^From .*?\.$', s, re.M | re.S)
    imports = [i for i in re.findall(r'^(?:From [^\n]*?Require[^.]*(?:\.[A-Za-z][^.]*)*\.|Open Scope [^.]*\.|Import [^.]*\.|Local Open Scope [^.]*\.)[ \t]*$', s, re.M)]
    out = ['(** Property theorems.  Proofs are in %s.v; this file only restates the\n    statements.  Written by tools/gen_thm.py. *)' % src]
    out += imports
    out.append('From Verif Require Import %s.' % src)
    for m in re.finditer(r'((?:\(\*\*(?:(?!\*\)).)*\*\)\s*)?)^Lemma (\w+)_(pf|expf)\b(.*?)\nProof\.', s, re.M | re.S):
        com, name, kind, stmt = m.groups()
        kw = 'Theorem' if kind == 'pf' else 'Example'
        out.append('')
        if com.strip(): out.append(com.strip())
        out.append('%s %s%s' % (kw, name, stmt))
        out.append('Proof. exact %s. Qed.' % ('@%s_%s' % (name, kind)))
        if kind == 'pf': out.append('Print Assumptions %s.' % name)
    open(os.path.join(T, dst + '.v'), 'w').write('\n'.join(out) + '\n')

if __name__ == '__main__':
    fs = sorted(f[:-2] for f in os.listdir(T) if f.endswith('Props.v'))
    for f in fs: gen(f, 'Thm' + f[:-5])
