#!/usr/bin/env python3
"""Write rocq/theories/Properties<X>.v from Claims<X>.v: one theorem per cNN_ lemma, closed by
`exact`, with Print Assumptions and its Example.  Usage: tools/genprops.py (from anywhere)."""
import re, os, glob
root = os.path.join(os.path.dirname(os.path.abspath(__file__)), '..', 'rocq', 'theories')
names = []
for path in sorted(glob.glob(os.path.join(root, 'Claims*.v'))):
    base = os.path.basename(path)[:-2]
    suffix = base[len('Claims'):]
    s = open(path).read()
    imports = re.findall(r'^From .*?\.\s*$', s, re.M | re.S)
    # imports end at the first blank line after the header
    head = re.search(r'(?:^From [^.]*(?:\.[A-Za-z][^.]*)*\.\n)+', s, re.M).group(0)
    scopes = ''.join(x + '\n' for x in re.findall(r'^(?:Local Open Scope|Import) .*$', s, re.M))
    out = ['(** * Properties%s: the theorems of %s.v, restated (generated by tools/genprops.py) *)' % (suffix, base),
           head.rstrip(), 'From Verif Require Import %s.' % base, scopes.rstrip(), '']
    odd = re.findall(r'^(?:Lemma|Theorem|Corollary) (c\d\d\w*) [({]', s, re.M)
    assert not odd, ('binders before the colon', base, odd)
    pat = re.compile(r'(\(\*\*(?:(?!\*\)).)*?\*\)\n)?(Lemma|Example) (c\d\d\w*)\s*:(.*?)\.\nProof\.', re.S)
    for m in pat.finditer(s):
        doc, kind, name, stmt = m.group(1), m.group(2), m.group(3), m.group(4)
        new = 'C' + name[1:]
        if kind == 'Lemma':
            if doc: out.append(doc.rstrip())
            out.append('Theorem %s :%s.\nProof. exact %s. Qed.' % (new, stmt, name))
            out.append('Print Assumptions %s.' % new)
            names.append((new, base))
        else:
            out.append('Example %s :%s.\nProof. exact %s. Qed.\n' % (new, stmt, name))
    open(os.path.join(root, 'Properties%s.v' % suffix), 'w').write('\n'.join(x for x in out if x is not None) + '\n')
ex = set()
for n, b in names: print(n)
