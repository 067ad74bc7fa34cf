#!/usr/bin/env python3
"""Copy the statements of the CNN_*_proof lemmas into Properties*.v files.

Every lemma `CNN_name_proof : statement` of a proof file becomes
`Theorem CNN_name : statement. Proof. exact CNN_name_proof. Qed.` followed by
`Print Assumptions`, so that the property files contain nothing but
statements.  Examples are copied the same way.  Run from /verif."""
import re, sys, os

T = 'rocq/theories/'
# proof file -> (property file, title)
FILES = [l.split('|') for l in open('tools/props.txt').read().split('\n') if l.strip()]

ITEM = re.compile(r'(?:(\(\*\*(?:(?!\*\)).)*?\*\))\s*)?^(Lemma|Theorem|Example) (C\d\d_\w+)_proof\s*:(.*?)\.\s*\nProof', re.S | re.M)

def main():
    proj = open('rocq/_CoqProject').read()
    for proofs, props, title in FILES:
        src = open(T + proofs + '.v').read()
        header = []
        for m in re.finditer(r'^(?:From \S+ Require.*?\.|Import .*?\.|(?:Local )?Open Scope .*?\.)$', src, re.S | re.M):
            header.append(m.group(0))
        out = ['(** %s' % title,
               '    Generated by tools/gen_props.py from %s.v: statements only. *)' % proofs]
        seen = set()
        hs = []
        for h in header:
            if h not in seen:
                seen.add(h); hs.append(h)
        i = max(k for k, h in enumerate(hs) if h.startswith('From'))
        hs.insert(i + 1, 'From Verif Require Import %s.' % proofs)
        out += hs + ['']
        n = 0
        for m in ITEM.finditer(src):
            com, kind, name, st = m.groups()
            if com: out.append(com)
            k = 'Example' if kind == 'Example' else 'Theorem'
            out.append('%s %s :%s.' % (k, name, st))
            out.append('Proof. exact %s_proof. Qed.' % name)
            if k == 'Theorem':
                out.append('Print Assumptions %s.' % name); n += 1
            out.append('')
        # every CNN_*_proof must have been matched
        allnames = set(re.findall(r'^(?:Lemma|Theorem|Example) (C\d\d_\w+)_proof', src, re.M))
        got = set(m.group(3) for m in ITEM.finditer(src))
        assert allnames == got, (proofs, allnames - got)
        text = '\n'.join(out)
        path = T + props + '.v'
        if not os.path.exists(path) or open(path).read() != text:
            open(path, 'w').write(text)
        if 'theories/%s.v' % props not in proj:
            proj = proj.rstrip('\n') + '\ntheories/%s.v\n' % props
            open('rocq/_CoqProject', 'w').write(proj)
        print(props, n, 'theorems')
main()
