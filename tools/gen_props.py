#!/usr/bin/env python3
"""Generates theories/Props/X.v from theories/Proofs/T_X.v.

In T_X.v a property is written as

    (*@prop  English comment *)
    Lemma NAME_pf : STATEMENT.
    Proof. ... Qed.

and a satisfiability example as `(*@example ... *) Lemma NAME_pf : ...`.  The generated file contains
only the statements, each closed by `exact`, with `Print Assumptions` beneath the theorems."""
import re, os, sys, glob
root = os.path.join(os.path.dirname(os.path.abspath(__file__)), "..", "rocq", "theories")
names = []
for src in sorted(glob.glob(os.path.join(root, "Proofs", "T_*.v"))):
    base = os.path.basename(src)[2:-2]
    text = open(src).read()
    head = text.split("(*@", 1)[0]
    head = head.split("(*HEADEND*)")[0] if "(*HEADEND*)" in head else head
    out = ["(** GENERATED by tools/gen_props.py from Proofs/T_%s.v: statements only. *)\n" % base, head.rstrip(),
           "From Verif Require Import Proofs.T_%s.\n" % base]
    for m in re.finditer(r"\(\*@(prop|example)\s*(.*?)\*\)\s*Lemma\s+(\w+)_pf\s*:(.*?)\nProof\.", text, re.S):
        kind, com, name, stmt = m.groups()
        com = com.strip()
        if com: out.append("(** %s *)" % com)
        out.append("%s %s :%s\nProof. exact %s_pf. Qed." % ("Theorem" if kind == "prop" else "Example", name, stmt.rstrip(), name))
        if kind == "prop":
            out.append("Print Assumptions %s." % name); names.append((base, name))
        out.append("")
    dst = os.path.join(root, "Props", "P_%s.v" % base); new = "\n".join(out) + "\n"
    if not os.path.exists(dst) or open(dst).read() != new: open(dst, "w").write(new)
if "-l" in sys.argv:
    for b, n in names: print(b, n)
