#!/usr/bin/env python3
"""Regenerate the last two sections of DESIGN.md: what Print Assumptions lists, and the claims found to be false.
usage: mkdesign.py (after a build)"""
import glob, os, re, subprocess
root = os.path.abspath(os.path.join(os.path.dirname(__file__), ".."))
OWN = {
 "C17_inplace_sizes_refuted": "In place, with pieces of different sizes in the input and in the output: the second piece is overwritten before it is read.",
 "C18_conjugate_operation_refuted": "The conjugate of a block row loses the operation of the row: a product becomes a sum.",
 "C19_separable_refuted": "A separable operator is moved inside a block column with a new last axis: wrong if it acts on that axis, as To1dOperator does.",
 "C10_same_code_refuted": "Two idempotent operators with the same class and code object (closures) are taken for the same operator: their product is simplified into one of them.",
 "C10_allclose_refuted": "Constants and diagonals that are merely close (np.allclose) are taken for equal in a product.",
 "C11_mask_sum_refuted": "The sum of two masks is a mask: the data are booleans, added with 'or'.",
 "C10_zero_absorbed_refuted": "A product with the zero operator is replaced by the zero operator even if the other operand is not linear (its value at zero is not zero).",
 "C42_stale_refuted": "An evaluation that fails spoils the cache of a criterion: the same evaluation then returns the value at the previous point.",
 "C42_broadcast_refuted": "The comparison with the last point broadcasts: after (1, 1, 1), the norm of (1) is said to be 3.",
 "C41_steps_refuted": "run(n) with fewer iterations than maxiter gives another operator than the algorithm made for n iterations.",
 "C27_names_refuted": "The names of the rounding operators are garbled.",
 "C27_double_rhtpi_refuted": "In double precision, rounding half towards plus infinity changes even integers above 2^52.",
 "C35_integer_refuted": "todense of an operator without dtype is computed with integers: 1/2 becomes 0.",
 "C44_property_refuted": "Attributes beginning with an underscore are not set first, as the comment in the code says: not before those beginning with an upper-case letter, so that a property Unit is overwritten by the one of the input.",
 "C50_grouping_refuted": "A product of three operators may be accepted although it is refused when two of them are multiplied first: the communicators that are given to an operand depend on the grouping.",
 "C50_acquired_refuted": "The communicators obtained by propagation are not validated: an operator that adopts the communicator of its right neighbour may then be incompatible with its left neighbour.",
 "C54_rightward_array_refuted": "Arrays of the dictionary are not transposed when the data is broadcast rightward, and the data is: the operator and its product with the identity are different.",
}
thms, findings = [], []
for p in sorted(glob.glob(root + "/rocq/theories/*Props.v")):
    s = open(p).read()
    mod = os.path.basename(p)[:-2]
    for m in re.finditer(r"(?:\(\*\*((?:(?!\*\)).)*)\*\)\s*)?^Theorem (C\d\d_\w+)", s, re.M | re.S):
        thms.append((mod, m[2]))
        if m[2].endswith("_refuted"):
            text = OWN.get(m[2]) or re.sub(r"\s+", " ", m[1] or "").strip()
            text = re.sub(r"^(Findings?|FINDING|False claims)[:.]\s*", "", text)
            if not text: print("no text for", m[2])
            findings.append((m[2], text[0].upper() + text[1:] if text else ""))
findings.sort(); thms.sort(key=lambda t: t[1])
mods = sorted({m for m, _ in thms})
script = "".join("Require %s.\n" % ("Verif." + m) for m in mods) + "".join("Print Assumptions Verif.%s.%s.\n" % t for t in thms)
open("/tmp/assum.v", "w").write(script)
r = subprocess.run(["coqtop", "-quiet", "-w", "none", "-Q", root + "/rocq/theories", "Verif"], input=script, capture_output=True, text=True)
answers = [re.sub(r"\s+", " ", o).strip() for o in re.split(r"^(?=Closed under|Axioms:)", r.stdout, flags=re.M)[1:]]
assert len(answers) == len(thms), (len(answers), len(thms), r.stderr[-500:])
other = {}
for (m, t), a in zip(thms, answers):
    if not a.startswith("Closed"):
        names = tuple(sorted(n for n in re.findall(r"([A-Za-z_]\w*(?:\.\w+)*) :", a)if "." in n))
        other.setdefault(names, []).append(t)
sec = ["## Print Assumptions", "", "Generated by `tools/mkdesign.py`. Of the %d property theorems, %d are closed under the global context (no axiom at all)." % (len(thms), sum(a.startswith("Closed") for a in answers)),
       "The others use the axioms of the standard library's real numbers:", ""]
for names, ts in sorted(other.items()):
    sec.append("* %s: %s" % (", ".join("`%s`" % t for t in sorted(ts)), ", ".join("`%s`" % n for n in names)))
sec += ["", "## Findings", "", "Claims of the list, or of the documentation, that are false of the model. Each is proved false by the theorem named, with a concrete witness.", ""]
sec += ["* `%s` – %s" % f for f in findings]
p = root + "/DESIGN.md"
s = open(p).read()
i = s.find("## Print Assumptions")
s = (s if i < 0 else s[:i]).rstrip() + "\n\n" + "\n".join(sec) + "\n"
open(p, "w").write(s)
print(len(thms), "theorems", len(findings), "findings")
