"""Prints, for every property theorem, what Print Assumptions lists. Needs a built rocq/."""
import glob, os, re, subprocess
HERE = os.path.dirname(os.path.abspath(__file__))
ROCQ = os.path.join(HERE, "..", "rocq")
groups = {}
for f in sorted(glob.glob(os.path.join(ROCQ, "theories", "Props*.v"))):
    if f.endswith("Lemmas.v"): continue
    names = re.findall(r"(?m)^Print Assumptions (\w+)\.", open(f).read())
    out = subprocess.run(["coqc", "-q", "-Q", "theories", "Verif", "-o", "/tmp/" + os.path.basename(f) + "o", os.path.relpath(f, ROCQ)],
                         cwd=ROCQ, capture_output=True, text=True).stdout
    blocks = re.split(r"(?m)^(Closed under the global context|Axioms:)\n?", out)[1:]
    res = []
    for kind, body in zip(blocks[::2], blocks[1::2]):
        res.append(() if kind.startswith("Closed") else tuple(sorted(re.findall(r"(?m)^([A-Z][\w.']+)\s*(?::|$)", body))))
    assert len(res) == len(names), (f, len(res), len(names))
    for n, a in zip(names, res): groups.setdefault(a, []).append(n)
for a in sorted(groups, key=len):
    print("**" + (", ".join("`%s`" % x for x in a) if a else "No axioms") + "** (%d theorems): " % len(groups[a]) + ", ".join(sorted(groups[a])) + "\n")
