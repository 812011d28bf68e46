#!/usr/bin/env python3
"""Rewrite the axiom table of DESIGN.md from what Print Assumptions says (needs a built tree)."""
import glob, os, re, subprocess, tempfile
root = os.path.dirname(os.path.dirname(os.path.abspath(__file__)))
short = {"ClassicalDedekindReals.sig_forall_dec": "F", "ClassicalDedekindReals.sig_not_dec": "N",
         "FunctionalExtensionality.functional_extensionality_dep": "E", "Classical_Prop.classic": "C"}
groups = {}
tmp = tempfile.mkdtemp()
for f in sorted(glob.glob(os.path.join(root, "rocq/theories/Props/*.v"))):
    names = re.findall(r"^Print Assumptions (\S+)\.", open(f).read(), re.M)
    out = subprocess.run(["coqc", "-Q", "theories", "Verif", "-o", os.path.join(tmp, os.path.basename(f) + "o"), f],
                         cwd=os.path.join(root, "rocq"), capture_output=True, text=True, check=True).stdout
    blocks = [b for b in re.split(r"^(?=Axioms:|Closed under)", out, flags=re.M) if b.startswith(("Axioms:", "Closed"))]
    assert len(blocks) == len(names), f
    for n, b in zip(names, blocks):
        ax = sorted(short[a] for a in re.findall(r"^([\w.]+)(?: :|\s*$)", b, re.M) if a != "Closed")
        groups.setdefault("+".join(ax) or "none", []).append(n)
text = ""
for k in sorted(groups, key=lambda k: (len(k), k)):
    text += "* **%s**: %s\n" % (k, ", ".join("`%s`" % n for n in sorted(groups[k])))
p = os.path.join(root, "DESIGN.md")
s = open(p).read()
s = re.sub(r"(<!-- axioms -->\n).*?(<!-- /axioms -->)", lambda m: m.group(1) + text + m.group(2), s, flags=re.S)
open(p, "w").write(s)
print({k: len(v) for k, v in groups.items()})
