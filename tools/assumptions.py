#!/usr/bin/env python3
"""Print, after a build, the table of axioms that Print Assumptions lists for each property theorem."""
import glob, os, re, subprocess, tempfile
root = os.path.dirname(os.path.dirname(os.path.abspath(__file__)))
thms = []
for f in sorted(glob.glob(root + "/rocq/theories/Prop*.v")):
    for m in re.finditer(r"^Theorem (C\d\d\d?_\w+)", open(f).read(), re.M):
        thms.append((m.group(1), os.path.basename(f)[:-2]))
mods = sorted({m for _, m in thms})
src = "From Verif Require %s.\n" % " ".join(mods)
for t, m in thms:
    src += 'Goal True. idtac "@@ %s". exact I. Qed.\nPrint Assumptions %s.%s.\n' % (t, m, t)
with tempfile.TemporaryDirectory() as d:
    open(d + "/q.v", "w").write(src)
    out = subprocess.run(["coqc", "-Q", root + "/rocq/theories", "Verif", d + "/q.v"], capture_output=True, text=True)
    assert out.returncode == 0, out.stderr
sets = {}
for part in out.stdout.split("@@ ")[1:]:
    t, _, rest = part.partition("\n")
    ax = frozenset(re.findall(r"^([\w.]+)(?= :|$)", rest, re.M)) - {"Axioms", "Axioms:"}
    if "Closed under the global context" in rest: ax = frozenset()
    sets.setdefault(ax, []).append(t.strip())
for ax, ts in sorted(sets.items(), key=lambda x: len(x[0])):
    print("### " + (", ".join("`%s`" % a for a in sorted(ax)) or "none (closed under the global context)") + " - %d theorems\n" % len(ts))
    print(", ".join(sorted(ts, key=lambda t: (int(re.match(r"C(\d+)", t).group(1)), t))) + "\n")
