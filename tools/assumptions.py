"""Compiles every file of rocq/theories/Props (the rest must be built) and writes ASSUMPTIONS.md: what Print Assumptions
prints for every theorem."""
import os, re, subprocess, tempfile, collections
root = os.path.dirname(os.path.dirname(os.path.abspath(__file__)))
rocq = os.path.join(root, "rocq")
table, full = [], {}
for f in sorted(os.listdir(rocq + "/theories/Props")):
    if not f.endswith(".v"): continue
    src = open(rocq + "/theories/Props/" + f).read()
    names = re.findall(r"Print Assumptions (\w+)\.", src, re.M)
    with tempfile.TemporaryDirectory() as d:
        p = os.path.join(d, "All.v")
        open(p, "w").write("From Verif.Props Require Import %s.\n" % f[:-2] + "".join('Print Assumptions %s.\n' % n for n in names))
        out = subprocess.run(["coqc", "-Q", "theories", "Verif", p], cwd=rocq, capture_output=True, text=True)
        if out.returncode: raise SystemExit(f + out.stderr)
        parts, cur = [], None
        for l in out.stdout.split("\n"):
            if l.startswith("Closed under"): parts.append([])
            elif l.startswith("Axioms:"): parts.append([]); cur = parts[-1]
            elif re.match(r"\S+ *:", l) or re.match(r"\S+$", l): parts[-1].append(l.split(":")[0].strip())
        assert len(parts) == len(names), (f, len(parts), len(names))
        for n, a in zip(names, parts): table.append((n, f, sorted(set(a))))
groups = collections.defaultdict(list)
for n, f, a in table: groups[tuple(a)].append((n, f))
with open(os.path.join(root, "ASSUMPTIONS.md"), "w") as o:
    o.write("# What `Print Assumptions` lists for every theorem\n\nWritten by `tools/assumptions.py` after a build. All axioms below are from Coq's standard library.\n")
    for a, l in sorted(groups.items()):
        o.write("\n## " + (", ".join("`%s`" % x for x in a) if a else "Closed under the global context (no axioms)") + "\n\n")
        for n, f in sorted(l): o.write("* `%s` (%s)\n" % (n, f))
print({k: len(v) for k, v in groups.items()})
