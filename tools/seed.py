"""Seeds bugs into a scratch copy of the model and records which theorems stop proving.

usage: seed.py mutants.py [log]     mutants.py defines M = [(file, old, new, claim, "C01 C02"), ...]

For every mutant the files with the theorems of the named properties, and what they depend on, are rebuilt.  A theorem counts as failed when its own proof, or a lemma its unmodified
proof depends on (from the .glob files), no longer compiles.  If no theorem of the named properties failed yet, the failing
lemmas are admitted in the copy and the build goes on."""
import json, os, re, shutil, subprocess, sys, collections
root = os.path.dirname(os.path.dirname(os.path.abspath(__file__)))
base, work = "/tmp/seedbase", "/tmp/seedwork"
def sh(c, t=2400):
    try: return subprocess.run(c, shell=True, capture_output=True, text=True, timeout=t)
    except subprocess.TimeoutExpired: return None
def graph(d):
    deps, kind = collections.defaultdict(set), {}
    for p, _, fs in os.walk(os.path.join(d, "theories")):
        for f in fs:
            if not f.endswith(".glob"): continue
            cur, lib, items = None, None, []
            for l in open(os.path.join(p, f)):
                if l.startswith("F"): lib = l[1:].strip(); continue
                m = re.match(r"(prf|def|ind|rec|var|thm|ex|abbrev) (\d+):\d+ (\S+) (\S+)", l)
                if m and m.group(1) != "var": items.append((int(m.group(2)), 0, lib + "." + m.group(4))); continue
                m = re.match(r"R(\d+):\d+ (\S+) (\S+) (\S+) (\S+)", l)
                if m and m.group(2).startswith("Verif"): items.append((int(m.group(1)), 1, m.group(2) + "." + m.group(4)))
            items.sort()
            for pos, k, n in items:
                if k == 0: cur = n
                elif cur: deps[cur].add(n)
    return deps
def dependents(deps, bad):
    rev = collections.defaultdict(set)
    for a in deps:
        for b in deps[a]: rev[b].add(a)
    seen, todo = set(bad), list(bad)
    while todo:
        for a in rev[todo.pop()]:
            if a not in seen: seen.add(a); todo.append(a)
    return seen
def lib(f): return "Verif." + f[len("theories/"):-2].replace("/", ".")
def enclosing(f, line):
    ls = open(os.path.join(work, f)).read().split("\n")
    for i in range(line - 1, -1, -1):
        m = re.match(r"\s*(?:Local )?(Lemma|Theorem|Example|Corollary|Definition|Fixpoint|Fact)\s+(\w+)", ls[i])
        if m: return m.group(1), m.group(2), i
    return None, None, 0
def admit(f, i):
    p = os.path.join(work, f); ls = open(p).read().split("\n")
    j = i
    while "Proof" not in ls[j]: j += 1
    k = j
    while not re.search(r"\b(Qed|Defined)\.", ls[k]): k += 1
    head = ls[j].split("Proof")[0]
    ls[j:k + 1] = [head + "Admitted."]
    open(p, "w").write("\n".join(ls))
def main():
    ns = {}; exec(open(sys.argv[1]).read(), ns)
    log = sys.argv[2] if len(sys.argv) > 2 else os.path.join(root, "seeded", "LOG.jsonl")
    manifest = {c["property"]: c["theorems"] for c in json.load(open(os.path.join(root, "MANIFEST.json")))["claims"]}
    if sh(f"mkdir -p {base} && rsync -a --delete --exclude '*.aux' --exclude '*.vo*' --exclude '*.glob' {root}/rocq/ {base}/ 2>/dev/null || (rm -rf {base}/* && cp -a {root}/rocq/. {base}/)") is None: sys.exit("copy")
    r = sh(f"cd {base} && coq_makefile -f _CoqProject -o Makefile && make -j3 > log 2>&1", 4000)
    if r is None or r.returncode: sys.exit("base does not build")
    deps = graph(base)
    where = {}
    for pf in os.listdir(base + "/theories/Props"):
        if pf.endswith(".v"):
            for t in re.findall(r"^\s*Theorem\s+(\w+)", open(base + "/theories/Props/" + pf).read(), re.M): where[t] = "theories/Props/" + pf + "o"
    for f, old, new, claim, props in ns["M"]:
        shutil.rmtree(work, ignore_errors=True); sh(f"cp -a {base} {work}")
        p = os.path.join(work, "theories", f); s = open(p).read()
        if s.count(old) != 1: print("SKIP", f, repr(old)[:60], s.count(old), flush=True); continue
        before = s[:s.index(old)]
        name = re.findall(r"(?:Definition|Fixpoint|Inductive|Record)\s+(\w+)", before + old.split("\n")[0])[-1]
        open(p, "w").write(s.replace(old, new))
        bad, errs, status = set(), [], "survived"
        targets = " ".join(sorted({w for q in props.split() for t in manifest.get(q, []) for w in [where.get(t)] if w}))
        for it in range(12):
            r = sh(f"cd {work} && timeout 1500 make -j2 {targets} > log 2>&1", 1600)
            if r is None: status = "timeout"; break
            if r.returncode == 0: status = "survived" if not bad else "caught elsewhere"; break
            found = False; out = open(os.path.join(work, "log"), errors="replace").read()
            for m in re.finditer(r'File "\./(theories/\S+\.v)", line (\d+), characters [\d-]+:\n(Error[^\n]*(?:\n[^\n]*)?)', out):
                kd, nm, i = enclosing(m.group(1), int(m.group(2)))
                if nm is None or kd in ("Definition", "Fixpoint"): status = "does not compile"; errs.append(m.group(0)[:300]); continue
                full = lib(m.group(1)) + "." + nm
                if full in bad: continue
                bad.add(full); errs.append(full); found = True; admit(m.group(1), i)
            if status == "does not compile": break
            hit = sorted(x.split(".")[-1] for x in dependents(deps, bad) if ".Props." in x)
            if any(t in hit for q in props.split() for t in manifest.get(q, [])): status = "caught"; break
            if not found: status = "unclear: " + out[-300:]; break
        hit = sorted(x.split(".")[-1] for x in dependents(deps, bad) if ".Props." in x)
        rec = dict(file="rocq/theories/" + f, definition=name, edit=[old, new], claim=claim, properties=props.split(), status=status,
                   first_failures=errs, theorems_failed=[x for x in hit if re.match(r"C\d\d_", x) and "witness" not in x], theorems_tightened=[])
        open(log, "a").write(json.dumps(rec) + "\n"); print(status, name, claim[:70], errs[:3], flush=True)
main()
