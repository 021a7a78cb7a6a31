"""Writes MANIFEST.json from the table below; checks that every listed theorem exists in rocq/theories/Props."""
import json, os, re
root = os.path.dirname(os.path.dirname(os.path.abspath(__file__)))
C = []
def claim(prop, status, theorems, note): C.append(dict(property=prop, status=status, theorems=theorems.split(), note=note))
exec(open(os.path.join(root, "tools", "claims.py")).read())
names = set()
for d, _, fs in os.walk(os.path.join(root, "rocq", "theories", "Props")):
    for f in fs:
        if f.endswith(".v"): names |= set(re.findall(r"^\s*Theorem\s+(\w+)", open(os.path.join(d, f)).read(), re.M))
listed = set(t for c in C for t in c["theorems"])
ids = [json.loads(l)["id"] for l in open(os.path.join(root, "properties.jsonl")) if l.strip()]
print("missing theorems:", sorted(listed - names)); print("unlisted theorems:", sorted(names - listed))
print("properties without claim:", [i for i in ids if i not in [c["property"] for c in C]])
C.sort(key=lambda c: c["property"])
json.dump({"claims": C}, open(os.path.join(root, "MANIFEST.json"), "w"), indent=1)
