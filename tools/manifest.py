"""Build MANIFEST.json from the theorem names in rocq/theories/P_*.v.

The property of a theorem is the prefix of its name (C01_...).  NOTES gives the note, PARTIAL the
properties whose full claim is not proved.
"""
import glob, json, os, re
root = os.path.dirname(os.path.dirname(os.path.abspath(__file__)))
ns = {}
exec(open(os.path.join(root, "tools", "notes.py")).read(), ns)
NOTES, PARTIAL = ns["NOTES"], ns["PARTIAL"]
props = [json.loads(l)["id"] for l in open(os.path.join(root, "properties.jsonl"))]
th = {p: [] for p in props}
for f in sorted(glob.glob(os.path.join(root, "rocq", "theories", "P_*.v"))):
    for m in re.finditer(r"^Theorem\s+(C\d+)_(\w+)", open(f).read(), re.M):
        th[m.group(1)].append(f"{m.group(1)}_{m.group(2)}")
claims = []
for p in props:
    if not th[p]:
        continue
    st = "partial" if p in PARTIAL or any(t.endswith("_partial") for t in th[p]) else "proved"
    claims.append({"property": p, "status": st, "theorems": th[p], "note": NOTES.get(p, "")})
json.dump({"claims": claims}, open(os.path.join(root, "MANIFEST.json"), "w"), indent=1)
print(len(claims), "claims; missing:", [p for p in props if not th[p]])
