"""Regenerate MANIFEST.json: theorems are collected from rocq/theories/*Props.v by the
prefix cNN_ of their names; statuses and notes come from tools/notes.json."""
import glob, json, re, os
here = os.path.dirname(os.path.abspath(__file__))
root = os.path.dirname(here)
notes = json.load(open(os.path.join(here, "notes.json")))
thms = {}
for f in sorted(glob.glob(os.path.join(root, "rocq/theories/*Props*.v"))):
    src = open(f).read()
    printed = set(re.findall(r"Print Assumptions (\w+)\.", src))
    for n in re.findall(r"^\s*Theorem (c(\d{2,})_\w+)", src, re.M):
        thms.setdefault("C" + n[1], []).append(n[0])
        if n[0] not in printed:
            print("no Print Assumptions for", n[0])
claims = []
for l in open(os.path.join(root, "properties.jsonl")):
    p = json.loads(l)["id"]
    if p in thms:
        n = notes.get(p, {})
        if not n:
            print("no note for", p)
        claims.append({"property": p, "status": n.get("status", "proved"), "theorems": thms[p], "note": n.get("note", "")})
    else:
        print("no theorem for", p)
json.dump({"claims": claims}, open(os.path.join(root, "MANIFEST.json"), "w"), indent=1)
print(len(claims), "claims,", sum(len(t) for t in thms.values()), "theorems")
