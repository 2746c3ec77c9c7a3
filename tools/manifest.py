#!/usr/bin/env python3
"""Regenerate MANIFEST.json, _CoqProject from the sources and tools/notes.json."""
import json, re, glob, os, subprocess
root = os.path.dirname(os.path.dirname(os.path.abspath(__file__)))
props = [json.loads(l)["id"] for l in open(root + "/properties.jsonl") if l.strip()]
notes = json.load(open(root + "/tools/notes.json"))
thms = {}
for f in sorted(glob.glob(root + "/rocq/theories/*Props*.v")):
    for m in re.finditer(r"^Theorem ((C\d+)_\w+)", open(f).read(), re.M):
        thms.setdefault(m.group(2), []).append(m.group(1))
claims = []
for p in props:
    t = thms.get(p, [])
    n = notes.get(p, {})
    if not t and not n: continue
    st = n.get("status")
    if st is None:
        st = "partial" if any(x.endswith(("_partial", "_refuted")) for x in t) else "proved"
    claims.append({"property": p, "status": st, "theorems": t, "note": n.get("note", "")})
for p in thms:
    if p not in props: print("no property for", p)
json.dump({"claims": claims}, open(root + "/MANIFEST.json", "w"), indent=1)
open(root + "/MANIFEST.json", "a").write("\n")
files = sorted(os.path.basename(f) for f in glob.glob(root + "/rocq/theories/*.v"))
open(root + "/rocq/_CoqProject", "w").write("-Q theories Verif\n" + "".join("theories/%s\n" % f for f in files))
print(len(claims), "claims;", sum(len(v) for v in thms.values()), "theorems; without:",
      [p for p in props if p not in thms])
