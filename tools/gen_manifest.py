#!/usr/bin/env python3
"""Writes /verif/MANIFEST.json: theorem names are collected from the T_*.v files,
statuses and notes from tools/status.json."""
import json, os, re, glob
root = os.path.join(os.path.dirname(os.path.abspath(__file__)), "..")
th = {}
for f in sorted(glob.glob(root + "/rocq/theories/T_*.v")):
    for m in re.finditer(r"^Theorem\s+(C\d\d)(_\w+)", open(f).read(), re.M):
        th.setdefault(m.group(1), []).append(m.group(1) + m.group(2))
st = json.load(open(root + "/tools/status.json"))
claims = []
for l in open(root + "/properties.jsonl"):
    i = json.loads(l)["id"]
    s = st.get(i, ["proved" if i in th else "partial", ""])
    if i not in th and s[0] != "not_applicable":
        continue
    claims.append(dict(property=i, status=s[0], theorems=th.get(i, []), note=s[1]))
json.dump({"claims": claims}, open(root + "/MANIFEST.json", "w"), indent=1)
for i in st:
    if i not in [c["property"] for c in claims]: print("unused status", i)
print(len(claims), "claims", sum(len(c["theorems"]) for c in claims), "theorems")
