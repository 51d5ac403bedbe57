#!/usr/bin/env python3
"""Writes /verif/MANIFEST.json from the theorem names Cnn_* in rocq/theories/P_*.v
and the statuses and notes below."""
import glob, json, os, re
root = os.path.join(os.path.dirname(os.path.abspath(__file__)), "..")
thms = {}
for f in sorted(glob.glob(os.path.join(root, "rocq/theories/P_*.v"))):
    for m in re.finditer(r"^ *Theorem\s+((C\d+)_\w+)", open(f).read(), re.M):
        thms.setdefault(m.group(2), []).append(m.group(1))
exec(open(os.path.join(root, "tools/status.py")).read())
claims = []
for line in open(os.path.join(root, "properties.jsonl")):
    pid = json.loads(line)["id"]
    if pid in STATUS or pid in thms:
        st, note = STATUS.get(pid, ("proved", ""))
        assert thms.get(pid) or st == "not_applicable", pid
        claims.append({"property": pid, "status": st, "theorems": thms.get(pid, []), "note": note})
json.dump({"claims": claims}, open(os.path.join(root, "MANIFEST.json"), "w"), indent=1)
print(len(claims), "claims,", sum(len(c["theorems"]) for c in claims), "theorems")
