#!/usr/bin/env python3
"""Regenerate MANIFEST.json: theorem names come from rocq/theories/Prop*.v."""
import glob, json, os, re
root = os.path.dirname(os.path.dirname(os.path.abspath(__file__)))
notes = json.load(open(os.path.join(root, "tools", "status.json")))
thms = {}
for f in sorted(glob.glob(os.path.join(root, "rocq/theories/Prop*.v"))):
    for name in re.findall(r"^Theorem (C\d\d_\w+)", open(f).read(), re.M):
        thms.setdefault(name[:3], []).append(name)
claims = []
for line in open(os.path.join(root, "properties.jsonl")):
    if not line.strip():
        continue
    pid = json.loads(line)["id"]
    st, note = notes.get(pid, ["partial", "not yet proved"])
    claims.append({"property": pid, "status": st, "theorems": thms.get(pid, []), "note": note})
json.dump({"claims": claims}, open(os.path.join(root, "MANIFEST.json"), "w"), indent=1)
