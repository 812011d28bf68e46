#!/usr/bin/env python3
"""Regenerate MANIFEST.json from the theorem names in rocq/theories/Props and tools/notes.json."""
import glob, json, os, re
root = os.path.dirname(os.path.dirname(os.path.abspath(__file__)))
notes = json.load(open(os.path.join(root, "tools/notes.json")))
thms = {}
for f in sorted(glob.glob(os.path.join(root, "rocq/theories/Props/*.v"))):
    for name in re.findall(r"^Theorem\s+(\w+)", open(f).read(), re.M):
        thms.setdefault(name.split("_")[0], []).append(name)
claims = []
for line in open(os.path.join(root, "properties.jsonl")):
    pid = json.loads(line)["id"]
    ts = thms.get(pid, [])
    if not ts and pid not in notes:
        continue
    partial = any("_partial" in t or "_refuted" in t for t in ts)
    status = "partial" if partial else "proved" if ts else "not_applicable"
    claims.append({"property": pid, "status": status, "theorems": ts, "note": notes.get(pid, "")})
    if status != "proved" and pid not in notes:
        print("no note for", pid)
json.dump({"claims": claims}, open(os.path.join(root, "MANIFEST.json"), "w"), indent=1)
print(len(claims), "claims")
