#!/usr/bin/env python3
"""Writes MANIFEST.json from the property theorems found in rocq/theories.

A theorem named cNN_... belongs to property CNN.  Status and note per property are below."""
import re, json, glob, os
here = os.path.dirname(os.path.abspath(__file__))
thms = {}
for f in sorted(glob.glob(here + "/rocq/theories/*.v")):
    for m in re.finditer(r"^Theorem (c(\d\d)_\w+)", open(f).read(), re.M):
        thms.setdefault("C" + m.group(2), []).append(m.group(1))
status = json.load(open(here + "/status.json"))
claims = []
for line in open(here + "/properties.jsonl"):
    p = json.loads(line)["id"]
    st, note = status.get(p, ["partial", "work in progress"])
    claims.append(dict(property=p, status=st, theorems=thms.get(p, []), note=note))
json.dump(dict(claims=claims), open(here + "/MANIFEST.json", "w"), indent=1)
print({c["property"]: (c["status"], len(c["theorems"])) for c in claims})
