#!/usr/bin/env python3
"""Write MANIFEST.json from the theorems in rocq/theories/Props and tools/status.json."""
import json, re, glob, os
root = os.path.join(os.path.dirname(os.path.abspath(__file__)), '..')
thms = {}
for f in sorted(glob.glob(root + '/rocq/theories/Props/*.v')):
    for n in re.findall(r'^Theorem (C\d\d\d?_\w+)', open(f).read(), re.M):
        thms.setdefault(n.split('_')[0], []).append(n)
st = json.load(open(root + '/tools/status.json'))
claims = []
for l in open(root + '/properties.jsonl'):
    i = json.loads(l)['id']
    if i in thms:
        s, note = st.get(i, ["proved", ""])
        claims.append({"property": i, "status": s, "theorems": thms[i], "note": note})
    elif i in st and st[i][0] == "not_applicable":
        claims.append({"property": i, "status": st[i][0], "theorems": [], "note": st[i][1]})
json.dump({"claims": claims}, open(root + '/MANIFEST.json', 'w'), indent=1)
print(len(claims), 'claims', sum(len(c["theorems"]) for c in claims), 'theorems')
