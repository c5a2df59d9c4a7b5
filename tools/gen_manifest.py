#!/usr/bin/env python3
"""Generates MANIFEST.json: collects every theorem named C<nn>... in Properties_*.v.  A theorem that covers two
properties (C20_C21_...) is listed under both.  STATUS and NOTES are maintained by hand."""
import json, re, glob, os
root = os.path.join(os.path.dirname(__file__), '..')
exec(open(os.path.join(root, 'tools/manifest_notes.py')).read())
thms = {}
for f in sorted(glob.glob(os.path.join(root, 'rocq/theories/Properties_*.v'))):
    for m in re.finditer(r'^(?:Theorem|Lemma|Corollary)\s+((?:C\d\d+_)+\w+)', open(f).read(), re.M):
        name = m.group(1)
        for c in re.match(r'((?:C\d\d+_)+)', name).group(1).strip('_').split('_'):
            thms.setdefault(c, []).append(name)
claims = []
for l in open(os.path.join(root, 'properties.jsonl')):
    c = json.loads(l)['id']
    if c not in STATUS: continue
    assert c in thms or STATUS[c] == 'not_applicable', c
    claims.append({"property": c, "status": STATUS[c], "theorems": thms.get(c, []), "note": NOTES[c]})
for c in thms: assert c in STATUS, c
json.dump({"claims": claims}, open(os.path.join(root, 'MANIFEST.json'), 'w'), indent=1)
print(len(claims), 'claims', sum(len(v) for v in thms.values()), 'theorem references')
