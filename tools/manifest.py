#!/usr/bin/env python3
"""Writes MANIFEST.json from the claims below; checks every theorem name against the sources."""
import json, re, glob, os
root = os.path.dirname(os.path.dirname(os.path.abspath(__file__)))
names = set()
for f in glob.glob(root + '/rocq/theories/*.v'):
    names |= set(re.findall(r'^(?:Theorem|Lemma|Corollary)\s+([\w\']+)', open(f).read(), re.M))
claims = []
def c(prop, status, note=''):
    """Theorems are those named PROP_..., in source order."""
    th = []
    for f in sorted(glob.glob(root + '/rocq/theories/*Props.v')):
        th += re.findall(r'^Theorem\s+(' + prop + r'_[\w\']+)', open(f).read(), re.M)
    if status != 'not_applicable':
        assert th, prop
    claims.append(dict(property=prop, status=status, theorems=th, note=note))
exec(open(root + '/tools/claims.py').read())
props = [json.loads(l)['id'] for l in open(root + '/properties.jsonl')]
done = {x['property'] for x in claims}
for p in props:
    if p not in done:
        claims.append(dict(property=p, status='partial', theorems=[], note='not yet modelled'))
claims.sort(key=lambda x: x['property'])
json.dump({'claims': claims}, open(root + '/MANIFEST.json', 'w'), indent=1)
allth = [t for f in glob.glob(root + '/rocq/theories/*Props.v') for t in re.findall(r'^Theorem\s+([\w\']+)', open(f).read(), re.M)]
listed = {t for x in claims for t in x['theorems']}
print(len(claims), 'claims;', len(listed), 'theorems; unlisted:', [t for t in allth if t not in listed], '; missing:', [p for p in props if p not in done])
