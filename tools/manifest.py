#!/usr/bin/env python3
"""Writes MANIFEST.json.  A claim lists the theorems of the generated Thm*.v
files whose comment carries the property id, so it cannot name a theorem that
does not exist.  The status and note of each property come from NOTES below."""
import json, os, re
R = os.path.join(os.path.dirname(os.path.abspath(__file__)), '..')
T = os.path.join(R, 'rocq', 'theories')
exec(open(os.path.join(R, 'tools', 'notes.py')).read())
thms = {}
for f in sorted(os.listdir(T)):
    if f.startswith('Thm') and f.endswith('.v'):
        s = open(os.path.join(T, f)).read()
        for m in re.finditer(r'\(\*\*((?:(?!\*\)).)*)\*\)\s*Theorem (\w+)', s, re.S):
            ids = re.findall(r'\[(C\d\d+)\]', m.group(1))
            if not ids: print('no id:', m.group(2))
            for i in ids: thms.setdefault(i, []).append(m.group(2))
        n = len(re.findall(r'^Theorem ', s, re.M)); k = len(re.findall(r'\*\)\s*Theorem (\w+)', s))
        if n != k: print('theorem without comment in', f)
ids = [json.loads(l)['id'] for l in open(os.path.join(R, 'properties.jsonl')) if l.strip()]
claims = []
for i in ids:
    if i in thms:
        if i not in NOTES: print('no note:', i); continue
        st, note = NOTES[i]
        claims.append(dict(property=i, status=st, theorems=thms[i], note=note))
    elif i in NOTES and NOTES[i][0] == 'not_applicable':
        claims.append(dict(property=i, status='not_applicable', theorems=[], note=NOTES[i][1]))
json.dump({'claims': claims}, open(os.path.join(R, 'MANIFEST.json'), 'w'), indent=1)
print(len(claims), 'claims;', 'missing:', [i for i in ids if i not in thms])
