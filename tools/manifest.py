#!/usr/bin/env python3
"""Write MANIFEST.json: for each property collect the theorems named <id>_* in
rocq/theories/Prop*.v, with the status and note given here."""
import glob, json, os, re
root = os.path.dirname(os.path.dirname(os.path.abspath(__file__)))
status = json.load(open(os.path.join(root, 'tools', 'status.json')))
names = {}
for f in sorted(glob.glob(root + '/rocq/theories/Prop*.v')):
    txt = re.sub(r'\(\*.*?\*\)', '', open(f).read(), flags=re.S)
    for m in re.finditer(r'^\s*(?:Theorem|Lemma|Corollary)\s+((C\d+)_\w+)', txt, re.M):
        names.setdefault(m.group(2), []).append(m.group(1))
claims = []
for line in open(root + '/properties.jsonl'):
    pid = json.loads(line)['id']
    if pid in status:
        st, note = status[pid]
        th = names.get(pid, [])
        if st == 'proved' and not th:
            print('no theorem for', pid)
        claims.append({'property': pid, 'status': st, 'theorems': th, 'note': note})
    elif pid in names:
        print('no status for', pid)
json.dump({'claims': claims}, open(root + '/MANIFEST.json', 'w'), indent=1)
print(len(claims), 'claims', sum(len(c['theorems']) for c in claims), 'theorems')
