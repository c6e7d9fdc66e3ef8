"""Regenerate MANIFEST.json and rocq/_CoqProject from the theories and tools/status.json."""
import json, re, glob, os
root = os.path.dirname(os.path.dirname(os.path.abspath(__file__)))
files = sorted(glob.glob(root + '/rocq/theories/*.v'))
thms = {}
for f in files:
    for m in re.finditer(r'^Theorem\s+(C\d\d)(_\w+)', open(f).read(), re.M):
        thms.setdefault(m.group(1), []).append(m.group(1) + m.group(2))
status = json.load(open(root + '/tools/status.json'))
claims = []
for line in open(root + '/properties.jsonl'):
    pid = json.loads(line)['id']
    st = status.get(pid, {})
    t = thms.get(pid, [])
    claims.append({'property': pid, 'status': st.get('status', 'partial'), 'theorems': t,
                   'note': st.get('note', 'not yet modelled' if not t else '')})
json.dump({'claims': claims}, open(root + '/MANIFEST.json', 'w'), indent=1)
with open(root + '/rocq/_CoqProject', 'w') as o:
    o.write('-Q theories Verif\n')
    for f in files:
        o.write('theories/' + os.path.basename(f) + '\n')
print({c['property']: (c['status'], len(c['theorems'])) for c in claims if c['theorems']})
print('no theorems:', [c['property'] for c in claims if not c['theorems']])
