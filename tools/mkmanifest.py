"""Write MANIFEST.json from the theorem names C??_* in rocq/theories/Props*.v."""
import re, json, glob, collections
th = collections.defaultdict(list)
for f in sorted(glob.glob('/verif/rocq/theories/Props*.v')):
    for m in re.finditer(r'^Theorem ((C\d\d+)_\w+)', open(f).read(), re.M):
        th[m.group(2)].append(m.group(1))
NOTES = {}
exec(open('/verif/tools/notes.py').read())
claims = []
for l in open('/verif/properties.jsonl'):
    i = json.loads(l)['id']
    if not th[i]:
        print('no theorem for', i); continue
    st = 'partial' if any(t.endswith('_partial') for t in th[i]) else 'proved'
    claims.append({"property": i, "status": st, "theorems": th[i], "note": NOTES.get(i, "")})
json.dump({"claims": claims}, open('/verif/MANIFEST.json', 'w'), indent=1, ensure_ascii=False)
