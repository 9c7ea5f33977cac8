"""Writes DESIGN.md from properties.jsonl, MANIFEST.json, tools/axioms.json and the texts below."""
import glob, json, os, re
ROOT = os.path.dirname(os.path.dirname(os.path.abspath(__file__)))
T = os.path.join(ROOT, "rocq", "theories")
props = [json.loads(l) for l in open(os.path.join(ROOT, "properties.jsonl"))]
claims = {c["property"]: c for c in json.load(open(os.path.join(ROOT, "MANIFEST.json")))["claims"]}
axioms = json.load(open(os.path.join(ROOT, "tools", "axioms.json")))
head = open(os.path.join(ROOT, "tools", "design_head.md")).read()
tail = open(os.path.join(ROOT, "tools", "design_tail.md")).read()
plan = json.load(open(os.path.join(ROOT, "tools", "plan.json")))
src = {}
for f in sorted(glob.glob(os.path.join(T, "*Props*.v"))):
    for t in re.findall(r"^\s*(?:Theorem|Lemma|Corollary)\s+(C\d\d\d?)_\w+", open(f).read(), re.M):
        n = os.path.basename(f)
        if n not in src.setdefault(t, []):
            src[t].append(n)
out = head + "\n## 2. Plan per property\n\nFor each property: the model files, the file with its theorems, what is modelled and how it is proved.\n\n| id | title | model | theorems in | modelled as; proof |\n|---|---|---|---|---|\n"
for p in props:
    i = p["id"]
    models, how = plan[i]
    out += "| %s | %s | %s | %s | %s |\n" % (i, p["title"].replace("|", "\\|"), models, ", ".join(src.get(i, [])), how)
out += "\nNothing is declared not applicable; a theorem that proves only a part of a property would carry the suffix `_partial` (there is none at present).\n"
out += "\n## 3. Findings\n\nProperties or natural readings of them that are false of the code, each with a theorem ending in `_refuted`, and related remarks.\n\n"
for p in props:
    c = claims[p["id"]]
    r = [t for t in c["theorems"] if t.endswith("_refuted")]
    if r or c.get("note"):
        out += "* **%s** %s%s\n" % (p["id"], ("(" + ", ".join("`%s`" % t for t in r) + ") ") if r else "", c.get("note", ""))
out += "\n## 4. What is modelled\n\nBy source file (relative to src/python/zquantum/core), the functions and classes that properties are about; the functions they call are modelled as well.\n\n"
files = {}
for p in props:
    for an in p["anchors"]:
        f, _, sym = an.partition(":")
        f = f.replace("src/python/zquantum/core/", "").replace("/repo/", "")
        files.setdefault(f, {}).setdefault(sym, []).append(p["id"])
for f in sorted(files):
    out += "* `%s`: %s\n" % (f, "; ".join("%s (%s)" % (s or "whole file", ", ".join(sorted(set(ids)))) for s, ids in files[f].items()))
out += tail
by = {}
total = 0
for p in props:
    for t in claims[p["id"]]["theorems"]:
        total += 1
        by.setdefault(tuple(axioms.get(t, [])), []).append(t)
out += "\n### Assumptions of each theorem\n\nCollected with `Print Assumptions` over all %d theorems; the command also stands beneath the theorems in the Props files.\n\n" % total
out += "* Closed under the global context: %d theorems, namely all that are not listed below.\n" % len(by.get((), []))
for k in sorted(by, key=lambda k: (len(k), k)):
    if k:
        out += "* %s: %s.\n" % (" + ".join("`%s`" % a for a in k), ", ".join(by[k]))
open(os.path.join(ROOT, "DESIGN.md"), "w").write(out)
print(len(out.splitlines()), "lines in DESIGN.md")
