# writes /tmp/Assumptions.v (compile with coqc -Q theories Verif; not part of the build, it takes minutes): Print Assumptions for every theorem named in MANIFEST.json
import json, os, re
root = os.path.join(os.path.dirname(__file__), "..")
names = []
for c in json.load(open(os.path.join(root, "MANIFEST.json")))["claims"]:
    for t in c["theorems"]:
        if t not in names: names.append(t)
where = {}
proj = [l.strip() for l in open(os.path.join(root, "rocq/_CoqProject")) if l.strip().endswith(".v")]
for f in proj:
    m = os.path.basename(f)[:-2]
    if m == "Assumptions": continue
    for t in re.findall(r"^\s*(?:Theorem|Lemma)\s+([A-Za-z0-9_']+)", open(os.path.join(root, "rocq", f)).read(), re.M):
        where.setdefault(t, m)
mods = sorted({where[t] for t in names})
with open("/tmp/Assumptions.v", "w") as o:
    o.write("(** Assumptions.v -- generated by tools/gen_assumptions.py: prints what each theorem of MANIFEST.json\n    rests on.  Every line of output must read \"Closed under the global context\". *)\n")
    o.write("From Verif Require " + " ".join(mods) + ".\n")
    for t in names: o.write("Print Assumptions %s.%s.\n" % (where[t], t))
print(len(names), "theorems")
