#!/usr/bin/env python3
"""Writes ASSUMPTIONS.md: Print Assumptions of every theorem in MANIFEST.json.
Needs the compiled files in rocq/theories."""
import json, os, re, subprocess, tempfile
here = os.path.dirname(os.path.abspath(__file__)); root = os.path.join(here, "..")
th = os.path.join(root, "rocq", "theories")
where = {}
for f in sorted(os.listdir(th)):
    if f.startswith("Props") and f.endswith(".v"):
        for m in re.finditer(r"^\s*(?:Theorem|Lemma|Corollary)\s+(C\d\d\w*)", open(os.path.join(th, f)).read(), re.M):
            where[m.group(1)] = f[:-2]
names = [t for c in json.load(open(os.path.join(root, "MANIFEST.json")))["claims"] for t in c["theorems"]]
with tempfile.TemporaryDirectory() as d:
    with open(os.path.join(d, "A.v"), "w") as f:
        for m in sorted(set(where[n] for n in names)): f.write("From Verif Require %s.\n" % m)
        for n in names: f.write("Print Assumptions %s.%s.\n" % (where[n], n))
    out = subprocess.run(["coqc", "-q", "-Q", th, "Verif", "A.v"], cwd=d, capture_output=True, text=True)
    if out.returncode: raise SystemExit(out.stderr)
res = re.split(r"(?m)^(?=Closed under|Axioms:)", out.stdout)[1:]
assert len(res) == len(names), (len(res), len(names))
with open(os.path.join(root, "ASSUMPTIONS.md"), "w") as f:
    f.write("# Print Assumptions of the property theorems\n\nWritten by `tools/mkassumptions.py`. %d of %d are closed under the global context (no axioms at all).\n\n| theorem | file | assumptions |\n|---|---|---|\n"
            % (sum(r.startswith("Closed") for r in res), len(names)))
    for n, r in zip(names, res):
        f.write("| %s | %s.v | %s |\n" % (n, where[n], "none" if r.startswith("Closed") else " ".join(r.split())))
print(len(names))
