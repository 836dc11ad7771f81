#!/usr/bin/env python3
"""seeded/LOG.jsonl from seeded/mutants.json and seeded/results*.jsonl (output of mutate.py;
results.jsonl is the first run, results2.jsonl the run after tightening)."""
import json, os
here = os.path.join(os.path.dirname(os.path.abspath(__file__)), "..", "seeded")
def load(f):
    f = os.path.join(here, f)
    return {r["id"]: r for r in map(json.loads, open(f))} if os.path.exists(f) else {}
M = json.load(open(os.path.join(here, "mutants.json")))
r1, r2 = load("results.jsonl"), load("results2.jsonl")
T = json.load(open(os.path.join(here, "tightened.json")))
n = 0
with open(os.path.join(here, "LOG.jsonl"), "w") as out:
    for m in M:
        i = m["id"]
        if i not in r1 and i not in r2: continue
        first, last = r1.get(i), r2.get(i, r1.get(i))
        if "error" in last: continue
        e = {"id": i, "file": "rocq/theories/" + m["file"], "definition": m["def"],
             "edit": {"old": m["old"], "new": m["new"]}, "claim": m["claim"],
             "broken_lemmas": last["broken"], "failed_theorems": last["failed"],
             "tightened": T.get(i, {}).get("theorems", [])}
        if i in r2 and first is not None and not first.get("blocked"): e["failed_theorems_before_tightening"] = first["failed"]
        if "note" in T.get(i, {}): e["note"] = T[i]["note"]
        out.write(json.dumps(e) + "\n"); n += 1
        if not last["failed"]: print("survivor", i, m["claim"])
    # edits generated by automut.py: constants, comparisons, branches, dropped steps
    auto = os.path.join(here, "auto.jsonl")
    for r in (map(json.loads, open(auto)) if os.path.exists(auto) else []):
        e = {"id": r["id"], "file": "rocq/theories/" + r["file"], "definition": r["def"],
             "edit": {"line": r["text"], "old": r["old"], "new": r["new"]},
             "claim": "generated edit of " + r["def"], "failed_theorems": r["failed"], "tightened": r.get("tightened", [])}
        if "before" in r: e["failed_theorems_before_tightening"] = r["before"]
        if "note" in r: e["note"] = r["note"]
        out.write(json.dumps(e) + "\n"); n += 1
print(n)
