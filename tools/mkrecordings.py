#!/usr/bin/env python3
"""Writes rocq/theories/Recordings.v: the sessions recorded in /repo/recordings as Coq
data.  A session is the list of its events: direction (true: written by the driver) and
bytes.  Long repetitions are written as [times n pattern]."""
import base64, json, os, sys
src = sys.argv[1] if len(sys.argv) > 1 else "/repo/recordings"
here = os.path.dirname(os.path.abspath(__file__))
out = os.path.join(here, "..", "rocq", "theories", "Recordings.v")
# too big for the encoder model: each of 65536 elements looks at the whole buffer
SKIP = {"TestBoltStmt_SelectMapLimits", "TestBoltStmt_SelectSliceLimits"}

def parts(b):
    """split into ('l', bytes) and ('r', n, pattern)"""
    res, lit, i = [], bytearray(), 0
    while i < len(b):
        best = None
        for k in (1, 2):
            pat = b[i:i+k]
            n = 1
            while len(pat) == k and b[i+n*k:i+(n+1)*k] == pat: n += 1
            if n*k >= 64 and (best is None or n*k > best[0]*best[1]): best = (n, k)
        if best:
            if lit: res.append(('l', bytes(lit))); lit = bytearray()
            n, k = best
            res.append(('r', n, b[i:i+k])); i += n*k
        else:
            lit.append(b[i]); i += 1
    if lit: res.append(('l', bytes(lit)))
    return res

def lst(b): return "[" + ";".join(str(x) for x in b) + "]"
def coq(b):
    ps = [lst(p[1]) if p[0] == 'l' else "times %d %s" % (p[1], lst(p[2])) for p in parts(b)]
    return "[]" if not ps else " ++ ".join(ps)

with open(out, "w") as f:
    f.write("(** Sessions recorded by the driver's own tests against Neo4j 3.4.6\n"
            "    (recordings/*.json), written by tools/mkrecordings.py: events with\n"
            "    their direction ([true]: written by the driver) and bytes. *)\n"
            "From Coq Require Import ZArith List.\nFrom Verif Require Import GoPrims.\n"
            "Import ListNotations.\nOpen Scope Z_scope.\n\n"
            "Definition times (n : Z) (p : bytes) : bytes := Z.iter n (app p) [].\n")
    for name in sorted(os.listdir(src)):
        if not name.endswith(".json"): continue
        n = name[:-5]
        if n in SKIP: continue
        evs = json.load(open(os.path.join(src, name)))
        assert all(e["Error"] is None for e in evs)
        f.write("\n(** recordings/%s *)\nDefinition rec_%s : list (bool * bytes) :=\n  [" % (name, n))
        f.write(";\n   ".join("(%s, %s)" % ("true" if e["IsWrite"] else "false", coq(base64.b64decode(e["Event"]))) for e in evs))
        f.write("].\n")
