#!/usr/bin/env python3
"""Mechanical mutants of the model files: flipped comparisons, connectives, conditions and
constants, dropped statements.  automut.py OUT.json [files...]; run them with MUT_FAST=1 mutate.py."""
import json, re, sys, os
SRC = os.environ.get("MUT_SRC", "/verif/rocq/theories")
WIRE = ["PropsDecode", "PropsFault", "PropsTime", "PropsWire"]
SESSION = ["PropsNames", "PropsBolt", "PropsSession", "PropsSql", "PropsPanic", "PropsRecover", "PropsShare", "PropsDecode"]
MODEL = {
    "GoPrims.v": ["PropsCodec", "PropsMisc", "PropsNames"], "Encoder.v": ["PropsCodec", "PropsMisc", "PropsFault"],
    "Decoder.v": ["PropsCodec", "PropsMisc", "PropsFault"], "Framing.v": ["PropsCodec", "PropsFault"],
    "Errors.v": ["PropsMisc"], "Misc.v": ["PropsMisc", "PropsNames"], "Recorder.v": ["PropsMisc", "PropsReplay", "PropsNames"],
    "Pool.v": ["PropsPool"], "SessionNet.v": WIRE,
    "Session.v": SESSION + WIRE + ["PropsPool"],
}
START = re.compile(r"^\s*(?:Local |Global )?(Definition|Fixpoint|with|Inductive|Record|Lemma|Theorem|Example|Corollary|Section|Instance|Notation|Ltac)\s+(\w+)")

def blank_comments(t):
    out, i, d = [], 0, 0
    while i < len(t):
        if t.startswith("(*", i): d += 1; out.append("  "); i += 2
        elif t.startswith("*)", i) and d: d -= 1; out.append("  "); i += 2
        else:
            out.append(t[i] if (d == 0 or t[i] == "\n") else " "); i += 1
    return "".join(out)

def defs(t):
    """(name, start, end) of definitions, without proofs"""
    res = []
    for m in re.finditer(r"^(?:Definition|Fixpoint)\s+(\w+)", t, re.M):
        end = re.compile(r"\.(?=\s)").search(t, m.end())
        # a definition ends at the first full stop followed by white space outside of numbers
        while end and re.match(r"\.\s", t[end.start():]) is None: end = re.compile(r"\.(?=\s)").search(t, end.end())
        e = end.end() if end else len(t)
        body = t[m.start():e]
        if ":=" not in body: continue
        res.append((m.group(1), m.start() + body.index(":="), e))
    return res

def sites(b):
    for m in re.finditer(r"<=\?|<\?|=\?", b):
        if m.group(0) == "<=?": yield m.span(), "<?"
        elif m.group(0) == "<?": yield m.span(), "<=?"
        else: yield m.span(), "<=?"
    for m in re.finditer(r"&&", b): yield m.span(), "||"
    for m in re.finditer(r"\|\|", b): yield m.span(), "&&"
    for m in re.finditer(r"\btrue\b", b): yield m.span(), "false"
    for m in re.finditer(r"\bfalse\b", b): yield m.span(), "true"
    for m in re.finditer(r"\bnegb\b", b): yield m.span(), ""
    for m in re.finditer(r"\bif ((?:(?!then|if ).)+?) then\b", b): yield m.span(1), "negb (%s)" % m.group(1)
    for m in re.finditer(r"(?<![\w.])(0x[0-9A-Fa-f]+|\d+)(?![\w.])", b):
        pre = b[max(0, m.start() - 90):m.start()].split("\n")[-1]
        if re.search(r"(enew|ewrap|mkerr|FConn|FRows|FStmt|FTx|FDriver|FRes|FUtil|guard\w*|finish)[^;|()]*$", pre): continue
        yield m.span(), "(%s + 1)" % m.group(0)
    for m in re.finditer(r"(?<=[\s(])(modc|mods|modr|sett|setn|cls|need_conn|sets|setr|setc|put)\b[^;\n|]*;;", b): yield m.span(), ""
    for m in re.finditer(r"(?<=\s)(\+|-)(?=\s)", b): yield m.span(), "-" if m.group(1) == "+" else "+"
    for m in re.finditer(r"\bSome \((VSuccess|VFailure|VIgnored|VRecord) _\)", b): yield m.span(), "Some _"
    for m in re.finditer(r"\|\s+(VSuccess|VFailure|VIgnored|VRecord)\b", b):
        other = {"VSuccess": "VIgnored", "VIgnored": "VSuccess", "VFailure": "VIgnored", "VRecord": "VSuccess"}[m.group(1)]
        yield (m.start(1), m.end(1)), other

def main():
    out = sys.argv[1]; files = sys.argv[2:] or list(MODEL)
    ms = []
    for f in files:
        src = open(os.path.join(SRC, f)).read(); t = blank_comments(src)
        n = 0
        for name, a, b in defs(t):
            for (s, e), new in sites(t[a:b]):
                n += 1
                ms.append({"id": "A%s%03d" % (f[:3] if f != "SessionNet.v" else "Net", n), "file": f, "def": name, "at": [a + s, a + e], "old": src[a + s:a + e], "new": new,
                           "line": src.count("\n", 0, a + s) + 1, "text": src[src.rfind("\n", 0, a + s) + 1:src.find("\n", a + e)],
                           "claim": "", "targets": MODEL[f]})
    json.dump(ms, open(out, "w"), indent=0)
    from collections import Counter
    print(len(ms), Counter(m["file"] for m in ms))
main()
