#!/usr/bin/env python3
"""Adds the missing `Print Assumptions` after each property theorem of the given files."""
import re, sys
for f in sys.argv[1:]:
    out, cur = [], None
    lines = open(f).read().split("\n")
    text = "\n".join(lines)
    sect = []; pend = []
    for l in lines:
        out.append(l)
        m = re.match(r"(?:Theorem|Lemma)\s+(C\d+_\w+)", l)
        if m: cur = m.group(1)
        s = re.match(r"Section (\w+)\.", l)
        if s: sect.append(s.group(1))
        if cur and re.search(r"\bQed\.", l):
            if ("Print Assumptions %s." % cur) not in text: (pend if sect else out).append("Print Assumptions %s." % cur)
            cur = None
        e = re.match(r"End (\w+)\.", l)
        if e and sect and sect[-1] == e.group(1):
            sect.pop()
            if not sect: out += pend; pend = []
    open(f, "w").write("\n".join(out))
