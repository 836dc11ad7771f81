#!/usr/bin/env python3
"""Rebuilds a scratch copy of the development with one wrong edit of the model.
Proofs that break are replaced by Admitted so that the build goes on; a property theorem
counts as failed when it breaks itself or rests on a broken lemma (Print Assumptions).

  mutate.py MUTANTS.json OUT.jsonl [-j N] [ids...]

A mutant: {"id","file","old","new","def","claim","targets":[files]}."""
import json, os, re, shutil, subprocess, sys
from concurrent.futures import ThreadPoolExecutor
SRC = os.environ.get("MUT_SRC", "/verif/rocq/theories")
TMP = os.environ.get("MUT_TMP", "/tmp/mut")
LIMIT = os.environ.get("MUT_LIMIT", "400")
FAST = "MUT_FAST" in os.environ   # stop at the first file with a failed property theorem
FIRST = "MUT_FIRST" in os.environ # stop at the first broken proof that a property theorem mentions, directly or not

def deps():
    out = subprocess.run("coqdep -Q . Verif *.v", shell=True, cwd=SRC, capture_output=True, text=True).stdout
    d = {}
    for l in out.split("\n"):
        m = re.match(r"(\w+)\.vo .*?: (.*)", l)
        if m: d[m.group(1)] = [x[:-3] for x in m.group(2).split() if x.endswith(".vo") and "/" not in x]
    return d

def order(d, targets):
    seen, res = set(), []
    def go(f):
        if f in seen: return
        seen.add(f)
        for g in d[f]: go(g)
        res.append(f)
    for t in targets: go(t)
    return res

DECL = re.compile(r"^\s*(?:#\[\w+\]\s*)?(?:Local\s+|Global\s+)?(?:Lemma|Theorem|Example|Corollary|Remark|Fact|Definition|Instance|Fixpoint|Inductive|Record|Ltac|Tactic Notation|Let)\s+(\w+)", re.M)
def users():
    """For each declared name the property theorems whose text mentions it, directly or not."""
    body = {}
    for f in os.listdir(SRC):
        if not f.endswith(".v"): continue
        t = open(os.path.join(SRC, f)).read()
        ms = list(DECL.finditer(t))
        for m, n in zip(ms, ms[1:] + [None]):
            body.setdefault(m.group(1), set()).update(re.findall(r"[A-Za-z_][\w']*", t[m.end():n.start() if n else len(t)]))
    used = {}
    for a, ws in body.items():
        for w in ws:
            if w in body and w != a: used.setdefault(w, set()).add(a)
    def closure(a):
        seen, todo = {a}, [a]
        while todo:
            for b in used.get(todo.pop(), ()):
                if b not in seen: seen.add(b); todo.append(b)
        return sorted(x for x in seen if re.match(r"C\d\d_", x))
    return closure

START = re.compile(r"\b(Lemma|Theorem|Example|Corollary|Remark|Fact|Definition|Instance|Fixpoint)\s+(\w+)")
def admit(text, off):
    """Replace the proof around offset [off]; returns (text, name) or None."""
    p = text.rfind("Proof", 0, off + 6)
    if p < 0: return None
    q = re.compile(r"\b(Qed|Defined)\.").search(text, p)
    if not q or q.end() < off: return None
    ms = [m for m in START.finditer(text, 0, p)]
    ms = [m for m in ms if m.group(1) not in ("Fixpoint",)]
    return text[:p] + "Admitted." + text[q.end():], ms[-1].group(2)

def line_off(text, line, ch):
    i = 0
    for _ in range(line - 1): i = text.index("\n", i) + 1
    # characters are bytes
    return i + len(text[i:].encode()[:ch].decode(errors="ignore"))

def run(m, d):
    dir = os.path.join(TMP, m["id"])
    shutil.rmtree(dir, ignore_errors=True); os.makedirs(dir)
    subprocess.run("cp -p %s/*.v %s/*.vo %s/" % (SRC, SRC, dir), shell=True, check=True)
    f0 = m["file"][:-2]
    t = open(os.path.join(dir, m["file"])).read()
    if "at" in m:
        a, b = m["at"]
        if t[a:b] != m["old"]: return {"id": m["id"], "error": "old text not found"}
        open(os.path.join(dir, m["file"]), "w").write(t[:a] + m["new"] + t[b:])
    else:
        if t.count(m["old"]) != m.get("count", 1):
            return {"id": m["id"], "error": "old text found %d times" % t.count(m["old"])}
        open(os.path.join(dir, m["file"]), "w").write(t.replace(m["old"], m["new"]))
    order_ = order(d, m["targets"])
    dirty, broken, failed, blocked = {f0}, [], [], []
    for f in order_:
        if f not in dirty and not any(g in dirty for g in d[f]): continue
        dirty.add(f)
        path = os.path.join(dir, f + ".v")
        n = 0
        while True:
            try: r = subprocess.run(["timeout", "-k", "5", LIMIT, "coqc", "-q", "-Q", ".", "Verif", f + ".v"], cwd=dir, capture_output=True, text=True)
            except Exception as e: return {"id": m["id"], "error": str(e)}
            if r.returncode == 0: break
            n += 1
            text = open(path).read()
            es = re.findall(r'File "\./%s\.v", line (\d+), characters (\d+)-(\d+):\nError' % f, r.stderr)
            if not es:
                es2 = re.findall(r'File "\./%s\.v", line (\d+), characters (\d+)-(\d+):' % f, r.stderr)
                es = es2[-1:] if es2 and r.returncode != 124 else []
            if r.returncode == 124 or not es:
                # find the sentence that takes forever
                r2 = subprocess.run("timeout -k 5 %s coqc -q -time -Q . Verif %s.v | tail -1" % (LIMIT, f), shell=True, cwd=dir, capture_output=True, text=True)
                mm = re.match(r"Chars (\d+) - (\d+)", r2.stdout)
                if not mm: blocked.append(f); break
                a = admit(text, len(text.encode()[:int(mm.group(2)) + 2].decode(errors="ignore")))
            else:
                a = admit(text, line_off(text, int(es[-1][0]), int(es[-1][1])))
            if a is None or n > 80:
                blocked.append(f + ": " + (r.stderr.strip().split("\n")[-1][:160] if r.stderr else "timeout")); break
            open(path, "w").write(a[0]); broken.append(f + "." + a[1])
            if FIRST:
                failed = [x for x in closure(a[1]) if "example" not in x]
                if failed: shutil.rmtree(dir, ignore_errors=True); return {"id": m["id"], "broken": broken, "failed": failed, "blocked": [], "first": "timeout" if r.returncode == 124 else "error"}
        if blocked: break
        if f.startswith("Props"):
            names = re.findall(r"Print Assumptions (\w+)\.", open(path).read())
            outs = re.findall(r"^(Closed under the global context|Axioms:)", r.stdout, re.M)
            for nm, o in zip(names, outs):
                if not o.startswith("Closed") and re.match(r"C\d\d_", nm): failed.append(nm)
            if failed and FAST: break
    shutil.rmtree(dir, ignore_errors=True)
    return {"id": m["id"], "broken": broken, "failed": failed, "blocked": blocked}

closure = users() if FIRST else None
def main():
    ms = json.load(open(sys.argv[1])); out = sys.argv[2]
    rest = sys.argv[3:]; j = 1
    if "-j" in rest: i = rest.index("-j"); j = int(rest[i + 1]); del rest[i:i + 2]
    done = set()
    if os.path.exists(out): done = {json.loads(l)["id"] for l in open(out)}
    ms = [m for m in ms if (not rest and m["id"] not in done) or m["id"] in rest]
    d = deps()
    def one(m):
        r = run(m, d)
        with open(out, "a") as fh: fh.write(json.dumps(r) + "\n")
        print(m["id"], r.get("error") or ("failed %d, broken %d%s" % (len(r["failed"]), len(r["broken"]), " BLOCKED" if r["blocked"] else "")), flush=True)
    with ThreadPoolExecutor(j) as ex: list(ex.map(one, ms))
main()
