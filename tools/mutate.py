#!/usr/bin/env python3
"""Apply seeded bugs to a scratch copy of the model and report which theorems notice.

usage: mutate.py MUTANTS.jsonl [--log LOG.jsonl] [--only ID]
Each line of MUTANTS.jsonl: {"id","file","definition","old","new","claim"}; file is relative to
rocq/theories.  For each mutant the edit is applied to a scratch copy outside /verif and the
files depending on it are rebuilt.  A proof that no longer checks is replaced by Admitted (in
the scratch copy only) and the build continues, so that every theorem that fails, directly or
through a lemma, is found.
"""
import json, os, re, subprocess, sys, shutil, argparse
ap = argparse.ArgumentParser()
ap.add_argument("mutants"); ap.add_argument("--log"); ap.add_argument("--only"); ap.add_argument("--scratch", default="/tmp/mutscratch")
ap.add_argument("--skip-done", action="store_true")
A = ap.parse_args()
SRC = os.environ.get("MUTBASE", "/tmp/mutbase/rocq")  # a built copy of /verif/rocq
START = re.compile(r"^\s*(?:Local\s+|Global\s+)?(Lemma|Theorem|Example|Corollary|Remark|Fact|Instance|Definition|Fixpoint|Program)\b\s*([A-Za-z_0-9']+)?")

def sync():
    os.makedirs(A.scratch, exist_ok=True)
    shutil.rmtree(A.scratch); subprocess.run(["cp", "-a", SRC, A.scratch], check=True)

def deps():
    out = subprocess.run(["coqdep", "-f", "_CoqProject"], cwd=A.scratch, capture_output=True, text=True).stdout
    d = {}
    for line in out.splitlines():
        if ":" not in line: continue
        l, r = line.split(":", 1)
        t = [x for x in l.split() if x.endswith(".vo")]
        if t: d[t[0][:-1]] = [x[:-1] for x in r.split() if x.endswith(".vo") and x.startswith("theories")]
    return d

def order(start, d):
    aff = {start}
    ch = True
    while ch:
        ch = False
        for f, ds in d.items():
            if f not in aff and any(x in aff for x in ds): aff.add(f); ch = True
    res = []
    def visit(f):
        if f in res: return
        for x in d.get(f, []):
            if x in aff: visit(x)
        res.append(f)
    for f in sorted(aff): visit(f)
    return res

def admit(path, lineno):
    """Replace the proof enclosing lineno; return the name or None."""
    ls = open(path).read().split("\n")
    i = lineno - 1
    while i >= 0 and not (START.match(ls[i]) and START.match(ls[i]).group(1) in ("Lemma","Theorem","Example","Corollary","Remark","Fact","Instance")): i -= 1
    if i < 0: return None
    m = START.match(ls[i]); name = m.group(2)
    text = "\n".join(ls[i:])
    mp = re.search(r"\bProof\b", text)
    mq = re.search(r"\b(Qed|Defined)\s*\.", text)
    if not mp or not mq or mq.start() < mp.start(): return None
    if lineno - 1 > i + text[:mq.end()].count("\n"): return None
    if lineno - 1 < i + text[:mp.start()].count("\n"): return None
    new = text[:mp.start()] + "Proof. Admitted." + "\n" * text[mp.start():mq.end()].count("\n") + text[mq.end():]
    open(path, "w").write("\n".join(ls[:i]) + ("\n" if i else "") + new)
    return (m.group(1) == "Example", name)

def coqc(f):
    try:
        r = subprocess.run(["coqc", "-Q", "theories", "Verif", f], cwd=A.scratch, capture_output=True, text=True, timeout=300)
        return r.returncode, r.stdout, r.stderr
    except subprocess.TimeoutExpired as e:
        return 99, (e.stdout or b"").decode() if isinstance(e.stdout, bytes) else (e.stdout or ""), "TIMEOUT"

def run(m):
    sync()
    path = os.path.join(A.scratch, "theories", m["file"])
    s = open(path).read()
    if s.count(m["old"]) != 1:
        return {"error": "old text found %d times" % s.count(m["old"])}
    open(path, "w").write(s.replace(m["old"], m["new"]))
    d = deps()
    direct, dependent, examples, broken = [], [], [], None
    for f in order("theories/" + m["file"], d):
        while True:
            rc, out, err = coqc(f)
            if rc == 0: break
            if rc == 99:
                broken = f + ": timeout"; break
            mm = re.search(r'File "([^"]+)", line (\d+)', err)
            if not mm or "Error" not in err:
                broken = f + ": " + err[-300:]; break
            name = admit(os.path.join(A.scratch, f), int(mm.group(2)))
            if name is None:
                broken = f + ":" + mm.group(2) + ": " + err.split("Error",1)[1][:200]; break
            (examples if name[0] else direct).append(name[1])
        if broken: break
        if f.endswith("Props.v"):
            # Print Assumptions output follows the theorems in order
            names = re.findall(r"^Print Assumptions ([A-Za-z_0-9']+)\.", open(os.path.join(A.scratch, f)).read(), re.M)
            chunks = re.split(r"(?m)^(?=Closed under the global context|Axioms:)", out)
            chunks = [c for c in chunks if c.startswith("Closed") or c.startswith("Axioms:")]
            for n, c in zip(names, chunks):
                if c.startswith("Axioms:") and n not in direct: dependent.append(n)
    thms = [n for n in direct if re.match(r"C\d\d+_", n)] + [n for n in dependent if n not in direct]
    return {"failed_theorems": thms, "failed_lemmas": [n for n in direct if not re.match(r"C\d\d+_", n)], "failed_examples": examples, "broken": broken}

done = set()
if A.log and A.skip_done and os.path.exists(A.log):
    done = {json.loads(l).get("id") for l in open(A.log) if l.strip()}
for line in open(A.mutants):
    if not line.strip(): continue
    m = json.loads(line)
    if A.only and m["id"] not in A.only.split(","): continue
    if m["id"] in done: continue
    r = run(m)
    print(m["id"], "SURVIVED" if not r.get("failed_theorems") and not r.get("failed_lemmas") and not r.get("broken") and not r.get("error") else "killed",
          json.dumps(r), flush=True)
    if A.log and not r.get("error"):
        rec = {"id": m["id"], "definition": m["definition"], "file": m["file"], "edit": {"old": m["old"], "new": m["new"]},
               "claim_broken": m["claim"], "theorems_failed": r["failed_theorems"], "lemmas_failed": r["failed_lemmas"],
               "examples_failed": r["failed_examples"],
               "theorems_tightened": m.get("tightened", [])}
        if r.get("broken"): rec["note"] = "a definition or statement no longer checks: " + r["broken"]
        open(A.log, "a").write(json.dumps(rec) + "\n")
