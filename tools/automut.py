#!/usr/bin/env python3
"""Generate small edits of the model mechanically and find those that no proof notices.

usage: automut.py --list OUT.jsonl [--per N] [--areas A,B]      generate mutants
       automut.py --run IN.jsonl --out RES.jsonl --scratch DIR  triage them: killed, example, SURVIVED or invalid
The base is the built copy of /verif/rocq named by MUTBASE.  Unlike mutate.py the run stops at the
first proof that fails; examples that fail are noted but do not count.
"""
import json, os, re, subprocess, sys, shutil, argparse, random, glob, hashlib
sys.path.insert(0, os.path.dirname(os.path.abspath(__file__)))
ap = argparse.ArgumentParser()
ap.add_argument("--list"); ap.add_argument("--run"); ap.add_argument("--out"); ap.add_argument("--scratch"); ap.add_argument("--per", type=int, default=4)
ap.add_argument("--areas"); ap.add_argument("--seed", type=int, default=1)
A = ap.parse_args()
SRC = os.environ["MUTBASE"]
OPS = [
    (r"<=\?", "<?"), (r"(?<![<=])<\?", "<=?"), (r"(?<![<=])=\?", "<=?"),
    (r"&&", "||"), (r"\|\|", "&&"), (r"negb ", ""),
    (r"\btrue\b", "false"), (r"\bfalse\b", "true"), (r"\bfirstn\b", "skipn"), (r"\bskipn\b", "firstn"),
    (r"\bexistsb\b", "forallb"), (r"\bforallb\b", "existsb"), (r"\bfst\b", "snd"), (r"\bsnd\b", "fst"),
    (r"(?<![\w.])S (?=[\w(])", ""), (r" \+ ", " - "), (r" - ", " + "), (r"(?<![\w\"'])0(?![\w\"'])", "1"), (r"(?<![\w\"'])1(?![\w\"'])", "2"),
    (r"(?<![\w\"'])2(?![\w\"'])", "1"), (r"(?<![\w\"'])3(?![\w\"'])", "2"), (r"\brev \(", "("), (r"\brev ", ""), (r"\bhd_error\b", "last_error"),
    (r'"([^"\n]+)"', None), (r"\bapp\b", "app"), (r"=> Some (\([^()]*\)|\w+)(?= \||$|\n| end)", "=> None"), (r"=> \[\](?= \||$|\n| end)", None),
]
IF = re.compile(r"\bif ((?:(?!\bthen\b|\bif\b|\bmatch\b).)+?) then ", re.S)
APPEND = re.compile(r" \+\+ (\[[^\[\]]*\]|\w+)(?=[ ).\n;])")
def definitions(src):
    clean = re.sub(r"\(\*.*?\*\)", lambda m: re.sub(r"[^\n]", " ", m.group(0)), src, flags=re.S)
    starts = [(m.start(), m.group(2)) for m in re.finditer(r"^\s*(Definition|Fixpoint|with)\s+([\w']+)", clean, re.M)]
    ends = [m.start() for m in re.finditer(r"^(?:\s*)(?:Definition|Fixpoint|with|Inductive|Record|Section|End|Lemma|Theorem|Example|Notation|Arguments|Variable|Variables|Variant|Ltac|Local|Hypothesis|Proof|Open|Import|From|Require|Coercion|Existing)\b", clean, re.M)] + [len(clean)]
    for s, n in starts:
        e = min(x for x in ends if x > s + 1)
        yield n, s, e, clean[s:e]
def mutants(f):
    src = open(os.path.join(SRC, "theories", f)).read()
    for n, s, e, body in definitions(src):
        k = body.find(":=")
        if k < 0: continue
        found = []
        def put(a, b, new): found.append((s + a, s + b, new))
        for pat, new in OPS:
            for m in re.finditer(pat, body, re.M):
                if m.start() < k: continue
                if new is None:
                    if pat.startswith('"'): put(m.start(), m.end(), '"' + m.group(1)[:-1] + '"' if len(m.group(1)) > 1 else '"~"')
                    continue
                if m.group(0) != new: put(m.start(), m.end(), new)
        for m in IF.finditer(body):
            if m.start() >= k: put(m.start(1), m.end(1), "negb (" + m.group(1) + ")")
        for m in APPEND.finditer(body):
            if m.start() >= k: put(m.start(), m.end(), "")
        yield n, src, found
def make():
    rnd = random.Random(A.seed); out = []
    files = sorted(glob.glob(os.path.join(SRC, "theories", "*", "*.v")))
    for p in files:
        f = os.path.relpath(p, os.path.join(SRC, "theories")); area, b = f.split("/")
        if A.areas and area not in A.areas.split(","): continue
        if not (b == "Model.v" or (area, b) in (("Versions", "Machine.v"),)): continue
        for n, src, found in mutants(f):
            rnd.shuffle(found)
            for a, b2, new in found[:A.per]:
                h = hashlib.md5((f + str(a) + new).encode()).hexdigest()[:8]
                # enlarge the context until it is unique
                l, r = a, b2
                while src.count(src[l:r]) != 1 or r - l < 40:
                    l = max(0, l - 5); r = min(len(src), r + 5)
                    if r - l > 2000: break
                out.append({"id": "A-%s-%s-%s" % (area, n, h), "file": f, "definition": n, "old": src[l:r], "new": src[l:a] + new + src[b2:r], "op": [src[a:b2], new]})
    open(A.list, "w").write("".join(json.dumps(x) + "\n" for x in out)); print(len(out))
START = re.compile(r"^\s*(?:Local\s+|Global\s+)?(Lemma|Theorem|Example|Corollary|Remark|Fact|Instance|Definition|Fixpoint|Inductive|Program)\b\s*([A-Za-z_0-9']+)?")
def enclosing(path, lineno):
    ls = open(path).read().split("\n"); i = lineno - 1
    while i >= 0 and not START.match(ls[i]): i -= 1
    if i < 0: return None, None, None
    m = START.match(ls[i]); return m.group(1), m.group(2), i
def admit(path, i):
    ls = open(path).read().split("\n"); text = "\n".join(ls[i:])
    mp = re.search(r"\bProof\b", text); mq = re.search(r"\b(Qed|Defined)\s*\.", text)
    if not mp or not mq: return False
    open(path, "w").write("\n".join(ls[:i]) + ("\n" if i else "") + text[:mp.start()] + "Proof. Admitted." + "\n" * text[mp.start():mq.end()].count("\n") + text[mq.end():]); return True
def work():
    if not os.path.isdir(A.scratch): subprocess.run(["cp", "-a", SRC, A.scratch], check=True)
    out = subprocess.run(["coqdep", "-f", "_CoqProject"], cwd=A.scratch, capture_output=True, text=True).stdout
    d = {}
    for line in out.splitlines():
        if ":" not in line: continue
        l, r = line.split(":", 1); t = [x for x in l.split() if x.endswith(".vo")]
        if t: d[t[0][:-1]] = [x[:-1] for x in r.split() if x.endswith(".vo") and x.startswith("theories")]
    done = {json.loads(l)["id"] for l in open(A.out)} if os.path.exists(A.out) else set()
    for line in open(A.run):
        m = json.loads(line)
        if m["id"] in done: continue
        start = "theories/" + m["file"]; aff = {start}; ch = True
        while ch:
            ch = False
            for f, ds in d.items():
                if f not in aff and any(x in aff for x in ds): aff.add(f); ch = True
        area = m["file"].split("/")[0]; res = []
        def visit(f):
            if f in res: return
            for x in d.get(f, []):
                if x in aff: visit(x)
            res.append(f)
        for f in sorted(aff, key=lambda f: (("/" + area + "/") not in f, f)): visit(f)
        touched = []; verdict = "SURVIVED"; where = ""; ex = []
        for f in res:
            touched.append(f); p = os.path.join(A.scratch, f)
            if f == start:
                s = open(p).read()
                if s.count(m["old"]) != 1: verdict = "invalid"; where = "not unique"; break
                open(p, "w").write(s.replace(m["old"], m["new"]))
            while True:
                try:
                    r = subprocess.run(["coqc", "-Q", "theories", "Verif", f], cwd=A.scratch, capture_output=True, text=True, timeout=200)
                    rc, err = r.returncode, r.stderr
                except subprocess.TimeoutExpired: rc, err = 99, "timeout"
                if rc == 0: break
                mm = re.search(r'File "([^"]+)", line (\d+)', err)
                if rc == 99 or not mm: verdict = "timeout" if rc == 99 else "broken"; where = f + err[-100:]; break
                k, n, i = enclosing(p, int(mm.group(2)))
                if k == "Example" and admit(p, i): ex.append(n); continue
                verdict = "invalid" if f == start and k in ("Definition", "Fixpoint", "Inductive", None) else "killed"; where = "%s %s" % (f, n); break
            if verdict != "SURVIVED": break
        if verdict == "SURVIVED" and ex: verdict = "example"
        for f in touched:
            for e in ("v", "vo", "vok", "vos", "glob"):
                a = os.path.join(SRC, f[:-1] + e); b = os.path.join(A.scratch, f[:-1] + e)
                if os.path.exists(a): shutil.copy2(a, b)
                elif os.path.exists(b): os.remove(b)
        m["verdict"] = verdict; m["where"] = where; m["examples"] = ex
        open(A.out, "a").write(json.dumps(m) + "\n")
if A.list: make()
if A.run: work()
