#!/usr/bin/env python3
"""Seeded-bug testing, in a scratch copy outside /verif.

prepare   copy the theories to SCRATCH/base, add 'Proof using' everywhere (so that proofs can be
          checked one by one), and record which lemma uses which
run FILE  for every mutant in FILE (a python list of dicts: file, old, new, claim, note): edit the
          definition, check all proofs, replace broken ones by Admitted and go on, and report
          the broken lemmas and the theorems of MANIFEST.json that rest on them.
"""
import json, os, re, shutil, subprocess, sys, concurrent.futures as cf, time
SCRATCH = os.environ.get("SCRATCH", "/tmp/seed")
BASE = SCRATCH + "/base"
SRC = "/verif/rocq/theories"

def deps(d):
    out = subprocess.run("coqdep -Q . Verif *.v", shell=True, cwd=d, capture_output=True, text=True).stdout
    r = {}
    for l in out.splitlines():
        m = re.match(r"(\w+)\.vo .*?: \1\.v(.*)$", l)
        if m:
            r[m.group(1)] = [x[:-3] for x in m.group(2).split() if x.endswith(".vo")]
    return r

def order(dep):
    res, seen = [], set()
    def go(f):
        if f in seen: return
        seen.add(f)
        for g in dep[f]: go(g)
        res.append(f)
    for f in dep: go(f)
    return res

def coqc(d, f, *args, timeout=300):
    try:
        p = subprocess.run(["coqc", "-w", "none", "-Q", ".", "Verif", *args, f + ".v"], cwd=d, capture_output=True, text=True, timeout=timeout)
        return p.returncode, p.stdout + p.stderr
    except subprocess.TimeoutExpired:
        return 99, "timeout"

def parallel(dep, files, job):
    """run job(f) for all files, respecting dependencies among them"""
    done, res, files = set(), {}, list(files)
    todo = set(files)
    with cf.ThreadPoolExecutor(4) as ex:
        running = {}
        while todo or running:
            for f in [f for f in files if f in todo and all(g in done or g not in files for g in dep[f])]:
                todo.discard(f); running[ex.submit(job, f)] = f
            if not running: break
            ok, _ = cf.wait(running, return_when=cf.FIRST_COMPLETED)
            for x in ok:
                f = running.pop(x); res[f] = x.result(); done.add(f)
    return res

STMT = re.compile(r"^\s*(?:Local\s+|Global\s+)?(?:Lemma|Theorem|Corollary|Example|Remark|Fact)\s+([\w']+)", re.M)

def blank_comments(s):
    out, i, depth = [], 0, 0
    instr = False
    while i < len(s):
        if depth == 0 and s[i] == '"': instr = not instr
        if not instr and s.startswith("(*", i): depth += 1; out.append("  "); i += 2; continue
        if not instr and depth and s.startswith("*)", i): depth -= 1; out.append("  "); i += 2; continue
        out.append(s[i] if depth == 0 or s[i] == "\n" else " "); i += 1
    return "".join(out)

def proofs(s):
    """[(name, start of statement, start of 'Proof', end after Qed.)]"""
    b = blank_comments(s); res = []
    for m in STMT.finditer(b):
        p = re.compile(r"\bProof\b").search(b, m.end())
        q = re.compile(r"\b(Qed|Defined|Admitted|Abort)\s*\.").search(b, p.end()) if p else None
        if p and q: res.append((m.group(1), m.start(), p.start(), q.end(), q.group(1)))
    return res

def prepare():
    shutil.rmtree(BASE, ignore_errors=True); os.makedirs(BASE)
    for f in os.listdir(SRC):
        if f.endswith(".v"): shutil.copy(f"{SRC}/{f}", BASE)
    dep = deps(BASE)
    def job(f):
        rc, out = coqc(BASE, f, "-set", "Suggest Proof Using", timeout=900)
        return rc, out
    res = parallel(dep, order(dep), job)
    for f, (rc, out) in res.items():
        assert rc == 0, (f, out[-500:])
        s = open(f"{BASE}/{f}.v").read()
        sug = {}
        for m in re.finditer(r"The proof of ([\w']+)\s+should start with one of the following commands:\s*Proof using([^.]*)\.", out):
            sug.setdefault(m.group(1), " ".join(m.group(2).split()))
        for name, a, p, q, kind in reversed(proofs(s)):
            if name in sug:
                u = sug[name] or "Type"
                seg = s[p:q]
                seg = re.sub(r"^Proof(\s*using[^.]*)?\.", f"Proof using {u}.", seg, count=1)
                seg = re.sub(r"^Proof\s+(?!using)(?=\S)", f"Proof using {u}. exact ", seg, count=1) if not seg.startswith("Proof using") else seg
                s = s[:p] + seg + s[q:]
        open(f"{BASE}/{f}.v", "w").write(s)
    # the uses of lemmas, from the glob files
    graph, where = {}, {}
    for f in dep:
        cur = None
        txt = open(f"{BASE}/{f}.v").read()
        pr = None
        src = open(f"{SRC}/{f}.v").read().encode()
        spans = []
        dec = src.decode()
        for name, a, p, q, kind in proofs(dec):
            spans.append((len(dec[:a].encode()), len(dec[:q].encode()), name))
        for l in open(f"{BASE}/{f}.glob"):
            m = re.match(r"R(\d+):(\d+) (\S+) (\S+) (\S+) (\S+)", l)
            if not m: continue
            pos, lib, sect, name, kind = int(m.group(1)), m.group(3), m.group(4), m.group(5), m.group(6)
            if not lib.startswith("Verif."): continue
            for a, q, n in spans:
                if a <= pos < q:
                    graph.setdefault(f + "." + n, set()).add(lib[6:] + "." + name.split(".")[-1]); break
        for a, q, n in spans: where.setdefault(n, []).append(f)
    json.dump({"graph": {k: sorted(v) for k, v in graph.items()}, "dep": dep}, open(SCRATCH + "/graph.json", "w"))
    for g in os.listdir(BASE):
        if not g.endswith(".v"): os.remove(f"{BASE}/{g}")
    # check the annotated copy
    d = SCRATCH + "/check"; shutil.rmtree(d, ignore_errors=True); shutil.copytree(BASE, d)
    t = time.time()
    r = check(d, dep, limit=1)
    print("broken in the annotated copy:", r, round(time.time() - t))

def admit(d, f, out):
    """replace the proof in which the error lies; its name, or None"""
    m = re.search(r'line (\d+), characters', out)
    if out == "timeout" or not m: return None
    s = open(f"{d}/{f}.v").read()
    line = int(m.group(1)); pos = 0
    ls = s.split("\n")
    pos = sum(len(x) + 1 for x in ls[:line - 1])
    mm = re.search(r'line (\d+), characters (\d+)-', out)
    pos += min(int(mm.group(2)), len(ls[line-1]))
    for name, a, p, q, kind in proofs(s):
        if a <= pos < q and kind in ("Qed", "Defined"):
            seg = s[p:q]
            u = re.match(r"Proof using[^.]*\.", seg)
            new = (u.group(0) if u else "Proof.") + " Admitted."
            s = s[:p] + new + s[q:]
            open(f"{d}/{f}.v", "w").write(s); return name
    return None

def check(d, dep, limit=40, per=400):
    broken, hard = [], []
    def vos(f):
        for _ in range(limit):
            rc, out = coqc(d, f, "-vos", timeout=per)
            if rc == 0: return
            n = admit(d, f, out)
            if n is None: hard.append((f, out[-400:])); return
            broken.append(f + "." + n)
    parallel(dep, order(dep), vos)
    def vok(f):
        for _ in range(limit):
            rc, out = coqc(d, f, "-vok", timeout=per)
            if rc == 0: return
            n = admit(d, f, out)
            if n is None: hard.append((f, out[-400:])); return
            broken.append(f + "." + n)
        hard.append((f, "more than %d broken proofs" % limit))
    if not hard:
        with cf.ThreadPoolExecutor(4) as ex: list(ex.map(vok, order(dep)))
    return {"broken": broken, "hard": hard}

def run(path):
    g = json.load(open(SCRATCH + "/graph.json")); dep, graph = g["dep"], g["graph"]
    man = json.load(open("/verif/MANIFEST.json"))
    thms = {t: c["property"] for c in man["claims"] for t in c["theorems"]}
    muts = eval(open(path).read())
    outp = path + ".out"
    for i, m in enumerate(muts):
        d = SCRATCH + "/mut"; shutil.rmtree(d, ignore_errors=True); shutil.copytree(BASE, d)
        fn = f"{d}/{m['file']}.v"; s = open(fn).read()
        if s.count(m["old"]) != 1:
            rec = dict(m, error="old text occurs %d times" % s.count(m["old"]))
        else:
            open(fn, "w").write(s.replace(m["old"], m["new"]))
            t = time.time(); r = check(d, dep, limit=m.get("limit", 25), per=m.get("per", 240))
            bad = set(r["broken"])
            for f, _ in r["hard"]:
                if "more than" not in _: bad.add(f + ".*")
            seen = {}
            def hit(n):
                if n in seen: return seen[n]
                seen[n] = False
                seen[n] = n in bad or any(hit(k) for k in graph.get(n, []))
                return seen[n]
            sys.setrecursionlimit(100000)
            failed = sorted({n.split(".")[1] for n in graph if n.startswith("Prop") and n.split(".")[1] in thms and hit(n)})
            ex = sorted(n.split(".")[1] for n in bad if re.search(r"_example", n))
            rec = dict(m, broken=sorted(bad), hard=r["hard"], failed=failed, examples=ex, secs=round(time.time() - t))
        with open(outp, "a") as o: o.write(json.dumps(rec) + "\n")
        print(i, m["file"], m.get("note", ""), "->", len(rec.get("broken", [])), "broken;", rec.get("failed", rec.get("error")), "HARD" if rec.get("hard") else "", flush=True)

if __name__ == "__main__":
    if sys.argv[1] == "prepare": prepare()
    else: run(sys.argv[2])
