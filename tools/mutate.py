#!/usr/bin/env python3
"""Seeded-bug runs.  usage: mutate.py MUTANTS.json [SCRATCH]

Each mutant: {"definition", "file", "old", "new", "edit", "claim", "property"}.  The theories are copied to
a scratch directory, the edit is made there, and every file that depends on the edited one is
rebuilt.  A proof that fails is cut out in the scratch copy (only there), so that the run can go on
and tell, from Print Assumptions, which theorems rest on it."""
import json, os, re, shutil, subprocess, sys
LIVE = "/verif/rocq"
LOG = "/verif/seeded/LOG.jsonl"
scratch = sys.argv[2] if len(sys.argv) > 2 else "/tmp/mut"
SRC = scratch + ".src"
if os.path.exists(SRC):
    shutil.rmtree(SRC)
shutil.copytree(LIVE, SRC)

def sh(cmd, cwd, to=900):
    try:
        r = subprocess.run(cmd, cwd=cwd, shell=True, capture_output=True, text=True, timeout=to)
        return r.returncode, r.stdout + r.stderr
    except subprocess.TimeoutExpired:
        return 124, "timeout"

def order():
    return [l.strip() for l in open(SRC + "/_CoqProject") if l.strip().endswith(".v")]

def deps(files):
    d = {}
    for f in files:
        s = open(f"{scratch}/{f}").read()
        need = set()
        for m in re.finditer(r"From Verif Require (?:Import|Export) ([^.]*)\.", s):
            need |= {"theories/%s.v" % x for x in m.group(1).split()}
        d[f] = need
    return d

START = re.compile(r"^\s*(?:Local |Global |#\[[^]]*\] )?(Lemma|Theorem|Corollary|Example|Remark|Fact|Instance|Proposition)\s+([\w']+)", re.M)

def cut(path, line):
    """Replace the proof that contains the line with Admitted; return the name."""
    s = open(path).read()
    pos = sum(len(l) + 1 for l in s.split("\n")[:line - 1])
    eol = s.find("\n", pos)
    eol = len(s) if eol < 0 else eol
    best = None
    for m in START.finditer(s):
        if m.start() <= eol:
            best = m
        else:
            break
    if not best:
        return None
    # the statement ends at "Proof." or at the first ". " outside of the text before := / Proof
    m = re.search(r"\bProof\b", s[best.start():])
    e = re.search(r"\b(Qed|Defined)\.", s[best.start():])
    if not m or not e or e.start() < m.start():
        return None
    a, b = best.start() + m.start(), best.start() + e.end()
    if b < pos:
        return None
    new = s[a:b]
    s = s[:a] + "Admitted." + "\n" * new.count("\n") + s[b:]
    open(path, "w").write(s)
    return best.group(2)

def run(mu, pristine):
    if os.path.exists(scratch):
        shutil.rmtree(scratch)
    shutil.copytree(SRC, scratch)
    f = "theories/" + mu["file"]
    p = f"{scratch}/{f}"
    s = open(p).read()
    if s.count(mu["old"]) < 1:
        return {"error": "old text not found: " + mu["old"]}
    n = mu.get("nth", 0)
    parts = s.split(mu["old"])
    s = mu["old"].join(parts[:n + 1]) + mu["new"] + mu["old"].join(parts[n + 1:])
    open(p, "w").write(s)
    files = order()
    d = deps(files)
    dirty = {f}
    broken = []
    for g in files:
        if g == f or d[g] & dirty:
            dirty.add(g)
            for _ in range(80):
                rc, out = sh(f"timeout 600 coqc -Q theories Verif {g}", scratch)
                if rc == 0:
                    break
                m = re.search(r'File "[^"]*", line (\d+)', out)
                if not m:
                    return {"error": f"{g}: {out[-300:]}"}
                name = cut(f"{scratch}/{g}", int(m.group(1)))
                if not name:
                    return {"error": f"{g}:{m.group(1)}: {out[-300:]}"}
                broken.append(g[9:-2] + "." + name)
            else:
                return {"error": g + ": too many failures"}
    failed = []
    for g in files:
        if g in dirty and g.endswith("Props.v"):
            mod = g[9:-2]
            s = open(f"{SRC}/{g}").read()
            for t in re.findall(r"^(?:Theorem|Corollary)\s+(C\d\d_[\w']+)", s, re.M):
                open(f"{scratch}/q.v", "w").write(f"From Verif Require Import {mod}.\nPrint Assumptions {t}.\n")
                rc, out = sh("coqc -Q theories Verif q.v", scratch)
                base = pristine.get(t, set())
                ax = set(re.findall(r"^([\w.']+)\s*:", out, re.M)) 
                if ax & {b.split(".")[-1] for b in broken} or any(a.split(".")[-1] in {b.split(".")[-1] for b in broken} for a in ax):
                    failed.append(t)
                elif mod + "." + t in broken:
                    failed.append(t)
    return {"broken": broken, "failed": failed}

for mu in json.load(open(sys.argv[1])):
    r = run(mu, {})
    if "error" in r:
        print("ERROR", mu["definition"], r["error"], flush=True)
        continue
    print(mu["definition"], "|", mu["edit"], "|", r, flush=True)
    hit = [t for t in r["failed"] if not mu.get("property") or t.startswith(mu["property"])]
    if not r["failed"]:
        print("   *** SURVIVED", flush=True)
    with open(LOG if r["failed"] else "/tmp/survived.jsonl", "a") as h:
        h.write(json.dumps({"definition": mu["file"][:-2] + "." + mu["definition"], "edit": mu["edit"], "claim": mu["claim"],
                            "theorems_failed": r["failed"], "lemmas_failed": r["broken"], "theorems_tightened": mu.get("tightened", [])}) + "\n")
