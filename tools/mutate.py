#!/usr/bin/env python3
"""Mutation testing of the theorems. Usage: mutate.py spec.json [jobs]

spec.json: a list of {"id", "file", "old", "new", "definition", "edit", "claim"}. For each entry the
theories are copied to a scratch directory, the edit is made, and everything that depends on the file is
rebuilt. A proof that fails is replaced by an appeal to a scratch axiom mutant_hole and the build goes on;
in the end a theorem counts as failed if Print Assumptions shows that it depends on the axiom. The result
is written to <scratch>/<id>.json. With QUICK=1 the files with the cheapest theorems are built first, and
the build stops after the first file in which a theorem failed.""" 
import json, os, re, subprocess, sys, shutil
from concurrent.futures import ThreadPoolExecutor
SRC = os.environ.get("MUTSRC", "/verif/rocq")
QUICK = os.environ.get("QUICK") == "1"
SCR = os.environ.get("MUTSCR", "/tmp/mut")
START = re.compile(r"^(?:Local |Global |#\[[^\]]*\]\s*)?(Lemma|Theorem|Corollary|Example|Remark|Fact|Definition|Fixpoint|Inductive|Record|Notation|Section|End|Context|Hypothesis|Variable|From|Print|Instance|Ltac|Tactic)\b\s*([\w']*)", re.M)

def run(cmd, cwd, timeout=3000):
    p = subprocess.run(cmd, cwd=cwd, shell=True, stdout=subprocess.PIPE, stderr=subprocess.STDOUT, timeout=timeout)
    return p.stdout.decode("latin-1")

def deps():
    out = run("coqdep -Q theories Verif theories/*.v", SRC)
    d = {}
    for l in out.splitlines():
        m = re.match(r"theories/(\w+)\.vo .*?: (.*)", l)
        if m:
            d[m.group(1)] = set(re.findall(r"theories/(\w+)\.vo", m.group(2))) - {m.group(1)}
    return d

def dependents(d, f):
    s = {f}
    while True:
        n = {x for x in d if d[x] & s} - s
        if not n: return s
        s |= n

def using():
    """For every lemma proved in a section, the section variables it uses."""
    cache = os.path.join(SCR, "using.json")
    stamp = max(os.path.getmtime(os.path.join(SRC, "theories", f)) for f in os.listdir(SRC + "/theories") if f.endswith(".v"))
    if os.path.exists(cache) and os.path.getmtime(cache) > stamp: return json.load(open(cache))
    w = os.path.join(SCR, "using")
    shutil.rmtree(w, ignore_errors=True); shutil.copytree(SRC, w); os.makedirs(w + "/out")
    res = {}
    def one(f):
        p = os.path.join(w, "theories", f + ".v")
        s = open(p, encoding="latin-1").read()
        open(p, "w", encoding="latin-1").write("Set Suggest Proof Using. " + s)
        out = run(f"coqc -Q theories Verif -o {w}/out/{f}.vo theories/{f}.v", w)
        r = {}
        for m in re.finditer(r"The proof of (\w[\w']*)\s+should start with one of the following commands:\s+Proof using([^.]*)\.", out):
            r[m.group(1)] = " ".join(m.group(2).split())
        res[f] = r
    with ThreadPoolExecutor(4) as ex: list(ex.map(one, [f[:-2] for f in os.listdir(w + "/theories") if f.endswith(".v")]))
    json.dump(res, open(cache, "w"))
    return res

def patch(path, line, col, us):
    """Replace the proof around the given position; returns the name, or None."""
    s = open(path, encoding="latin-1").read()
    pos = 0
    for _ in range(line - 1): pos = s.index("\n", pos) + 1
    pos += col
    last = None
    for m in START.finditer(s):
        if m.start() > pos: break
        last = m
    if last is None or last.group(1) not in ("Lemma", "Theorem", "Corollary", "Example", "Remark", "Fact"): return None, last and last.group(0)
    a = re.compile(r"\bProof\b[^.]*\.").search(s, last.start())
    if a is None or a.start() > pos: return None, last.group(0)
    b = re.compile(r"\b(Qed|Defined)\.").search(s, a.end())
    u = us.get(last.group(2))
    body = s[a.end():b.start()]
    new = f"Proof{'' if u is None else ' using ' + (u or 'Type')}. apply mutant_hole."
    new += " " * 1 + "\n" * body.count("\n")
    s = s[:a.start()] + new + " Qed." + s[b.end():]
    open(path, "w", encoding="latin-1").write(s)
    return last.group(2), None

def one(spec, d, us):
    ident = spec["id"]
    w = os.path.join(SCR, ident)
    shutil.rmtree(w, ignore_errors=True)
    subprocess.run(["cp", "-a", SRC, w])
    f = spec["file"]
    aff = dependents(d, f)
    p = f"{w}/theories/{f}.v"
    s = open(p, encoding="latin-1").read()
    old, new = spec["old"], spec["new"]
    if s.count(old) != 1: return dict(id=ident, error=f"{s.count(old)} occurrences of the text to edit")
    open(p, "w", encoding="latin-1").write(s.replace(old, new))
    # the axiom, in a file of its own so that nothing else needs rebuilding
    open(f"{w}/theories/Hole.v", "w").write("Axiom mutant_hole : forall P : Prop, P.\n")
    run("coqc -Q theories Verif theories/Hole.v", w)
    for x in aff:
        q = f"{w}/theories/{x}.v"
        t = open(q, encoding="latin-1").read()
        open(q, "w", encoding="latin-1").write("From Verif Require Import Hole. Set Default Timeout 100. " + t)
    failed, order = [], []
    todo, done = [], set()
    while len(done) < len(aff):
        progress = False
        for x in sorted(aff - done):
            if (d[x] & aff) <= done: todo.append(x); done.add(x); progress = True
        assert progress
    if QUICK: todo = cheapest_first(d, aff, todo)
    built = []
    for x in todo:
        built.append(x)
        while True:
            try: out = run(f"timeout 1500 coqc -Q theories Verif theories/{x}.v", w)
            except subprocess.TimeoutExpired: return dict(id=ident, error=f"timeout in {x}", failed=failed)
            m = None
            for m in re.finditer(r'File "[^"]*", line (\d+), characters (\d+)-(\d+):\n(Error|Timeout)', out): break
            if m is None:
                if not os.path.exists(f"{w}/theories/{x}.vo") or "rror" in out: return dict(id=ident, error=f"{x}: {out[-500:]}", failed=failed)
                break
            name, why = patch(f"{w}/theories/{x}.v", int(m.group(1)), int(m.group(2)), us.get(x, {}))
            if name is None: return dict(id=ident, error=f"{x}: not a proof: {why}: {out[m.start():][:400]}", failed=failed)
            if f"{x}.{name}" in failed: return dict(id=ident, error=f"{x}.{name} again: {out[m.start():][:400]}", failed=failed)
            failed.append(f"{x}.{name}")
        if QUICK and report(w, [x])[0]: break
    todo = built
    lost, kept = report(w, todo)
    subprocess.run(["rm", "-rf", w])
    return dict(id=ident, failed_proofs=failed, theorems_failed=lost, theorems_kept=kept)

def cheapest_first(d, aff, todo):
    times = json.load(open(os.path.join(SRC, "..", "times.json")))
    def closure(x):
        s, n = set(), {x}
        while n: s |= n; n = {y for z in n for y in d[z] & aff} - s
        return s
    order = []
    while True:
        props = [x for x in todo if x not in order and has_theorems(x)]
        if not props: return order
        x = min(props, key=lambda x: sum(times.get(y, 1) for y in closure(x) - set(order)))
        order += [y for y in todo if y in closure(x) and y not in order]

def has_theorems(x): return re.search(r"^(?:Theorem|Corollary) (C\d\d_\w+)", open(f"{SRC}/theories/{x}.v", encoding="latin-1").read(), re.M)

def report(w, todo):
    thms = []
    for x in todo:
        for m in re.finditer(r"^(?:Theorem|Corollary) (C\d\d_\w+)", open(f"{SRC}/theories/{x}.v", encoding="latin-1").read(), re.M): thms.append((x, m.group(1)))
    lost, kept = [], []
    if thms:
        open(f"{w}/theories/Report.v", "w").write("".join(f"From Verif Require {x}.\n" for x in todo) +
            "".join(f'Goal True. idtac "@@ {t}". exact I. Qed.\nPrint Assumptions {x}.{t}.\n' for x, t in thms))
        out = run("coqc -Q theories Verif theories/Report.v", w)
        parts = re.split(r"@@ (\w+)", out)
        for i in range(1, len(parts), 2): (lost if "mutant_hole" in parts[i + 1] else kept).append(parts[i])
    return lost, kept

def main():
    os.makedirs(SCR, exist_ok=True)
    specs = json.load(open(sys.argv[1]))
    jobs = int(sys.argv[2]) if len(sys.argv) > 2 else 4
    d, us = deps(), using()
    def go(sp):
        try: r = one(sp, d, us)
        except Exception as e: r = dict(id=sp["id"], error=repr(e))
        r.update({k: sp[k] for k in ("file", "definition", "edit", "claim") if k in sp})
        json.dump(r, open(os.path.join(SCR, sp["id"] + ".json"), "w"), indent=1)
        print(sp["id"], r.get("error") or f"failed: {r['theorems_failed'][:8]}", flush=True)
    with ThreadPoolExecutor(jobs) as ex: list(ex.map(go, specs))
main()
