#!/usr/bin/env python3
"""Mutation tests of the theorems.

usage: mutate.py MUTANTS.json [NAME ...]      (run outside the checked-in tree)

For every mutant the built tree is copied to a scratch directory, the edit is
applied to the model, and every file that depends on it is compiled again.  A
proof that no longer goes through is replaced by Admitted and compilation goes
on, so at the end Print Assumptions tells for every theorem whether its proof
still stands.  The result is appended to the output file as one JSON line."""
import sys, os, re, json, subprocess, shutil, time
from concurrent.futures import ThreadPoolExecutor
SRC = os.environ.get("MUT_SRC", "/verif/rocq")
WORK = os.environ.get("MUT_WORK", "/tmp/mut/work")
OUT = os.environ.get("MUT_OUT", "/tmp/mut/results.jsonl")
LIMIT = int(os.environ.get("MUT_LIMIT", "400"))

def sh(cmd, cwd, timeout=None):
    p = subprocess.run(cmd, cwd=cwd, shell=True, stdout=subprocess.PIPE, stderr=subprocess.STDOUT,
                       text=True, timeout=timeout, errors="replace")
    return p.returncode, p.stdout

def files():
    return [l.strip()[len("theories/"):-2] for l in open(SRC + "/_CoqProject") if l.strip().endswith(".v")]

def deps(fs):
    d = {}
    for f in fs:
        t = open(f"{WORK}/theories/{f}.v").read()
        s = set()
        for m in re.finditer(r"From Verif Require\s+(?:Import\s+|Export\s+)?([\w\s]+)\.", t):
            s |= set(m.group(1).split())
        d[f] = s & set(fs)
    return d

START = re.compile(r"^\s*(?:Local\s+)?(?:Lemma|Theorem|Corollary|Example|Fact|Remark|Definition|Fixpoint|Instance|Inductive|Record|Ltac|Hint|Notation)\b\s*([\w']*)", re.M)

def patch(f, line, col):
    """Admit the proof that contains the position; returns the lemma name or None."""
    p = f"{WORK}/theories/{f}.v"
    t = open(p).read()
    lines = t.split("\n")
    pos = sum(len(l) + 1 for l in lines[:line - 1]) + col
    m = None
    for x in START.finditer(t):
        if x.start() <= pos: m = x
        else: break
    if m is None: return None
    q = re.compile(r"\bProof\b").search(t, m.start())
    e = re.compile(r"\b(?:Qed|Defined)\s*\.").search(t, max(pos, q.end() if q else pos)) if q else None
    if not q or not e or q.start() > pos: return None
    nxt = START.search(t, m.end())
    open(p, "w").write(t[:q.start()] + "Admitted." + t[e.end():])
    return m.group(1)

def compile_file(f, admitted):
    """Compile until it goes through; returns None or a fatal message."""
    while True:
        t0 = time.time()
        rc, out = sh(f"timeout {LIMIT} coqc -time -q -Q theories Verif theories/{f}.v", WORK)
        if rc == 0: return None
        if rc == 124:
            ch = re.findall(r"Chars (\d+) - (\d+) ", out)
            t = open(f"{WORK}/theories/{f}.v").read().encode()
            off = int(ch[-1][1]) + 2 if ch else 0
            pre = t[:off].decode(errors="ignore")
            line, col = pre.count("\n") + 1, len(pre) - pre.rfind("\n") - 1
            msg = "timeout"
        else:
            m = re.search(r'File "[^"]*", line (\d+), characters (\d+)-(\d+):\s*\nError', out)
            if not m: return out[-400:]
            line, col = int(m.group(1)), int(m.group(2))
            msg = out[m.end() - 5:][:300]
        name = patch(f, line, col)
        if name is None: return f"{f}:{line}: {msg}"
        admitted.append(f"{f}.{name}")

def run(mut):
    if os.path.exists(WORK): shutil.rmtree(WORK)
    shutil.copytree(SRC, WORK, copy_function=shutil.copy2)
    edits = mut.get("edits") or [dict(file=mut["file"], old=mut["old"], new=mut["new"])]
    dirty = set()
    for e in edits:
        p = f"{WORK}/theories/{e['file']}.v"
        t = open(p).read()
        if t.count(e["old"]) != 1: return dict(name=mut["name"], fatal=f"edit matches {t.count(e['old'])} times")
        open(p, "w").write(t.replace(e["old"], e["new"])); dirty.add(e["file"])
    fs = files(); dp = deps(fs)
    todo = []
    n = -1
    while n != len(dirty):
        n = len(dirty)
        dirty |= {f for f in fs if dp[f] & dirty}
    todo = [f for f in fs if f in dirty]
    for f in todo:
        for x in (".vo", ".vok", ".vos", ".glob"):
            try: os.remove(f"{WORK}/theories/{f}{x}")
            except FileNotFoundError: pass
    admitted, fatal, done, running = [], {}, set(fs) - set(todo), {}
    with ThreadPoolExecutor(int(os.environ.get("MUT_JOBS", "3"))) as ex:
        while True:
            for f in todo:
                if f in done or f in running or f in fatal: continue
                if dp[f] & set(fatal): fatal[f] = "depends on a file that failed"; continue
                if dp[f] <= done: running[f] = ex.submit(compile_file, f, admitted)
            if not running: break
            for f in list(running):
                if running[f].done():
                    r = running.pop(f).result()
                    if r is None: done.add(f)
                    else: fatal[f] = r
            time.sleep(0.2)
    # taint
    props = [f for f in fs if f.startswith("Prop") and f in done and f in dirty]
    def taint(f):
        names = re.findall(r"(?m)^(?:Theorem|Example) (C\d\d_\w+)", open(f"{WORK}/theories/{f}.v").read())
        open(f"{WORK}/Taint{f}.v", "w").write(f"From Verif Require {f}.\n" + "".join(
            f'Goal True. idtac "@@{f}.{n}". Abort.\nPrint Assumptions {f}.{n}.\n' for n in names))
        return sh(f"coqc -q -Q theories Verif Taint{f}.v", WORK)[1]
    with ThreadPoolExecutor(int(os.environ.get("MUT_JOBS", "3"))) as ex:
        out = "".join(ex.map(taint, props))
    short = {a.split(".")[1] for a in admitted}
    failed, ok = [], []
    for chunk in out.split("@@")[1:]:
        n, rest = chunk.split("\n", 1)
        ax = set(x.split(".")[-1] for x in re.findall(r"(?m)^([\w.']+)\s*:", rest) if x != "Axioms")
        n = n.split(".")[1]
        (failed if (ax & short) or n in short else ok).append(n)
    return dict(name=mut["name"], edits=edits, claim=mut.get("claim", ""), expect=mut.get("expect", []),
                admitted=admitted, fatal=fatal, failed=failed, still_proved=ok)

if __name__ == "__main__":
    muts = json.load(open(sys.argv[1]))
    sel = sys.argv[2:]
    os.makedirs(os.path.dirname(OUT), exist_ok=True)
    for m in muts:
        if sel and m["name"] not in sel: continue
        t0 = time.time()
        r = run(m); r["seconds"] = round(time.time() - t0)
        open(OUT, "a").write(json.dumps(r) + "\n")
        if "failed" in r:
            miss = [c for c in r["expect"] if not any(x.startswith(c + "_") and "case" not in x for x in r["failed"])]
            print(m["name"], r["seconds"], "s; failed theorems:",
                  sorted({x[:3] for x in r["failed"] if "_case" not in x}), "missed:", miss,
                  "fatal:", {k: v for k, v in r["fatal"].items() if not v.startswith("depends")}, flush=True)
        else: print(m["name"], r, flush=True)
