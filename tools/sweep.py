#!/usr/bin/env python3
"""Systematic mutation of the model: which small edits break no proof?

usage: sweep.py BUILT_TREE WORK_DIR OUT.jsonl [LIMIT] [SEED] [FILES]

BUILT_TREE is a built copy of rocq/ (outside the checked-in tree).  Every
mutant is one edit of one token of a model file.  The tree is rebuilt until the
first error; a mutant that breaks no proof is reported as a survivor and has to
be explained (equivalent, or a part of the model no theorem is about)."""
import sys, os, re, json, random, subprocess, time
SRC, WORK, OUT = sys.argv[1:4]
LIMIT = int(sys.argv[4]) if len(sys.argv) > 4 else 200
SEED = int(sys.argv[5]) if len(sys.argv) > 5 else 1
MODEL = sys.argv[6].split() if len(sys.argv) > 6 else "Str Keywords Token Lexer StmtIter Parser Api TokIter Blocks Eq Display Debug".split()
RULES = [
    (r"\btrue\b", ["false"]), (r"\bfalse\b", ["true"]),
    (r"&&", ["||"]), (r"\|\|", ["&&"]),
    (r"\bnegb\b", ["id"]),
    (r"<\?", ["<=?"]), (r"<=\?", ["<?"]), (r"=\?", ["<=?"]),
    (r"\bSome (\w+)\b(?! *=>)", ["None"]),
    (r"(?<=[\s(])([0-9]+)(?=[\s);])", ["(\\1 + 1)"]),
    (r"\+ 1\b", ["+ 0", "+ 2"]),
    (r"\bis_kw (\w+)", ["is_kw KTHXBYE"]),
    (r"\bnext\b", ["peek"]), (r"\bpeek\b", ["next"]),
    (r"\bret None\b", ["(_ <- next ;; ret None)"]),
    (r"\bMissingToken\b", ["UnexpectedToken"]), (r"\bUnexpectedToken\b", ["MissingToken"]),
    (r"\bfail \((\w+) (\w+)\)", ["fail (MissingToken \\2)"]),
    (r"(\w+) \+\+ (\w+)", ["\\2 ++ \\1", "\\1", "\\2"]),
    (r"\bfirst_token\b", ["t"]), (r"\bTKeyword (\w+)(?= =>)", ["TKeyword KTHXBYE"]),
    (r"\br_start\b", ["r_end"]), (r"\br_end\b", ["r_start"]),
    (r"\bfst\b", ["snd"]), (r"\bsnd\b", ["fst"]),
    (r"\bbytes\b", ["chars"]), (r"\bchars\b", ["bytes"]), (r"\bline\b", ["column"]), (r"\bcolumn\b", ["line"]),
    (r"\bhd_error\b", ["(fun l => nth_error l 1)"]), (r"\brev\b", ["id"]),
]

def code_mask(t):
    """True for characters outside comments."""
    m, d, i = [], 0, 0
    while i < len(t):
        if t.startswith("(*", i): d += 1; m += [False] * 2; i += 2; continue
        if t.startswith("*)", i) and d: d -= 1; m += [False] * 2; i += 2; continue
        m.append(d == 0); i += 1
    return m

def mutants():
    out = []
    for f in MODEL:
        t = open(f"{SRC}/theories/{f}.v").read()
        mask = code_mask(t)
        for pat, reps in RULES:
            for m in re.finditer(pat, t):
                if not mask[m.start()]: continue
                for r in reps:
                    new = m.expand(r)
                    if new == m.group(0): continue
                    a = t.rfind("\n", 0, m.start()) + 1
                    line = t.count("\n", 0, m.start()) + 1
                    if re.match(r"\s*(From|Local|Open|Require|Notation|Record|Inductive)", t[a:]): continue
                    out.append((f, line, m.start(), m.end(), m.group(0), new))
    return out

def sh(c, timeout=3600):
    try:
        p = subprocess.run(c, shell=True, stdout=subprocess.PIPE, stderr=subprocess.STDOUT, text=True, timeout=timeout, errors="replace")
        return p.returncode, p.stdout
    except subprocess.TimeoutExpired:
        return 124, "timeout"

done = set()
if os.path.exists(OUT):
    for l in open(OUT):
        d = json.loads(l); done.add((d["file"], d["line"], d["pos"], d["new"]))
ms = mutants()
random.Random(SEED).shuffle(ms)
print(len(ms), "mutants", flush=True)
for f, line, a, b, old, new in ms[:LIMIT]:
    if (f, line, a, new) in done: continue
    sh(f"rm -rf {WORK}; cp -a {SRC} {WORK}")
    p = f"{WORK}/theories/{f}.v"
    t = open(p).read()
    open(p, "w").write(t[:a] + new + t[b:])
    t0 = time.time()
    rc, out = sh(f"cd {WORK} && ulimit -v 5000000 && make -j1 2>&1")
    first = re.search(r'File "\./theories/(\w+)\.v", line (\d+)', out)
    st = "survived" if rc == 0 else "timeout" if rc == 124 else "killed"
    where = [first.group(1), int(first.group(2))] if first else None
    if st == "killed" and where and where[0] == f: st = "ill-typed"
    rec = {"file": f, "line": line, "pos": a, "old": old, "new": new, "text": t[t.rfind(chr(10), 0, a) + 1:t.find(chr(10), b)].strip(),
           "status": st, "where": where, "time": round(time.time() - t0)}
    open(OUT, "a").write(json.dumps(rec) + "\n")
    print(st, f, line, old, "->", new, where, rec["time"], flush=True)
