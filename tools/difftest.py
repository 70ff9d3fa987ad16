#!/usr/bin/env python3
"""Looks for a program on which a mutant of the model behaves differently.

usage: difftest.py MUTANTS.json OUT.json [NAME ...]

Only the model files are compiled, with and without the edit, and what they
compute for a fixed list of programs is compared.  A theorem may stop being
proved only because its proof follows the old text; a program with a different
result shows that the mutant really is a different program.  C01 and C51
determine the result of the lexer and of the parser completely, so they are
false of a mutant whose tokens or AST differ.  These are tests, not proofs."""
import sys, os, re, json, subprocess, shutil
from concurrent.futures import ThreadPoolExecutor
ROOT = os.path.join(os.path.dirname(os.path.abspath(__file__)), "..")
WORK = "/tmp/mut/diff"
FILES = "Str Keywords Token Lexer StmtIter Ast Parser Api TokIter Blocks Eq Display".split()

PROGRAMS = r"""
VISIBLE 1
VISIBLE "a" x 2 !
VISIBLE SUM OF 1 AN 2
VISIBLE SUM OF 1 2
VISIBLE SUM OF 1 3 2
VISIBLE SUM OF 1
VISIBLE SUM OF
DIFF OF 1 AN x
BOTH OF WIN AN FAIL
NOT x
NOT
ALL OF 1 AN 2 3 MKAY
ANY_OF 1 2
ALL OF 1 AN
SMOOSH "a" AN "b" MKAY MKAY
SMOOSH
VISIBLE SRS x
VISIBLE SRS 1
VISIBLE SRS
VISIBLE x'Z y'Z SRS z
VISIBLE x'Z
VISIBLE x'Z 1
VISIBLE
x R 1
x R
x
x'Z y R 1
x HAS A y ITZ 1
x HAS A y
x HAS A y ITZ
x HAS A 1
MAEK x
I HAS A x
I HAS A x ITZ 1
I HAS A x ITZ BUKKIT
I HAS A x ITZ NUMBR
I HAS A x ITZ NUMBAR
I HAS A x ITZ TROOF
I HAS A x ITZ YARN
I HAS A x ITZ NOOB
I HAS A x ITZ
I HAS A x 1
I HAS A 1
I HAS A
GIMMEH x
GIMMEH
GIMMEH 1
GIMMEH x y
GTFO
GTFO x
FOUND YR 1
FOUND YR
FOUND YR MKAY
KTHXBYE
KTHXBYE x
I IZ f MKAY
I IZ f YR 1 MKAY
I IZ f YR 1 AN YR 2 MKAY
I IZ f YR 1 YR 2 MKAY
I IZ f YR 1 AN 2 MKAY
I IZ f YR 1
I IZ f
I IZ 1
I IZ
I IZ f YR MKAY
I IZ f 1
HAI 1.2~VISIBLE x
HAI 1.2~...~,~VISIBLE x
HAI~~~VISIBLE x
HAI 1 2 3~VISIBLE x~VISIBLE y
IM IN YR a~VISIBLE 1~IM OUTTA YR a
IM IN YR a~VISIBLE 1~IM OUTTA YR b
IM IN YR a UPPIN YR x TIL x~VISIBLE x~VISIBLE y~IM OUTTA YR a
IM IN YR a NERFIN YR x WILE x~VISIBLE x~IM OUTTA YR a
IM IN YR a UPPIN YR x~IM OUTTA YR a
IM IN YR a UPPIN YR 1~IM OUTTA YR a
IM IN YR a UPPIN x~IM OUTTA YR a
IM IN YR a UPPIN~IM OUTTA YR a
IM IN YR a TIL x~GTFO~IM OUTTA YR a
IM IN YR a TIL~GTFO~IM OUTTA YR a
IM IN YR a 1~GTFO~IM OUTTA YR a
IM IN YR a UPPIN YR x TIL x 1~GTFO~IM OUTTA YR a
IM IN YR 1~GTFO~IM OUTTA YR a
IM IN YR GTFO~GTFO~IM OUTTA YR a
IM IN YR~GTFO~IM OUTTA YR a
IM IN YR a~GTFO
IM IN YR a~GTFO~IM OUTTA YR
IM IN YR a~GTFO~IM OUTTA YR 1
IM IN YR a~GTFO x~IM OUTTA YR a b
IM IN YR a~OIC~IM OUTTA YR a
HOW IZ I f~FOUND YR 1~IF U SAY SO
HOW IZ I f~...~,~FOUND YR 1~IF U SAY SO
HOW IZ I f YR x~...~,~FOUND YR 1~IF U SAY SO
HOW IZ I f YR x AN YR y~...~,~FOUND YR 1~VISIBLE y~IF U SAY SO
HOW IZ I f YR x YR y~...~,~FOUND YR 1~IF U SAY SO
HOW IZ I f YR x AN y~...~,~FOUND YR 1~IF U SAY SO
HOW IZ I f YR 1~...~,~FOUND YR 1~IF U SAY SO
HOW IZ I f x~...~,~FOUND YR 1~IF U SAY SO
HOW IZ I 1~...~,~FOUND YR 1~IF U SAY SO
HOW IZ I~...~,~FOUND YR 1~IF U SAY SO
HOW IZ I f~...~,~FOUND YR 1
HOW IZ I f~...~,~FOUND YR 1~IF U SAY SO x
WTF~OMG 1~GTFO~OIC
WTF?~OMG 1 2~OIC
WTF?~OMG 1~GTFO~OIC
WTF ?~...~,~OMG 1~GTFO~OIC
WTF?~...~,~OMG 1~GTFO~OMG 2~VISIBLE 2~OMGWTF~VISIBLE 3~OIC
WTF?~...~,~OMG 1~GTFO~OMGWTF~OIC~VISIBLE 5
WTF?~...~,~OMG~GTFO~OIC
WTF?~...~,~OMG 1 2~GTFO~OIC
WTF?~...~,~OMG 1~GTFO
WTF?~...~,~OMG 1~GTFO~OMGWTF~VISIBLE 1
WTF?~...~,~OMGWTF x~VISIBLE 1~OIC
WTF?~...~,~VISIBLE 1~OIC
WTF?~...~,~OMG 1~MEBBE~OIC
O RLY?~YA RLY~VISIBLE 1~OIC
O RLY?~YA RLY~VISIBLE 1~NO WAI~VISIBLE 2~OIC
O RLY?~YA RLY~VISIBLE 1~MEBBE x~VISIBLE 3~MEBBE y~GTFO~NO WAI~VISIBLE 2~OIC
O RLY?~NO WAI~VISIBLE 2~OIC
O RLY?~MEBBE~VISIBLE 2~OIC
O RLY?~MEBBE 1 2~VISIBLE 2~OIC
O RLY?~VISIBLE 2~OIC
O RLY?~YA RLY~VISIBLE 2
O RLY?~YA RLY~VISIBLE 2~NO WAI~VISIBLE 2
O RLY?~YA RLY~VISIBLE 2~NO WAI~VISIBLE 2~OMG
O RLY?~YA RLY~VISIBLE 2~OMG 1
O RLY?~YA RLY x~VISIBLE 2~OIC
O RLY?~YA RLY~GTFO~MEBBE x~VISIBLE 1~OIC~GTFO
O RLY~YA RLY~VISIBLE 1~OIC
O RLY 1~YA RLY~VISIBLE 1~OIC
O RLY? x~YA RLY~VISIBLE 1~OIC
O RLY?~OIC
O RLY?~OIC x
O RLY
OIC
MEBBE
IF U SAY SO
AN
1
"abc"
VISIBLE 1,VISIBLE 2
VISIBLE 1,,VISIBLE 2
,VISIBLE 1
VISIBLE 1,~VISIBLE 2
VISIBLE 1 ...~2
VISIBLE 1 ...~...~2~VISIBLE 3
VISIBLE 1...~,VISIBLE 2
VISIBLE ... 1
VISIBLE 1~~VISIBLE 2
VISIBLE 1 2 3~x
VISIBLE 1~NOT~VISIBLE 2~GTFO
GTFO 1 GTFO 2~VISIBLE 2
VISIBLE 1 BTW hello~VISIBLE 2
BTW hello
OBTW a~b TLDR~VISIBLE 2
OBTW a~b
x OBTW a TLDR VISIBLE 1
VISIBLE "a:"b" "c
VISIBLE "a::"b"
VISIBLE "é" x
VISIBLE "é"
VISIBLE "éé" "x"
VISIBLE é
VISIBLE …~2
…
VISIBLE 1.5
VISIBLE -1.5
VISIBLE -0.0
VISIBLE 16777217.0
VISIBLE 0.1 0.05 12.345
VISIBLE 1.2.3
VISIBLE 1-2
VISIBLE +5 -5 9 90 1990
VISIBLE 2147483647 -2147483648
VISIBLE 2147483648
VISIBLE -2147483649
VISIBLE 123456789012
VISIBLE .5 5. -. .
VISIBLE -
	VISIBLE	x
VISIBLEx
VISIBLE OMGx
OMGWTFx
NO WAIx
WON OF 1 AN 2
EITHER OF 1 AN 2
BIGGR OF 1 AN SMALLR OF 2 AN 3
PRODUKT OF 1 AN QUOSHUNT OF 2 AN MOD OF 3 AN 4
BOTH SAEM 1 AN DIFFRINT 2 AN 3
VISIBLE a_b _c Zz zA x9
VISIBLE NOOB
VISIBLE NOOB WIN FAIL
VISIBLE 'Z
VISIBLE 'z
VISIBLE ?
VISIBLE @
VISIBLE !
VISIBLE ! !
! !,
x R SUM OF x'Z y AN ALL OF 1 AN 2 AN MKAY
x'Z a'Z SRS b R 1
ALL OF SRS a AN x'Z SRS b AN NOT 1 MKAY
ALL OF 1 AN ANY_OF 2 AN MKAY MKAY
IM IN YR a~O RLY?~YA RLY~IM IN YR b~GTFO 1~IM OUTTA YR b~MEBBE 1~VISIBLE~OIC~IM OUTTA YR a~GTFO
"""

def programs():
    ps = []
    for l in PROGRAMS.strip("\n").split("\n"):
        s = l.replace("~", "\n")
        ps += [s + "\n", s]
        if "..." in s or l.startswith(("WTF", "HOW", "O RLY")):
            ps.append(s.replace("...\n,\n", "") + "\n")
            ps.append(s.replace("...\n,\n", "") + "\n...\n,\nVISIBLE 7\n")
    return ps

PROBE = r"""
From Verif Require Import Api TokIter Blocks.
Set Printing Depth 100000. Set Printing Width 200.
Definition toks (p : str) := tokenize p.
Definition asts (p : str) := match tokenize p with LexOk ts => Some (parse ts) | _ => None end.
Definition api (p : str) := match tokenize_and_parse p with ApiOk _ => 0 | ApiErr _ => 1 | ApiPanic => 2 | ApiFuel => 3 end.
Definition nodes (p : str) := match asts p with Some (ParseOk (ASTBlock ns)) => ns | _ => [] end.
Fixpoint drain {I} (nx : I -> option (option token * I)) (n : nat) (i : I) : list token :=
  match n with O => [] | S n' => match nx i with Some (Some t, i') => t :: drain nx n' i' | _ => [] end end.
Definition exprs (n : node) : list expr :=
  match n with NExpression e => [e] | NVisible v => visible_expressions v | NVariableAssignment a => [asg_expression a] | _ => [] end.
Definition iters (p : str) := flat_map (fun n => map (fun e => (drain (expr_next 60) 40 (expression_iter e), expr_range e)) (exprs n)) (nodes p).
Definition asgs (p : str) := flat_map (fun n => match n with NVariableAssignment a =>
  [(drain (assignment_next 60) 40 (variable_assignment_iter a), assignment_range a)] | _ => [] end) (nodes p).
Definition inners (p : str) := map get_inner_block (nodes p).
Definition orders (p : str) := match tokenize p with LexOk ts =>
  map (fun t => map (fun u => (position_eqb (r_start (tok_range t)) (r_start (tok_range u)),
     position_cmp (r_start (tok_range t)) (r_start (tok_range u)))) ts) ts | _ => [] end.
"""
PROBES = "toks asts api iters asgs inners orders".split()

def probe(work):
    with open(work + "/Probe.v", "w") as f:
        f.write(PROBE)
        ps = programs()
        f.write("Local Open Scope N_scope.\n")
        for i, p in enumerate(ps):
            f.write(f"Definition p{i} : str := [" + ";".join(str(ord(c)) for c in p) + "].\n")
        for q in PROBES:
            for i, p in enumerate(ps):
                f.write(f'Goal True. idtac "@@{q} {i}". Abort.\nEval vm_compute in {q} p{i}.\n')
    r = subprocess.run("timeout 600 coqc -q -Q theories Verif Probe.v", cwd=work, shell=True,
                       stdout=subprocess.PIPE, stderr=subprocess.STDOUT, text=True, errors="replace")
    res = {}
    for c in r.stdout.split("@@")[1:]:
        h, t = c.split("\n", 1); res[h] = t.strip()
    if len(res) != len(PROBES) * len(ps): print("probe incomplete", work, len(res), r.stdout[-300:])
    return res

def build(m, work):
    shutil.rmtree(work, ignore_errors=True); os.makedirs(work + "/theories")
    for f in FILES: shutil.copy(f"{ROOT}/rocq/theories/{f}.v", work + "/theories/")
    for e in (m.get("edits") or [m]) if m else []:
        p = f"{work}/theories/{e['file']}.v"; t = open(p).read()
        if t.count(e["old"]) != 1: return "edit does not match"
        open(p, "w").write(t.replace(e["old"], e["new"]))
    for f in FILES:
        r = subprocess.run(f"coqc -q -Q theories Verif theories/{f}.v", cwd=work, shell=True,
                           stdout=subprocess.PIPE, stderr=subprocess.STDOUT, text=True)
        if r.returncode: return r.stdout[-300:]

def one(m):
    w = f"{WORK}/{m['name']}"
    e = build(m, w)
    if e: return m["name"], dict(error=e)
    r = probe(w); shutil.rmtree(w)
    ps = programs(); d = {}
    for h in base:
        q, i = h.split()
        if r.get(h) != base[h]: d.setdefault(q, []).append(ps[int(i)])
    return m["name"], {q: dict(count=len(x), program=min(x, key=len)) for q, x in d.items()}

if __name__ == "__main__":
    muts = json.load(open(sys.argv[1])); sel = sys.argv[3:]
    muts = [m for m in muts if not sel or m["name"] in sel]
    os.makedirs(WORK, exist_ok=True)
    e = build(None, WORK + "/base"); assert not e, e
    base = probe(WORK + "/base")
    out = {}
    with ThreadPoolExecutor(int(os.environ.get("MUT_JOBS", "2"))) as ex:
        for n, d in ex.map(one, muts):
            out[n] = d; print(n, d if d else "NO DIFFERENCE", flush=True)
            json.dump(out, open(sys.argv[2], "w"), indent=1)
