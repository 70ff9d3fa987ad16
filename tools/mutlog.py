#!/usr/bin/env python3
"""Appends the results of mutate.py to seeded/LOG.jsonl.

usage: mutlog.py RESULTS.jsonl

One line per attempt: the definition edited, the edit, the claim it breaks, the
theorems whose proofs failed, the theorems tightened because of it.  A mutant
that changes no behaviour of the code (expect is empty) is marked equivalent;
the proofs that fail for it fail because their scripts follow the old text."""
import sys, os, re, json
ROOT = os.path.join(os.path.dirname(os.path.abspath(__file__)), "..")
LOG = os.path.join(ROOT, "seeded/LOG.jsonl")
NOTES = os.path.join(ROOT, "tools/mutnotes.json")
notes = json.load(open(NOTES)) if os.path.exists(NOTES) else {}

def definition(e):
    t = open(f"{ROOT}/rocq/theories/{e['file']}.v").read()
    i = t.find(e["old"])
    d = "?"
    for m in re.finditer(r"^(?:Local )?(?:Definition|Fixpoint|with|Inductive|Record) ([\w']+)", t, re.M):
        if i >= 0 and m.start() <= i + len(e["old"]) - 1: d = m.group(1)
    return f"{e['file']}.{d}"

old = open(LOG).read().splitlines() if os.path.exists(LOG) else []
seen = {json.loads(l)["name"] for l in old}
n = 0
with open(LOG, "a") as f:
    for l in open(sys.argv[1]):
        r = json.loads(l)
        if r["name"] in seen: continue
        if r["fatal"]:
            print("skipped (does not compile):", r["name"]); continue
        failed = [x for x in r["failed"] if "_case" not in x]
        ids = {x[:3] for x in r["failed"]}
        missed = [c for c in r["expect"] if c not in ids]
        x = dict(name=r["name"], definition=", ".join(sorted({definition(e) for e in r["edits"]})),
                 edit=[{"old": e["old"].strip(), "new": e["new"].strip()} for e in r["edits"]],
                 claim=r["claim"], theorems_failed=failed,
                 tightened=notes.get(r["name"], {}).get("tightened", []))
        note = notes.get(r["name"], {}).get("note", "")
        if not r["expect"] and not note: note = "equivalent: no behaviour changes"
        if note: x["note"] = note
        if missed: x["claims_not_caught"] = missed; print("MISSED", r["name"], missed)
        f.write(json.dumps(x, ensure_ascii=False) + "\n"); seen.add(r["name"]); n += 1
print(n, "added")
