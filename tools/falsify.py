#!/usr/bin/env python3
"""Statement-level mutation tests.

usage: falsify.py WORKDIR [MUTANT ...]        (WORKDIR outside the checked-in tree)

mutate.py tells which proofs break when the model is changed.  This script
checks more: that the statement itself becomes false, so that no other proof of
it can exist.  For every entry of falsify.json the edit of the mutant (from
seeded/LOG.jsonl or from the entry's own "edits") is applied to a copy of the
development in which every proof is dropped (only the statements are kept), and
the negation of the theorem's statement is proved by the script of the entry.
Print Assumptions must find that negation closed, so the dropped proofs are not
used; for statements about real numbers, that it depends on nothing but the
axioms of the standard library."""
import sys, os, re, json, shutil, subprocess
ROOT = os.path.join(os.path.dirname(os.path.abspath(__file__)), "..")
W = sys.argv[1]
only = set(sys.argv[2:])

def strip(t):
    out, i = [], 0
    pat = re.compile(r"\bProof\b(?: using[^.]*)?\s*\.")
    while True:
        m = pat.search(t, i)
        if not m:
            out.append(t[i:]); break
        e = re.compile(r"\b(Qed|Defined)\s*\.").search(t, m.end())
        out.append(t[i:e.end()] if e.group(1) == "Defined" else t[i:m.start()] + "Admitted.")
        i = e.end()
    return re.sub(r"(?m)^\s*Print Assumptions[^\n]*\n", "", "".join(out))

def sh(cmd, cwd):
    p = subprocess.run(cmd, cwd=cwd, shell=True, stdout=subprocess.PIPE, stderr=subprocess.STDOUT, text=True)
    return p.returncode, p.stdout

def base():
    b = W + "/base"
    os.makedirs(b + "/theories", exist_ok=True)
    for f in os.listdir(ROOT + "/rocq/theories"):
        if f.endswith(".v"):
            s, d = strip(open(f"{ROOT}/rocq/theories/{f}").read()), f"{b}/theories/{f}"
            if not os.path.exists(d) or open(d).read() != s:
                open(d, "w").write(s)
    shutil.copy(ROOT + "/rocq/_CoqProject", b)
    sh("coq_makefile -f _CoqProject -o Makefile", b)
    rc, out = sh("make -j3", b)
    if rc: print(out[-2000:]); sys.exit("the stripped development does not build")
    return b

# Positions determine the text of a token.
PRELUDE = """
Definition T (code : str) : list token := match Lexer.tokenize code with Lexer.LexOk ts => ts | _ => [] end.
Definition first (code : str) : token := hd (mkToken TComma (mkRange position_start position_start)) (T code).
Lemma byte_len_app' (a b : str) : byte_len (a ++ b) = (byte_len a + byte_len b)%nat.
Proof. induction a as [|c a IH]; [reflexivity|]. cbn [byte_len app]. rewrite IH. lia. Qed.
Lemma utf8_len_pos' c : (0 < utf8_len c)%nat.
Proof. unfold utf8_len. repeat match goal with |- context [if ?b then _ else _] => destruct b end; lia. Qed.
Lemma prefix_unique (a a' x y : str) : a ++ x = a' ++ y -> byte_len a = byte_len a' -> a = a' /\\ x = y.
Proof.
  revert a'. induction a as [|c a IH]; intros [|c' a'] E L; cbn [byte_len app] in *.
  - auto.
  - pose proof (utf8_len_pos' c'). lia.
  - pose proof (utf8_len_pos' c). lia.
  - injection E as -> E. destruct (IH a' E) as [-> ->]; [lia|auto].
Qed.
Lemma at_unique code t a raw b a' raw' b' : token_at code t a raw b -> token_at code t a' raw' b' ->
  a = a' /\\ raw = raw' /\\ b = b'.
Proof.
  intros (E & E1 & E2) (F & F1 & F2). rewrite E in F.
  destruct (prefix_unique _ _ _ _ F) as [-> G]; [lia|].
  rewrite byte_len_app' in E2, F2. destruct (prefix_unique _ _ _ _ G) as [-> ->]; [lia|auto].
Qed.
"""
PARSER_PRELUDE = """
Definition bare' (n : Z) : token := mkToken TComma (mkRange (mkPos n n n n) (mkPos n n n n)).
"""
# A way to write floats, with proofs that use no lemma of the development.
FLOAT_PRELUDE = """
Fixpoint bits' (p : positive) : str :=
  match p with xH => [104%N] | xO q => 111%N :: bits' q | xI q => 105%N :: bits' q end.
Lemma bits_inj' p : forall q a b, (bits' p ++ a)%list = (bits' q ++ b)%list -> p = q /\\ a = b.
Proof.
  induction p as [p IH|p IH|]; intros [q|q|] a b E; cbn [bits' app] in E; try discriminate E;
    injection E as E; try (apply IH in E as [-> ->]); auto.
Qed.
Definition ft (x : spec_float) : str :=
  match x with
  | S754_zero s => [if s then 97%N else 98%N]
  | S754_infinity s => [if s then 99%N else 100%N]
  | S754_nan => [101%N]
  | S754_finite s m e => (if s then 102%N else 103%N) :: (bits' m ++
      match e with Z0 => [97%N] | Zpos p => 98%N :: bits' p | Zneg p => 99%N :: bits' p end)%list
  end.
Lemma bits_chars' p : Forall float_char (bits' p).
Proof. induction p; cbn [bits']; apply Forall_cons; auto; unfold float_char; lia. Qed.
Lemma ft_ok : float_texts ft.
Proof.
  split.
  - intros x y E. destruct x as [s|s| |s m e], y as [s'|s'| |s' m' e']; cbn [ft] in E;
      try (destruct s, s'; (discriminate E || reflexivity)); try (destruct s; discriminate E);
      try (destruct s'; discriminate E); try reflexivity; try discriminate E.
    assert (S : s = s') by (destruct s, s'; (discriminate E || reflexivity)). subst s'.
    assert (F := f_equal (@tl _) E). cbn [tl] in F. apply bits_inj' in F as [-> F].
    destruct e as [|p|p], e' as [|q|q]; try discriminate F; try reflexivity;
      injection F as F; rewrite <- (app_nil_r (bits' p)), <- (app_nil_r (bits' q)) in F; apply bits_inj' in F as [-> _]; reflexivity.
  - intros x. split; [destruct x; discriminate|].
    assert (G : forall c l, (97 <= c <= 122)%N -> Forall float_char l -> Forall float_char (c :: l)).
    { intros c l H K. apply Forall_cons; auto. unfold float_char. lia. }
    destruct x as [s|s| |s m e]; cbn [ft]; try (destruct s); try (apply G; [lia|]); try apply Forall_nil;
      (apply Forall_app; split; [apply bits_chars'|]);
      destruct e; apply G; try lia; try apply Forall_nil; apply bits_chars'.
Qed.
"""
# Statements about real numbers have the axioms of the standard library.
REALS = {"ClassicalDedekindReals.sig_not_dec", "ClassicalDedekindReals.sig_forall_dec",
         "FunctionalExtensionality.functional_extensionality_dep", "Classical_Prop.classic"}
def axioms(out):
    i = out.find("Axioms:")
    return set(re.findall(r"(?m)^([A-Za-z][\w.']*)\s*:?", out[i + 7:])) if i >= 0 else {"?"}

entries = json.load(open(ROOT + "/tools/falsify.json"))
edits = {}
for l in open(ROOT + "/seeded/LOG.jsonl"):
    d = json.loads(l)
    if d.get("name") and isinstance(d.get("edit"), list):
        edits[d["name"]] = [dict(file=e.get("file") or d["definition"].split(".")[0], **{k: e[k] for k in ("old", "new")})
                            for e in d["edit"]]
b = base()
bad = 0
for name in dict.fromkeys(e["mutant"] for e in entries):
    if only and name not in only: continue
    es = [e for e in entries if e["mutant"] == name]
    d = f"{W}/{name}"
    if not os.path.exists(d):
        shutil.copytree(b, d, copy_function=shutil.copy2)
        for e in es[0].get("edits") or edits[name]:
            p = f"{d}/theories/{e['file']}.v"
            t = open(p).read()
            if e["old"] not in t: sys.exit(f"{name}: text of the edit not found in {e['file']}")
            open(p, "w").write(t.replace(e["old"], e["new"], 1))
    mods = list(dict.fromkeys(m for e in es for m in e["requires"].split()))
    rc, out = sh("make -j3 " + " ".join(f"theories/{m}.vo" for m in mods), d)
    if rc: print(name, "does not build:", out[-800:]); bad += 1; continue
    for k, e in enumerate(es):
        thm = e["theorem"]
        src = (f"From Coq Require Import String List ZArith NArith Lia.\nImport ListNotations.\n"
               + ("From Coq Require Import Reals Lra.\n" if "FloatTextSpec" in e["requires"] else "") +
               f"From Verif Require Import {e['requires']}.\nLocal Open Scope string_scope.\nLocal Open Scope list_scope.\n"
               + (PRELUDE if "LexPropSpec" in e["requires"] else "")
               + (FLOAT_PRELUDE if "DebugSpec" in e["requires"] else "")
               + (PARSER_PRELUDE if "PropParser" in e["requires"] else "") +
               f"Definition statement : Prop := ltac:(let T := type of (@{thm}) in exact T).\n"
               f"Theorem {thm}_false : ~ statement.\nProof. unfold statement. intros H.\n{e['proof']}\nQed.\n"
               f"Print Assumptions {thm}_false.\n")
        open(f"{d}/F{k}.v", "w").write(src)
        rc, out = sh(f"timeout 600 coqc -q -Q theories Verif F{k}.v", d)
        ok = rc == 0 and ("Closed under the global context" in out or axioms(out) <= REALS)
        if not ok: bad += 1
        print(name, thm, "false" if ok else "NOT SHOWN: " + out[-600:], flush=True)
sys.exit(1 if bad else 0)
