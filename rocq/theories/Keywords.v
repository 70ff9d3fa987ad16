(** Model of src/lexer/keywords.rs and lolcode-ast-derive/src/lib.rs. *)
From Coq Require Import String Ascii.
From Verif Require Import Str.
Local Open Scope string_scope.

(** src/lexer/keywords.rs:15-77 ([Keywords], same names, same order). *)
Inductive keyword : Set :=
| BTW | HAS_A | OBTW | SRS | TLDR | BUKKIT | HAI | KTHXBYE | I_HAS_A | ITZ
| NOOB | TROOF | FAIL | WIN | NUMBR | NUMBAR | YARN | MKAY | AN | SUM_OF
| DIFF_OF | PRODUKT_OF | QUOSHUNT_OF | MOD_OF | BIGGR_OF | SMALLR_OF
| BOTH_SAEM | BOTH_OF | EITHER_OF | WON_OF | NOT | UPPIN | NERFIN | ALL_OF
| ANY_OF | DIFFRINT | SMOOSH | MAEK | IS_NOW | VISIBLE | GIMMEH | O_RLY
| YA_RLY | NO_WAI | OIC | MEBBE | WTF | OMGWTF | OMG | GTFO | IM_IN_YR | YR
| TIL | WILE | IM_OUTTA_YR | HOW_IZ_I | IF_U_SAY_SO | FOUND_YR | I_IZ | R | A.

(** The variant name as written in the enum: what
    [variant.ident.to_string()] returns in lolcode-ast-derive/src/lib.rs:18-20. *)
Definition ident (k : keyword) : string :=
  match k with
  | BTW => "BTW" | HAS_A => "HAS_A" | OBTW => "OBTW" | SRS => "SRS"
  | TLDR => "TLDR" | BUKKIT => "BUKKIT" | HAI => "HAI" | KTHXBYE => "KTHXBYE"
  | I_HAS_A => "I_HAS_A" | ITZ => "ITZ" | NOOB => "NOOB" | TROOF => "TROOF"
  | FAIL => "FAIL" | WIN => "WIN" | NUMBR => "NUMBR" | NUMBAR => "NUMBAR"
  | YARN => "YARN" | MKAY => "MKAY" | AN => "AN" | SUM_OF => "SUM_OF"
  | DIFF_OF => "DIFF_OF" | PRODUKT_OF => "PRODUKT_OF"
  | QUOSHUNT_OF => "QUOSHUNT_OF" | MOD_OF => "MOD_OF" | BIGGR_OF => "BIGGR_OF"
  | SMALLR_OF => "SMALLR_OF" | BOTH_SAEM => "BOTH_SAEM" | BOTH_OF => "BOTH_OF"
  | EITHER_OF => "EITHER_OF" | WON_OF => "WON_OF" | NOT => "NOT"
  | UPPIN => "UPPIN" | NERFIN => "NERFIN" | ALL_OF => "ALL_OF"
  | ANY_OF => "ANY_OF" | DIFFRINT => "DIFFRINT" | SMOOSH => "SMOOSH"
  | MAEK => "MAEK" | IS_NOW => "IS_NOW" | VISIBLE => "VISIBLE"
  | GIMMEH => "GIMMEH" | O_RLY => "O_RLY" | YA_RLY => "YA_RLY"
  | NO_WAI => "NO_WAI" | OIC => "OIC" | MEBBE => "MEBBE" | WTF => "WTF"
  | OMGWTF => "OMGWTF" | OMG => "OMG" | GTFO => "GTFO" | IM_IN_YR => "IM_IN_YR"
  | YR => "YR" | TIL => "TIL" | WILE => "WILE" | IM_OUTTA_YR => "IM_OUTTA_YR"
  | HOW_IZ_I => "HOW_IZ_I" | IF_U_SAY_SO => "IF_U_SAY_SO"
  | FOUND_YR => "FOUND_YR" | I_IZ => "I_IZ" | R => "R" | A => "A"
  end.

(** [.replace("_", " ")], lolcode-ast-derive/src/lib.rs:20. *)
Fixpoint underscores_to_spaces (s : str) : str :=
  match s with
  | [] => []
  | c :: s' =>
    (if N.eqb c c_underscore then c_space else c) :: underscores_to_spaces s'
  end.

(** [Keywords::to_string_slice], src/lexer/keywords.rs:87-89 with
    lolcode-ast-derive/src/lib.rs:16-28. *)
Definition to_string_slice (k : keyword) : str :=
  underscores_to_spaces (lit (ident k)).

(** [ALL_SYMBOLS] / [Keywords::iter()], lolcode-ast-derive/src/lib.rs:45-57:
    all variants in declaration order. *)
Definition all_symbols : list keyword :=
  [ BTW; HAS_A; OBTW; SRS; TLDR; BUKKIT; HAI; KTHXBYE; I_HAS_A; ITZ;
    NOOB; TROOF; FAIL; WIN; NUMBR; NUMBAR; YARN; MKAY; AN; SUM_OF;
    DIFF_OF; PRODUKT_OF; QUOSHUNT_OF; MOD_OF; BIGGR_OF; SMALLR_OF;
    BOTH_SAEM; BOTH_OF; EITHER_OF; WON_OF; NOT; UPPIN; NERFIN; ALL_OF;
    ANY_OF; DIFFRINT; SMOOSH; MAEK; IS_NOW; VISIBLE; GIMMEH; O_RLY;
    YA_RLY; NO_WAI; OIC; MEBBE; WTF; OMGWTF; OMG; GTFO; IM_IN_YR; YR;
    TIL; WILE; IM_OUTTA_YR; HOW_IZ_I; IF_U_SAY_SO; FOUND_YR; I_IZ; R; A ].

Definition keyword_eq_dec (a b : keyword) : {a = b} + {a <> b}.
Proof. decide equality. Defined.

(** derived [PartialEq] of [Keywords] *)
Definition keyword_eqb (a b : keyword) : bool :=
  if keyword_eq_dec a b then true else false.
