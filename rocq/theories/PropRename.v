(** Theorems about renaming in sources, by property number.  Vocabulary:
    Rename.v, LexPropSpec.v, Relabel.v. *)
From Coq Require Import String Lia.
From Verif Require Import Lexer Lines Parser Api StrFacts Relabel SourceSpec Rename RenameProofs PropLexer.
Local Open Scope string_scope.
Local Open Scope list_scope.

(** ** C78 *)

(** The tokens of the new source are the renamed tokens, on the same lines. *)
Theorem C78_tokens names strings code ts : tokenize code = LexOk ts ->
  (forall s, small_word s -> small_word (names s)) ->
  (forall t s, In t ts -> tok_type t = TValue (VString s) -> ascii_str s /\ StringBody (strings s) /\ ascii_str (strings s)) ->
  exists us, tokenize (splice names strings 0 code ts) = LexOk us /\
    map tok_type us = map (fun t => new_type names strings (tok_type t)) ts /\
    map (fun t => line (start_of t)) us = map (fun t => line (start_of t)) ts.
Proof. exact (new_types names strings code ts). Qed.
Print Assumptions C78_tokens.

(** The AST is the renamed AST, up to positions; errors and panics are the same. *)
Theorem C78_ast names strings code ts : tokenize code = LexOk ts ->
  (forall s, small_word s -> small_word (names s)) ->
  (forall t s, In t ts -> tok_type t = TValue (VString s) -> ascii_str s /\ StringBody (strings s) /\ ascii_str (strings s)) ->
  map_api erase (tokenize_and_parse (splice names strings 0 code ts)) =
  map_api erase (map_api (new_token names strings) (tokenize_and_parse code)).
Proof. exact (new_result names strings code ts). Qed.
Print Assumptions C78_ast.

(** Nothing else is replaced. *)
Theorem C78_nothing_else names strings code ts : tokenize code = LexOk ts -> (forall s, small_word s -> names s = s) ->
  (forall t s, In t ts -> tok_type t <> TValue (VString s)) -> splice names strings 0 code ts = code.
Proof. exact (same_source names strings code ts). Qed.
Print Assumptions C78_nothing_else.

(** New names that start with a capital letter may be cut in two. *)
Theorem C78_capitals_refuted : ~ forall names code ts,
  tokenize code = LexOk ts -> (forall s, Forall letter (names s)) -> (forall s, names s <> []) ->
  (forall t s, In t ts -> tok_type t <> TValue (VString s)) ->
  exists us, tokenize (splice names (fun s => s) 0 code ts) = LexOk us /\
    map tok_type us = map (fun t => new_type names (fun s => s) (tok_type t)) ts.
Proof.
  intros H. destruct (H (fun _ => lit "ANT") (lit "x") _ ltac:(vm_compute; reflexivity)) as (us & E & E').
  - intros _. repeat (apply Forall_cons; [right; right; vm_compute; split; discriminate|]). apply Forall_nil.
  - discriminate.
  - intros t s [<-|[]]. discriminate.
  - vm_compute in E. injection E as <-. vm_compute in E'. discriminate E'.
Qed.
Print Assumptions C78_capitals_refuted.
(** The end of a string with other than ASCII characters is misjudged.  Written
    back, closed, the string of the token need not even tokenise. *)
Theorem C78_other_strings_refuted : ~ forall names code ts,
  tokenize code = LexOk ts -> (forall s, small_word s -> small_word (names s)) ->
  exists us, tokenize (splice names (fun s => s) 0 code ts) = LexOk us /\
    map tok_type us = map (fun t => new_type names (fun s => s) (tok_type t)) ts.
Proof.
  intros H. pose (code := [34; 233; 233; 120; 121; 34; 32; 122]%N : str).
  destruct (H (fun s => 95%N :: s) code _ ltac:(vm_compute; reflexivity)) as (us & E & E').
  - intros s [_ Hs]. split; [exists 95%N, s; split; [reflexivity|left; reflexivity]|]. constructor; [left; reflexivity|exact Hs].
  - vm_compute in E. discriminate E.
Qed.
Print Assumptions C78_other_strings_refuted.

(** For example: a loop, a string, a comment and an error. *)
Definition c78_code : str :=
  lit "IM IN YR loop UPPIN YR i TIL BOTH SAEM i AN 10" ++ nl ++ lit "  VISIBLE " ++ [quote] ++ lit "i" ++ [quote] ++ lit " i BTW i" ++ nl
  ++ lit "IM OUTTA YR loop, SUM OF i" ++ nl.
Definition c78_new : str :=
  lit "IM IN YR loop_ UPPIN YR i_ TIL BOTH SAEM i_ AN 10" ++ nl ++ lit "  VISIBLE " ++ [quote] ++ lit "xi" ++ [quote] ++ lit " i_ BTW i" ++ nl
  ++ lit "IM OUTTA YR loop_, SUM OF i_" ++ nl.
Definition c78_names (s : str) : str := s ++ [95%N].
Definition c78_strings (s : str) : str := 120%N :: s.
Example C78_case : exists ts, tokenize c78_code = LexOk ts /\ (forall s, small_word s -> small_word (c78_names s)) /\
  (forall t s, In t ts -> tok_type t = TValue (VString s) -> ascii_str s /\ StringBody (c78_strings s) /\ ascii_str (c78_strings s)) /\
  splice c78_names c78_strings 0 c78_code ts = c78_new.
Proof.
  eexists. split; [vm_compute; reflexivity|]. split; [|split; [|vm_compute; reflexivity]].
  - intros s [(c & z & -> & Hc) Hs]. split; [exists c, (z ++ [95%N]); auto|]. apply Forall_app. split; [exact Hs|].
    constructor; [left; reflexivity|constructor].
  - intros t s Hi Ht.
    assert (s = lit "i") as -> by (repeat (destruct Hi as [<-|Hi]; [first [discriminate Ht|injection Ht as <-; reflexivity]|]); destruct Hi).
    repeat split.
    + intros a b E. assert (Hq : In quote (c78_strings (lit "i"))) by (rewrite E; apply in_or_app; right; left; reflexivity).
      vm_compute in Hq. repeat (destruct Hq as [Hq|Hq]; [discriminate Hq|]). destruct Hq.
    + intros [a E]. assert (Hq : In colon (c78_strings (lit "i"))) by (rewrite E; apply in_or_app; right; left; reflexivity).
      vm_compute in Hq. repeat (destruct Hq as [Hq|Hq]; [discriminate Hq|]). destruct Hq.
Qed.
