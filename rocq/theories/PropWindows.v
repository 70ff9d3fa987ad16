(** C81: what Windows line endings do to a source.  Vocabulary: Windows.v,
    LexSpec.v (pieces), Lines.v. *)
From Coq Require Import String.
From Verif Require Import Str Lexer Lines Windows WindowsProofs PropLexer.
Local Open Scope string_scope.
Local Open Scope list_scope.

(** The tokens of the new source, exactly. *)
Theorem C81_tokens code ps : ascii_str code -> LexesTo code ps [] ->
  tokenize (crlf code) = LexOk (tokens_after [] (win ps)).
Proof. exact (windows_tokens code ps). Qed.
Print Assumptions C81_tokens.

(** It is accepted by the lexer exactly if the old one is. *)
Theorem C81_accepted code : ascii_str code ->
  ((exists ts, tokenize (crlf code) = LexOk ts) <-> exists ts, tokenize code = LexOk ts).
Proof. exact (windows_accepted code). Qed.
Print Assumptions C81_accepted.

(** Without the carriage returns, there are the old tokens, on the old lines. *)
Theorem C81_only_carriage_returns code ts us :
  ascii_str code -> ~ In cr code -> tokenize code = LexOk ts -> tokenize (crlf code) = LexOk us ->
  map (fun t => (strip_type (tok_type t), line (start_of t))) (filter (fun t => negb (is_cr t)) us) =
  map (fun t => (tok_type t, line (start_of t))) ts.
Proof. exact (windows_back code ts us). Qed.
Print Assumptions C81_only_carriage_returns.

(** The last token of a line is a carriage return or a comment with one. *)
Theorem C81_line_ends code a t u z : ascii_str code -> tokenize (crlf code) = LexOk (a ++ t :: u :: z) ->
  line (start_of t) = line (start_of u) \/ is_cr t = true \/ exists s, tok_type t = TCommentSingleLine s.
Proof. exact (windows_ends code a t u z). Qed.
Print Assumptions C81_line_ends.

(** So no line is continued: all tokens of a logical line are on one line. *)
Theorem C81_no_continued_lines code us : ascii_str code -> tokenize (crlf code) = LexOk us ->
  Forall (fun l => exists k, Forall (fun t => tok_line t = k) l) (logical_lines us).
Proof. exact (windows_lines code us). Qed.
Print Assumptions C81_no_continued_lines.

(** A source with a continued line, a comment and a string over two lines. *)
Definition unix : str :=
  lit "HAI" ++ nl ++ lit "VISIBLE x ..." ++ nl ++ lit "y BTW hi" ++ nl ++ lit "VISIBLE ""a" ++ nl ++ lit "b""" ++ nl ++ lit "KTHXBYE".
Definition toks_of (s : str) := match tokenize s with LexOk ts => ts | _ => [] end.
Example C81_case : ascii_str unix /\ ~ In cr unix /\
  tokenize unix = LexOk (toks_of unix) /\ tokenize (crlf unix) = LexOk (toks_of (crlf unix)) /\
  map tok_type (toks_of (crlf unix)) =
  [ TKeyword Keywords.HAI; TSymbol [cr];
    TKeyword Keywords.VISIBLE; TIdentifier (lit "x"); TEllipsis; TSymbol [cr];
    TIdentifier (lit "y"); TCommentSingleLine (lit " hi" ++ [cr]);
    TKeyword Keywords.VISIBLE; TValue (VString (lit "a" ++ [cr; 10%N] ++ lit "b")); TSymbol [cr];
    TKeyword Keywords.KTHXBYE ] /\
  length (logical_lines (toks_of unix)) = 4 /\ length (logical_lines (toks_of (crlf unix))) = 5.
Proof.
  split; [vm_compute; reflexivity|]. split; [vm_compute; intuition discriminate|].
  split; [vm_compute; reflexivity|]. split; [vm_compute; reflexivity|]. split; [vm_compute; reflexivity|].
  vm_compute. split; reflexivity.
Qed.

(** The condition on the characters is needed: with other than ASCII characters
    the closing quote of a string is misjudged, and the carriage returns move what
    is taken for the end into the middle of a character. *)
Theorem C81_all_sources_refuted : ~ forall code,
  (exists ts, tokenize code = LexOk ts) -> exists ts, tokenize (crlf code) = LexOk ts.
Proof.
  intro H. pose (code := 34%N :: repeat 233%N 9 ++ lit "xBTW" ++ [233; 10; 10; 10; 10; 34]%N : str).
  destruct (H code) as [ts E]; [eexists; vm_compute; reflexivity|]. vm_compute in E. discriminate E.
Qed.
Print Assumptions C81_all_sources_refuted.
