(** Specification for C85: the UTF-8 encoding as a function (its agreement with
    the relation [Utf8] is a theorem), and results of the lexer and of the parser
    with the texts of all tokens encoded. *)
From Verif Require Export ByteLexer Relabel.
Local Open Scope N_scope.

Definition encode_char (c : N) : list N :=
  if c <? 128 then [c]
  else if c <? 2048 then [192 + c / 64; 128 + c mod 64]
  else if c <? 65536 then [224 + c / 4096; 128 + c / 64 mod 64; 128 + c mod 64]
  else [240 + c / 262144; 128 + c / 4096 mod 64; 128 + c / 64 mod 64; 128 + c mod 64].
Definition encode (s : list N) : list N := flat_map encode_char s.

Definition encode_type (ty : token_type) : token_type :=
  match ty with
  | TIdentifier s => TIdentifier (encode s)
  | TSymbol s => TSymbol (encode s)
  | TValue (VString s) => TValue (VString (encode s))
  | TCommentSingleLine s => TCommentSingleLine (encode s)
  | TCommentMultiLine s => TCommentMultiLine (encode s)
  | ty => ty
  end.
Definition encode_token (t : token) : token :=
  {| tok_type := encode_type (tok_type t); tok_range := tok_range t |}.
Definition encode_lex (r : lex_result) : lex_result :=
  match r with LexOk ts => LexOk (map encode_token ts) | r => r end.
Definition encode_api (r : api_result) : api_result :=
  match r with ApiOk b => ApiOk (map_block encode_token b) | r => r end.

(** The text inside a token, if any. *)
Definition text_in (ty : token_type) : option (list N) :=
  match ty with
  | TIdentifier s | TSymbol s | TValue (VString s) | TCommentSingleLine s | TCommentMultiLine s => Some s
  | _ => None
  end.
