(** Model of src/lexer/position.rs, src/lexer/range.rs, src/lexer/token.rs. *)
From Coq Require Export Floats.SpecFloat.
From Verif Require Export Str Keywords.
Local Open Scope Z_scope.

(** src/lexer/position.rs:9-19 ([Position]).  The [i32] fields are unbounded
    integers; that they stay in the [i32] range is theorem C10. *)
Record position : Set := mkPos {
  line : Z;
  column : Z;
  bytes : Z;
  chars : Z
}.

(** src/lexer/position.rs:27-31 ([PartialEq for Position]): line and column only. *)
Definition position_eqb (p q : position) : bool :=
  (line p =? line q) && (column p =? column q).

(** src/lexer/position.rs:35-39 ([PartialOrd for Position]): bytes only. *)
Definition position_cmp (p q : position) : comparison :=
  Z.compare (bytes p) (bytes q).

(** src/lexer/position.rs:41-59 ([Add<&str>] and [AddAssign<&str>]). *)
Definition position_add (p : position) (s : str) : position :=
  {| line := line p;
     column := column p + Z.of_nat (byte_len s);
     bytes := bytes p + Z.of_nat (byte_len s);
     chars := chars p + Z.of_nat (length s) |}.

(** src/lexer/mod.rs:208-213 (the initial position of [tokenize]), equal to
    src/lexer/position.rs:61-70 ([Default for Position]). *)
Definition position_start : position :=
  {| line := 1; column := 1; bytes := 0; chars := 0 |}.

(** src/lexer/range.rs:6 ([Range(Position, Position)]). *)
Record range : Set := mkRange { r_start : position; r_end : position }.

(** src/lexer/range.rs:33-35 ([Range::start_line]). *)
Definition start_line (r : range) : Z := line (r_start r).

(** src/lexer/token.rs:8-13 ([NumberToken]).  An [f32] is a [spec_float] of the
    standard library (binary32: precision 24, emax 128). *)
Inductive number_token : Set :=
| Int (n : Z)
| Float (x : spec_float).

(** src/lexer/token.rs:17-26 ([TokenValue]). *)
Inductive token_value : Set :=
| VNumber (n : number_token)
| VString (s : str)
| VBoolean (b : bool)
| VNoob.

(** src/lexer/token.rs:30-55 ([TokenType]). *)
Inductive token_type : Set :=
| TIdentifier (s : str)
| TKeyword (k : keyword)
| TSymbol (s : str)
| TValue (v : token_value)
| TCommentSingleLine (s : str)
| TCommentMultiLine (s : str)
| TBukkitSlotAccess
| TEllipsis
| TComma
| TExclamationMark
| TQuestionMark.

(** src/lexer/token.rs:59-62 ([TokenError]). *)
Inductive token_error : Set :=
| UnclosedMultilineComment (r : range).

(** src/lexer/token.rs:66-71 ([Token]). *)
Record token : Set := mkToken { tok_type : token_type; tok_range : range }.

(** [t.token_type == TokenType::Keyword(k)] / [matches!(.., Keyword(k))]. *)
Definition is_kw (k : keyword) (t : token) : bool :=
  match tok_type t with
  | TKeyword k' => keyword_eqb k k'
  | _ => false
  end.

(** [t.token_type == TokenType::Comma] etc. *)
Definition is_comma (t : token) : bool :=
  match tok_type t with TComma => true | _ => false end.
Definition is_ellipsis (t : token) : bool :=
  match tok_type t with TEllipsis => true | _ => false end.
Definition is_exclamation (t : token) : bool :=
  match tok_type t with TExclamationMark => true | _ => false end.
Definition is_slot_access (t : token) : bool :=
  match tok_type t with TBukkitSlotAccess => true | _ => false end.
Definition is_identifier (t : token) : bool :=
  match tok_type t with TIdentifier _ => true | _ => false end.
