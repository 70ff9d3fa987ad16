(** Model of src/lib.rs. *)
From Verif Require Export Lexer Parser.

(** Result of [tokenize_and_parse]. *)
Inductive api_result : Set :=
| ApiOk (b : block)
| ApiErr (e : token_error)
| ApiPanic
| ApiFuel.

(** [tokenize_and_parse], src/lib.rs:76-79. *)
Definition tokenize_and_parse (code : str) : api_result :=
  match tokenize code with
  | LexErr e => ApiErr e
  | LexPanic => ApiPanic
  | LexFuel => ApiFuel
  | LexOk tokens =>
    match parse tokens with
    | ParseOk b => ApiOk b
    | ParsePanic _ => ApiPanic
    | ParseFuel => ApiFuel
    end
  end.
