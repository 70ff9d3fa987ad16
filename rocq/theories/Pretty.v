(** Model of the [Debug] implementations of tokens, ASTs and errors with the
    alternate format [{:#?}] (it is what [dbg!] uses).  What a value hands to the
    formatter is that of Debug.v; here is what the formatter writes. *)
From Coq Require Import String.
From Verif Require Export Debug.
Local Open Scope list_scope.

(** [PadAdapter] of the standard library: four spaces before the first character
    of each line. *)
Fixpoint pad (on_newline : bool) (s : str) : str :=
  match s with
  | [] => []
  | c :: s' => (if on_newline then lit "    " else []) ++ c :: pad (N.eqb c 10) s'
  end.
(** A field or an element: indented, a comma and a line feed after it. *)
Definition entry (s : str) : str := pad true (s ++ lit "," ++ [10%N]).

Section Formatter.
  Variable shown : char -> bool.
  Variable float_text : spec_float -> str.

  (** [debug_tuple], [debug_struct] and [debug_list] in the alternate format (the
      structs of the crate have fields).  [Debug for Token],
      src/lexer/token.rs:73-77, and [Debug for Range], src/lexer/range.rs:20-24,
      call [writeln!] with [{:?}], so that the inside of a token is written in
      the plain format. *)
  Fixpoint pretty (d : dbg) : str :=
    match d with
    | DLeaf s => s
    | DTuple name x => lit name ++ lit "(" ++ [10%N] ++ entry (pretty x) ++ lit ")"
    | DStruct name fields =>
      lit name ++ lit " {" ++ [10%N] ++
      flat_map (fun fx => entry (lit (fst fx) ++ lit ": " ++ pretty (snd fx))) fields ++ lit "}"
    | DList [] => lit "[]"
    | DList xs => lit "[" ++ [10%N] ++ flat_map (fun x => entry (pretty x)) xs ++ lit "]"
    | DString s => string_debug shown s
    | DRange text => text
    | DToken range x => range ++ print shown x ++ [10%N]
    end.

  Definition token_pretty (t : token) : str := pretty (d_tok float_text t).
  Definition tokens_pretty (ts : list token) : str := pretty (DList (map (d_tok float_text) ts)).
  Definition node_pretty (n : node) : str := pretty (d_node float_text n).
  Definition block_pretty (b : block) : str := pretty (d_ast_block float_text b).
  Definition result_pretty (r : block + token_error) : str :=
    pretty match r with inl b => DTuple "Ok" (d_ast_block float_text b) | inr e => DTuple "Err" (d_token_error e) end.
End Formatter.
