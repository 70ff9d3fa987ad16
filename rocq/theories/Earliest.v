(** Specification for C93: the token at which a line goes wrong. *)
From Verif Require Export Failure NodeTokens Checker.
Local Open Scope list_scope.

(** [l] is the beginning of a line of the grammar. *)
Definition begins_line (l : list token) : Prop := exists r n, d_line (l ++ r) n.
(** The first token that is wrong after [l]: up to it, the line can be finished. *)
Definition first_wrong (l : list token) (t : token) : Prop := begins_line l /\ ~ begins_line (l ++ [t]).

(** A line of one statement: not empty, and not of a block, HAI or HOW IZ I. *)
Definition plain_line (l : list token) : Prop := l <> [] /\ ~ begins block_start l.

(** The nodes of such a line: *)
Inductive located : list token -> list node -> Prop :=
(* it is one of the grammar; *)
| loc_line l n : d_line l n -> located l [n]
(* a part of it is, and the rest, from the first wrong token on, is too much; *)
| loc_rest l n t r : d_line l n -> first_wrong l t -> located (l ++ t :: r) [n; NASTError (TooManyTokens (t :: r))]
(* the first wrong token is reported, and what is after it is too much; *)
| loc_token l t r e : first_wrong l t -> error_tokens e = [t] -> located (l ++ t :: r) (NASTError e :: left_over r)
(* it is unfinished, and one of its tokens is reported. *)
| loc_end l e t : begins_line l -> (forall n, ~ d_line l n) -> error_tokens e = [t] -> In t l -> located l [NASTError e].

(** ** Headers of loops and functions *)
Definition header_start (t : token) : Prop := kw IM_IN_YR t \/ kw HOW_IZ_I t.
(** The beginning of a line with which a program can start. *)
Definition begins_header (l : list token) : Prop := exists r s', step (Fresh []) (l ++ r) s'.
(** The error of a header [l] that is not well-formed: *)
Inductive located_header (l : list token) (e : ast_error) : Prop :=
(* it is about the first wrong token, or the rest from there on is too much; *)
| lh_token l1 t r : l = l1 ++ t :: r -> begins_header l1 -> ~ begins_header (l1 ++ [t]) ->
    error_tokens e = [t] \/ e = TooManyTokens (t :: r) -> located_header l e
(* or the header is unfinished, and one of its tokens is reported. *)
| lh_end t : begins_header l -> (forall s', ~ step (Fresh []) l s') -> error_tokens e = [t] -> In t l -> located_header l e.
