(** Specification for C94: machines that read the tokens of a program, or the
    characters of a source, one after another. *)
From Coq Require Import String.
From Verif Require Export Parser Clean Api Automaton.
Local Open Scope string_scope.
Local Open Scope list_scope.

Record machine (A : Type) : Type := mkMachine {
  m_state : Type;
  m_start : m_state;
  m_step : m_state -> A -> m_state;
  m_accept : m_state -> bool
}.
Arguments m_state {A}. Arguments m_start {A}. Arguments m_step {A}. Arguments m_accept {A}.
Definition after {A} (m : machine A) (l : list A) : m_state m := fold_left (m_step m) l (m_start m).
(** It finds out whether [parse] gives an AST without errors. *)
Definition decides (m : machine token) : Prop := forall ts, m_accept m (after m ts) = true <->
  exists ns, parse ts = ParseOk (ASTBlock ns) /\ forallb node_clean ns = true.
(** The same for sources and [tokenize_and_parse]. *)
Definition decides_sources (m : machine char) : Prop := forall code, m_accept m (after m code) = true <->
  exists ns, tokenize_and_parse code = ApiOk (ASTBlock ns) /\ forallb node_clean ns = true.

(** FOUND YR and a chain of operations, binary ones and others. *)
Definition chain (l : list bool) : list token := word FOUND_YR :: map (fun b : bool => word (if b then SUM_OF else ALL_OF)) l.
Definition chain_text (l : list bool) : str :=
  lit "FOUND YR " ++ concat (map (fun b : bool => lit (if b then "SUM OF " else "ALL OF ")) l).

(** The automaton of C92 as such a machine: nothing was read; it has stopped; or
    it is somewhere. *)
Definition automaton : machine token := {|
  m_state := option (option config);
  m_start := None;
  m_step q t := match q with
                | None => Some (start t)
                | Some None => Some None
                | Some (Some c) => Some (next_token c t)
                end;
  m_accept q := match q with
                | None => true
                | Some None => false
                | Some (Some c) => match last_state c with Some s => complete_f s | None => false end
                end
|}.
