(** Specification: a program followed by another. *)
From Coq Require Import String.
From Verif Require Export Lines Str LexSpec.
Local Open Scope list_scope.

(** A line to try after a source. *)
Definition test_line_code : str := (lit "GTFO"%string ++ [newline])%list.

(** The lines of [ts] are those of [ts1] followed by those of [ts2]. *)
Definition followed_by (ts1 ts2 ts : list token) : Prop :=
  logical_lines ts = logical_lines ts1 ++ logical_lines ts2.

(** The first line of the program is empty. *)
Definition starts_empty (ts : list token) : Prop := exists ls, logical_lines ts = [] :: ls.

(** The nodes [ns] before those of a program with the result [r]. *)
Definition nodes_before (ns : list node) (r : parse_result) : parse_result :=
  match r with
  | ParseOk (ASTBlock ms) => ParseOk (ASTBlock (ns ++ ms))
  | r => r
  end.

(** Every program can follow [ts1]; [ns] are the nodes of [ts1]. *)
Definition closed_with (ts1 : list token) (ns : list node) : Prop :=
  forall ts2 ts, followed_by ts1 ts2 ts -> ~ starts_empty ts2 ->
    parse ts = nodes_before ns (parse ts2).

(** Nothing after [ts1] is read. *)
Definition ended_with (ts1 : list token) (ns : list node) : Prop :=
  forall ts2 ts, followed_by ts1 ts2 ts -> parse ts = ParseOk (ASTBlock ns).

(** What follows [ts1] can change only its last node. *)
Definition open_with (ts1 : list token) (ns : list node) : Prop :=
  exists cs x, ns = cs ++ [x] /\
    forall ts2 ts, followed_by ts1 ts2 ts -> exists r, parse ts = nodes_before cs r.
