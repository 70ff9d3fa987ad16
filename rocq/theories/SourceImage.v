(** Every error and every error-free AST occurs for a source: proofs for
    PropErrors.v. *)
From Coq Require Import String Lia.
From Verif Require Import Lexer Parser Api Lines ParseFuel Clean ProgComplete Shape ErrorShape Unparse UnparseProofs EqFacts SourceSpec SourceProofs FormatProofs ParserProps RecoveryProps LinesImage ErrorImage.

(** A text for each of finitely many tokens. *)
Lemma texts ts : Forall written ts -> exists w, Forall (writable w) ts.
Proof.
  induction 1 as [|t ts (v & Hs & H1 & H2 & H3) H [w IH]]; [exists (fun _ => []); constructor|].
  exists (fun u => if token_dec u t then v t else w u). constructor.
  - unfold writable. destruct (token_dec t t); [auto|congruence].
  - apply Forall_forall. rewrite Forall_forall in IH. intros u Hu. unfold writable.
    destruct (token_dec u t) as [->|]; [auto|apply IH, Hu].
Qed.
Lemma texts_lines ls : Forall (Forall written) ls -> exists w, Forall (Forall (writable w)) ls.
Proof.
  intros H. destruct (texts (concat ls)) as [w Hw].
  - apply Forall_concat, H.
  - exists w. apply Forall_forall. intros l Hl. apply Forall_forall. intros t Ht. rewrite Forall_forall in Hw.
    apply Hw, in_concat. eauto.
Qed.

(** A source for any lines of tokens that can be written. *)
Lemma source_of_lines ls : Forall (Forall written) ls ->
  exists code, map_api erase (tokenize_and_parse code) = api_of (map_result erase (parse_logical ls)).
Proof.
  intros H. destruct (texts_lines ls H) as [w Hw]. exists (print_program w ls).
  assert (Hok : Forall printed_ok (flat_map (print_line w) ls)).
  { clear H. induction Hw as [|l ls H1 H IH]; [constructor|]. cbn [flat_map]. apply Forall_app.
    split; [apply print_line_ok, H1|exact IH]. }
  rewrite parse_erase. rewrite <- (printed_program_lines w ls Hw).
  exact (print_parse [] _ (Forall_nil _) Hok).
Qed.
Lemma source_of_nodes ls ns : Forall (Forall written) ls -> parse_logical ls = ParseOk (ASTBlock ns) ->
  exists code ns', tokenize_and_parse code = ApiOk (ASTBlock ns') /\ map (map_node erase) ns' = map (map_node erase) ns.
Proof.
  intros H E. destruct (source_of_lines ls H) as [code Hc]. exists code. rewrite E in Hc. cbn in Hc.
  destruct (tokenize_and_parse code) as [[ns']| | |]; try discriminate. exists ns'. split; [reflexivity|].
  cbn in Hc. injection Hc as Hc. exact Hc.
Qed.

Lemma written_keyword k : ~ In k [BTW; OBTW; WIN; FAIL; NOOB; ANY_OF] -> written (k_ k).
Proof. intros H. exists (fun _ => spelling k). split; [constructor; exact H|]. repeat split; discriminate. Qed.
Lemma written_x : written x_.
Proof.
  exists (fun _ => [120%N]). split; [|repeat split; discriminate]. constructor; [discriminate| |].
  - constructor; [|constructor]. unfold letter. lia.
  - intros k (u & E). destruct k; discriminate.
Qed.
Lemma written_noob : written v_.
Proof. exists (fun _ => lit "NOOB"). split; [constructor|]. repeat split; discriminate. Qed.
Lemma written_question r : written (mkToken (TSymbol [63%N]) r).
Proof.
  exists (fun _ => [63%N]). split; [|repeat split; discriminate]. cbn.
  constructor; cbn; try lia; unfold ws, letter, digit; intuition (try discriminate; try lia).
Qed.
Lemma written_made_up : Forall written made_up.
Proof.
  unfold made_up. cbn [map]. repeat (apply Forall_cons; [|]); try apply Forall_nil.
  all: first [apply written_question | apply written_keyword; cbn; intuition discriminate].
Qed.

Theorem errors_of_sources e : error_shape e -> Forall written (error_tokens e) ->
  exists code ns e', tokenize_and_parse code = ApiOk (ASTBlock ns) /\ In (NASTError e') ns /\
    map_error erase e' = map_error erase e.
Proof.
  intros H Hw. destruct (occurs_all written) with (e := e) as (ls & ns & HP & Hn & Hin); try assumption.
  - exact written_x.
  - exact (written_question _).
  - exact written_noob.
  - exact written_keyword.
  - apply logical_nodes in Hn. destruct (source_of_nodes ls ns HP Hn) as (code & ns' & Ec & En). exists code, ns'.
    apply (in_map (map_node erase)) in Hin. rewrite <- En in Hin. apply in_map_iff in Hin as (n & En' & Hin').
    destruct n; try discriminate. eexists. injection En' as En'. split; [exact Ec|]. split; [exact Hin'|exact En'].
Qed.

Theorem clean_asts_of_sources ns : Forall node_shape ns -> forallb node_clean ns = true ->
  Forall written (block_tokens (ASTBlock ns)) ->
  exists code ns', tokenize_and_parse code = ApiOk (ASTBlock ns') /\ map (map_node erase) ns' = map (map_node erase) ns.
Proof.
  intros HS HC HW. apply (source_of_nodes (unparse_nodes ns)).
  - apply Q_nodes; [exact written_made_up|exact HW].
  - apply program_iff. apply unparse_program; assumption.
Qed.
