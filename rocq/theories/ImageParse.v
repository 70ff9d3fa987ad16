(** The ASTs of sources and of sequences of tokens. *)
From Verif Require Import Lexer Parser Api Lines Relabel RelabelProofs EqProps ParseFuel SourceProofs SourceJoin ImageProofs.
Local Open Scope Z_scope.
Local Open Scope list_scope.

Definition only_line (x : token_type * Z) : token :=
  let p := {| line := snd x; column := 0; bytes := 0; chars := 0 |} in mkToken (fst x) (mkRange p p).

Lemma lines_of_with_line ts : logical_lines (map only_line (map with_line ts)) = map (map (fun t => only_line (with_line t))) (logical_lines ts).
Proof.
  rewrite map_map. set (f := fun t => only_line (with_line t)).
  assert (S : statements (map f ts) = map (map f) (statements ts)).
  { unfold statements. rewrite chunks_map by reflexivity.
    rewrite (filter_map_gen (map f) _ (fun g => negb (existsb is_comma g))).
    - rewrite !map_map. apply map_ext. intros l. apply filter_map_gen. reflexivity.
    - intros l. f_equal. induction l as [|t l IH]; [reflexivity|]. cbn [map existsb]. rewrite IH. reflexivity. }
  unfold logical_lines. destruct ts as [|t ts]; [reflexivity|].
  cbn [map]. change (is_comma (f t)) with (is_comma t). rewrite <- (map_cons f t ts), S.
  destruct (is_comma t); reflexivity.
Qed.

Theorem same_lines_same_parse ts ts' : map with_line ts = map with_line ts' ->
  map_result erase (parse ts) = map_result erase (parse ts').
Proof.
  intros E. rewrite !parse_logical_lines. apply same_types.
  assert (H : forall us, map (map tok_type) (logical_lines us) = map (map tok_type) (logical_lines (map only_line (map with_line us)))).
  { intros us. rewrite lines_of_with_line, map_map. apply map_ext. intros l. rewrite map_map. apply map_ext. reflexivity. }
  rewrite (H ts), (H ts'), E. reflexivity.
Qed.

Theorem results_of_sources r :
  (exists code ts, ascii_str code /\ tokenize code = LexOk ts /\ map_result erase (parse ts) = r) <->
  exists ts, Yields 1 (map with_line ts) /\ map_result erase (parse ts) = r.
Proof.
  split.
  - intros (code & ts & Ha & E & Er). exists ts. split; [|exact Er]. apply sequences. eauto.
  - intros (ts & Y & Er). apply sequences in Y as (code & ts' & Ha & E & El).
    exists code, ts'. split; [exact Ha|]. split; [exact E|]. rewrite <- Er. apply same_lines_same_parse, El.
Qed.
