(** Specification: an AST without error nodes, at any depth. *)
From Verif Require Export Ast.

Fixpoint node_clean (n : node) : bool :=
  match n with
  | NASTError _ => false
  | NImInYr x => im_in_yr_clean x
  | NWtf x => wtf_clean x
  | NORly x => o_rly_clean x
  | NHowIzI x => how_iz_i_clean x
  | _ => true
  end
with block_clean (b : block) : bool :=
  match b with ASTBlock ns => forallb node_clean ns end
with im_in_yr_clean (x : im_in_yr) : bool :=
  match x with ImInYr _ _ _ _ b _ => block_clean b end
with wtf_clean (x : wtf) : bool :=
  match x with
  | Wtf _ omgs default =>
    forallb wtf_omg_clean omgs &&
    match default with Some d => wtf_omg_wtf_clean d | None => true end
  end
with wtf_omg_clean (x : wtf_omg) : bool := match x with WtfOmg _ _ b => block_clean b end
with wtf_omg_wtf_clean (x : wtf_omg_wtf) : bool := match x with WtfOmgWtf _ b => block_clean b end
with o_rly_clean (x : o_rly) : bool :=
  match x with
  | ORly _ yes no mebbes =>
    match yes with Some y => ya_rly_clean y | None => true end &&
    match no with Some y => no_wai_clean y | None => true end &&
    forallb mebbe_clean mebbes
  end
with ya_rly_clean (x : ya_rly) : bool := match x with YaRly _ b => block_clean b end
with no_wai_clean (x : no_wai) : bool := match x with NoWai _ b => block_clean b end
with mebbe_clean (x : mebbe) : bool := match x with Mebbe _ _ b => block_clean b end
with how_iz_i_clean (x : how_iz_i) : bool := match x with HowIzI _ _ _ b => block_clean b end.
