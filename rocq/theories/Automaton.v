(** Specification for C92: the checker of C89 and the reader of C90 as one
    program that gets the tokens one at a time. *)
From Coq Require Import String.
From Verif Require Export Reader Token Lexer Parser.
Local Open Scope string_scope.
Local Open Scope list_scope.

(** ** One token of a line *)
Definition opens_f (k : list pending) (x : context) (t : token) : option reader :=
  match tok_type t with
  | TValue _ => Some (RDone k x)
  | TIdentifier _ => Some (RNamed (AsOperand k x))
  | TKeyword NOOB => Some (RDone k x)
  | TKeyword SRS => Some (RSrs (AsOperand k x))
  | TKeyword (BOTH_OF | EITHER_OF | WON_OF | SUM_OF | DIFF_OF | PRODUKT_OF | QUOSHUNT_OF | MOD_OF | BIGGR_OF | SMALLR_OF | BOTH_SAEM | DIFFRINT) =>
    Some (RExpr (PBinary :: k) x)
  | TKeyword NOT => Some (RExpr k x)
  | TKeyword (ALL_OF | ANY_OF | SMOOSH) => Some (RMore k x)
  | _ => None
  end.
Definition more_f (k : list pending) (x : context) (t : token) : option reader :=
  match tok_type t with TKeyword MKAY => Some (RDone k x) | _ => opens_f (PNary :: k) x t end.
Definition done_f (k : list pending) (x : context) (t : token) : option reader :=
  match k with
  | PBinary :: k' => match tok_type t with TKeyword AN => Some (RExpr k' x) | _ => opens_f k' x t end
  | PNary :: k' => match tok_type t with TKeyword AN => Some (RMore k' x) | _ => more_f k' x t end
  | [] =>
    match x with
    | AtEnd => None
    | InVisible => match tok_type t with TExclamationMark => Some REnd | _ => opens_f [] InVisible t end
    | InCall => match tok_type t with TKeyword AN => Some RArgs | TKeyword MKAY => Some REnd | _ => None end
    end
  end.
Definition named_f (c : naming) (t : token) : option reader :=
  match c with
  | AsOperand k x => match tok_type t with TBukkitSlotAccess => Some (RName c) | _ => done_f k x t end
  | AsDeclared => match tok_type t with TKeyword ITZ => Some RInit | _ => None end
  | AsInput => match tok_type t with TBukkitSlotAccess => Some (RName c) | _ => None end
  | AsCalled => match tok_type t with TBukkitSlotAccess => Some (RName c) | TKeyword YR => Some (RExpr [] InCall) | TKeyword MKAY => Some REnd | _ => None end
  | AsFirst =>
    match tok_type t with
    | TBukkitSlotAccess => Some (RName c) | TKeyword Keywords.R => Some (RExpr [] AtEnd) | TKeyword HAS_A => Some (RName AsSlot) | _ => None
    end
  | AsSlot => match tok_type t with TKeyword ITZ => Some (RExpr [] AtEnd) | _ => None end
  | AsCounter => match tok_type t with TBukkitSlotAccess => Some (RName c) | TKeyword (TIL | WILE) => Some (RExpr [] AtEnd) | _ => None end
  | AsFunction => match tok_type t with TKeyword YR => Some (RName AsParam) | _ => None end
  | AsParam => match tok_type t with TKeyword AN => Some RParams | _ => None end
  end.
(** The first token of a line in a block, outside the lines that close it. *)
Definition first_f (t : token) : option reader :=
  match tok_type t with
  | TIdentifier _ => Some (RNamed AsFirst)
  | TKeyword SRS => Some (RSrs AsFirst)
  | TKeyword I_HAS_A => Some (RName AsDeclared)
  | TKeyword VISIBLE => Some (RDone [] InVisible)
  | TKeyword GIMMEH => Some (RName AsInput)
  | TKeyword FOUND_YR => Some (RExpr [] AtEnd)
  | TKeyword (KTHXBYE | GTFO) => Some REnd
  | TKeyword I_IZ => Some (RName AsCalled)
  | TKeyword HAI => Some RRest
  | TKeyword IM_IN_YR => Some RLabel
  | TKeyword HOW_IZ_I => Some (RName AsFunction)
  | TKeyword (WTF | O_RLY) => Some RQuestion
  | _ => opens_f [] AtEnd t
  end.
Definition case_f (t : token) : option reader :=
  match tok_type t with TKeyword OMG => Some (RExpr [] AtEnd) | TKeyword (OMGWTF | OIC) => Some REnd | _ => None end.
Definition branch_f (t : token) : option reader :=
  match tok_type t with TKeyword MEBBE => Some (RExpr [] AtEnd) | TKeyword (NO_WAI | OIC) => Some REnd | _ => None end.
Definition oic_f (t : token) : option reader := match tok_type t with TKeyword OIC => Some REnd | _ => None end.
Definition close_f (f : frame) (t : token) : option reader :=
  match f with
  | FLoop => match tok_type t with TKeyword IM_OUTTA_YR => Some REndLabel | _ => None end
  | FFunction => match tok_type t with TKeyword IF_U_SAY_SO => Some REnd | _ => None end
  | FSwitch => case_f t
  | FIf => branch_f t
  | FDefault | FElse => oic_f t
  end.
Definition start_f (s : state) (t : token) : option reader :=
  match s with
  | Fresh _ | Begun [] => first_f t
  | Begun (f :: _) => match close_f f t with Some q => Some q | None => first_f t end
  | NeedEmpty _ => None
  | SwitchHead _ => case_f t
  | IfHead _ => match tok_type t with TKeyword YA_RLY => Some REnd | _ => branch_f t end
  | Ended => Some RRest
  end.
Definition reader_f (q : reader) (t : token) : option reader :=
  match q with
  | RStart s => start_f s t
  | RName c => match tok_type t with TIdentifier _ => Some (RNamed c) | TKeyword SRS => Some (RSrs c) | _ => None end
  | RSrs c => match tok_type t with TIdentifier _ => Some (RNamed c) | _ => None end
  | RNamed c => named_f c t
  | RExpr k x => opens_f k x t
  | RDone k x => done_f k x t
  | RMore k x => more_f k x t
  | RInit => match tok_type t with TKeyword (NUMBR | NUMBAR | YARN | BUKKIT | TROOF) => Some REnd | _ => opens_f [] AtEnd t end
  | RArgs => match tok_type t with TKeyword YR => Some (RExpr [] InCall) | TKeyword MKAY => Some REnd | _ => None end
  | RParams => match tok_type t with TKeyword YR => Some (RName AsParam) | _ => None end
  | RLabel => match tok_type t with TIdentifier _ => Some RLoop | _ => None end
  | RLoop => match tok_type t with TKeyword (UPPIN | NERFIN) => Some RCounter | TKeyword (TIL | WILE) => Some (RExpr [] AtEnd) | _ => None end
  | RCounter => match tok_type t with TKeyword YR => Some (RName AsCounter) | _ => None end
  | REndLabel => match tok_type t with TIdentifier _ => Some REnd | _ => None end
  | RQuestion => if is_question_symbol t then Some REnd else None
  | RRest => Some RRest
  | REnd => None
  end.

(** ** The end of a line *)
Definition may_end_f (k : list pending) (x : context) : bool :=
  forallb (fun p => match p with PNary => true | PBinary => false end) k && match x with InCall => false | _ => true end.
Definition final_f (q : reader) : bool :=
  match q with
  | RStart s => match s with Fresh _ | NeedEmpty _ | Begun [] | Ended => true | _ => false end
  | RNamed (AsOperand k x) | RDone k x | RMore k x => may_end_f k x
  | RNamed (AsDeclared | AsInput | AsFirst | AsCounter | AsFunction | AsParam) => true
  | RParams | RLoop | RRest | REnd => true
  | _ => false
  end.
(** The state after a line with the first token [t]. *)
Definition after_first (open : list frame) (t : token) : state :=
  match tok_type t with
  | TKeyword HAI => NeedEmpty open
  | TKeyword IM_IN_YR => Fresh (FLoop :: open)
  | TKeyword HOW_IZ_I => Fresh (FFunction :: open)
  | TKeyword WTF => SwitchHead open
  | TKeyword O_RLY => IfHead open
  | _ => Begun open
  end.
Definition after_case (open : list frame) (t : token) : state :=
  match tok_type t with TKeyword OMG => Fresh (FSwitch :: open) | TKeyword OMGWTF => Fresh (FDefault :: open) | _ => NeedEmpty open end.
Definition after_branch (open : list frame) (t : token) : state :=
  match tok_type t with TKeyword (YA_RLY | MEBBE) => Fresh (FIf :: open) | TKeyword NO_WAI => Fresh (FElse :: open) | _ => Begun open end.
Definition after_close (f : frame) (open : list frame) (t : token) : state :=
  match f with
  | FLoop => Begun open
  | FFunction | FDefault => NeedEmpty open
  | FSwitch => after_case open t
  | FIf => after_branch open t
  | FElse => Begun open
  end.
Definition after_f (s : state) (first : option token) : state :=
  match s, first with
  | Ended, _ => Ended
  | Begun [], None => Ended
  | (Fresh open | Begun open | NeedEmpty open | SwitchHead open | IfHead open), None => Begun open
  | (Fresh open | NeedEmpty open | Begun ([] as open)), Some t => after_first open t
  | Begun (f :: open), Some t => match close_f f t with Some _ => after_close f open t | None => after_first (f :: open) t end
  | SwitchHead open, Some t => after_case open t
  | IfHead open, Some t => after_branch open t
  end.

(** ** Token vectors *)
(** The state before the current line, the first token of the line, where the
    reader is on it, and the token before the next one. *)
Record config : Set := mkConfig { c_state : state; c_first : option token; c_reader : reader; c_last : token }.

Definition end_line (s : state) (first : option token) (q : reader) : option state :=
  if final_f q then Some (after_f s first) else None.
Definition read_token (s : state) (first : option token) (q : reader) (t : token) : option config :=
  if is_ellipsis t then Some (mkConfig s first q t)
  else match reader_f q t with
       | Some q' => Some (mkConfig s (match first with None => Some t | _ => first end) q' t)
       | None => None
       end.
(** The first token of a line; commas are on no line. *)
Definition new_line (s : state) (t : token) : option config :=
  if is_comma t then Some (mkConfig s None (RStart s) t) else read_token s None (RStart s) t.
Definition same_line (t u : token) : bool :=
  negb (is_comma t) && negb (is_comma u) && (is_ellipsis t || (line (start_of t) =? line (start_of u))%Z).
Definition next_token (c : config) (t : token) : option config :=
  let '(mkConfig s first q u) := c in
  if same_line u t then read_token s first q t
  else if is_comma u then new_line s t
  else match end_line s first q with Some s' => new_line s' t | None => None end.
Fixpoint run (c : config) (ts : list token) : option config :=
  match ts with
  | [] => Some c
  | t :: ts' => match next_token c t with Some c' => run c' ts' | None => None end
  end.
(** A vector that starts with a comma has an empty line before it. *)
Definition start (t : token) : option config :=
  new_line (if is_comma t then Begun [] else Fresh []) t.
Definition last_state (c : config) : option state :=
  if is_comma (c_last c) then Some (c_state c) else end_line (c_state c) (c_first c) (c_reader c).
Definition complete_f (s : state) : bool := match s with Fresh [] | Begun [] | NeedEmpty [] | Ended => true | _ => false end.
Definition accepts (ts : list token) : bool :=
  match ts with
  | [] => true
  | t :: ts' =>
    match start t with
    | None => false
    | Some c => match run c ts' with
                | Some c' => match last_state c' with Some s => complete_f s | None => false end
                | None => false
                end
    end
  end.
(** All tokens can be read; the vector may be unfinished. *)
Definition reads (ts : list token) : bool :=
  match ts with [] => true | t :: ts' => match start t with Some c => match run c ts' with Some _ => true | None => false end | None => false end end.
Definition accepts_source (code : str) : bool :=
  match tokenize code with LexOk ts => accepts ts | _ => false end.

(** ** The stacks *)
Definition naming_size (c : naming) : nat := match c with AsOperand k _ => length k | _ => 0 end.
Definition reader_size (q : reader) : nat :=
  match q with
  | RName c | RSrs c | RNamed c => naming_size c
  | RExpr k _ | RDone k _ => length k
  | RMore k _ => S (length k)                           (* in the operation itself *)
  | _ => 0
  end.
Definition state_size (s : state) : nat :=
  match s with Fresh open | Begun open | NeedEmpty open | SwitchHead open | IfHead open => length open | Ended => 0 end.
Definition config_size (c : config) : nat := state_size (c_state c) + reader_size (c_reader c).
