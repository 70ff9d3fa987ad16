(** Specification: the lexer with a counter of the characters it reads.

    Each function of Lexer.v that looks at the characters of the source is
    repeated with a counter.  One unit is one character of the source examined,
    compared, scanned or copied.  Slicing a [&str], reading its length in bytes
    and pushing to a vector cost nothing.  That the copies compute what the
    originals compute is the first part of theorem C60. *)
From Coq Require Import String.
From Verif Require Export Lexer.

(** A result and the number of characters read to get it. *)
Definition counted (A : Type) : Type := (A * nat)%type.
Definition cret {A} (a : A) : counted A := (a, 0).
Definition cread {A} (n : nat) (m : counted A) : counted A := (fst m, n + snd m).
Definition cbind {A B} (m : counted A) (f : A -> counted B) : counted B :=
  cread (snd m) (f (fst m)).

(** [s.starts_with(p)]: compares until the first difference. *)
Fixpoint starts_with_c (p s : str) : counted bool :=
  match p, s with
  | [], _ => cret true
  | _ :: _, [] => cret false
  | a :: p', b :: s' => cread 1 (if N.eqb a b then starts_with_c p' s' else cret false)
  end.

(** [s.find(p)]: the characters up to the end of the first occurrence, or all of
    them (the search of the Rust standard library is linear). *)
Fixpoint find_c (p s : str) : counted (option nat) :=
  if starts_with p s then (Some 0, length p)
  else match s with
       | [] => cret None
       | c :: s' =>
         cread 1 (cbind (find_c p s') (fun r =>
           cret (match r with Some n => Some (utf8_len c + n) | None => None end)))
       end.

(** [chars().take_while(p).count()]: the characters counted and the one that
    ends the run. *)
Fixpoint count_while_c (p : char -> bool) (s : str) : counted nat :=
  match s with
  | [] => cret 0
  | c :: s' =>
    cread 1 (if p c then cbind (count_while_c p s') (fun n => cret (S n)) else cret 0)
  end.

(** src/lexer/mod.rs:16-29 *)
Fixpoint number_position_c (index : nat) (has_dot : bool) (code : str)
  : counted (option (nat * bool)) :=
  match code with
  | [] => cret None
  | c :: code' =>
    cread 1 (
      if Nat.eqb index 0 && is_sign c then number_position_c (S index) has_dot code'
      else if is_digit c then number_position_c (S index) has_dot code'
      else if negb has_dot && N.eqb c c_dot then number_position_c (S index) true code'
      else cret (Some (index, has_dot)))
  end.

(** src/lexer/mod.rs:15-38; [str::parse] is counted as reading all of its
    argument. *)
Definition parse_number_c (code : str) : counted (outcome (option (str * number_token))) :=
  cbind (number_position_c 0 false code) (fun r =>
  match r with
  | None => cret (Ret None)
  | Some (position, has_dot) =>
    match slice code 0 position with
    | Panic => cret Panic
    | Ret number_str =>
      cread (length number_str) (cret (
        if has_dot then
          match parse_f32 number_str with
          | Some x => Ret (Some (number_str, Float x))
          | None => Ret None
          end
        else
          match parse_i32 number_str with
          | Some n => Ret (Some (number_str, Int n))
          | None => Ret None
          end))
    end
  end).

(** The [find] of [parse_keyword]: the spellings are tried in order until one
    matches. *)
Fixpoint find_keyword_c (l : list keyword) (code : str) : counted (option keyword) :=
  match l with
  | [] => cret None
  | k :: l' =>
    cbind (starts_with_c (to_string_slice k) code) (fun b : bool =>
      if b then cret (Some k) else find_keyword_c l' code)
  end.

(** src/lexer/mod.rs:40-52 *)
Definition parse_keyword_c (code : str) : counted (outcome (option (str * keyword))) :=
  cbind (find_keyword_c all_symbols code) (fun r =>
  match r with
  | None => cret (Ret None)
  | Some k =>
    cret (obind (slice code 0 (byte_len (to_string_slice k))) (fun raw => Ret (Some (raw, k))))
  end).

(** src/lexer/mod.rs:54-68 *)
Definition parse_identifier_c (code : str) : counted (outcome (option str)) :=
  cbind (count_while_c is_ident_char code) (fun n =>
  cret (if Nat.eqb n 0 then Ret None
        else obind (slice_to code n) (fun raw => Ret (Some raw)))).

(** src/lexer/mod.rs:78-88; the character that [peek] shows is counted by the
    [next] that takes it. *)
Fixpoint string_end_c (index : nat) (s : str) : counted (option nat) :=
  match s with
  | [] => cret None
  | c :: s' =>
    cread 1 (
      if N.eqb c c_colon then
        match s' with
        | c' :: s'' =>
          if N.eqb c' c_quote then cread 1 (string_end_c (S (S index)) s'')
          else string_end_c (S index) s'
        | [] => string_end_c (S index) s'
        end
      else if N.eqb c c_quote then cret (Some index)
      else string_end_c (S index) s')
  end.

(** src/lexer/mod.rs:70-91 *)
Definition parse_string_c (code : str) : counted (outcome (option (str * str))) :=
  let scan rest :=
    cbind (string_end_c 1 rest) (fun r =>
    cret (match r with
          | Some index =>
            obind (slice_to code (index + 1)) (fun raw =>
            obind (slice code 1 index) (fun contents =>
            Ret (Some (raw, contents))))
          | None =>
            obind (slice_from code 1) (fun contents => Ret (Some (code, contents)))
          end)) in
  match code with
  | c :: rest => cread 1 (if negb (N.eqb c c_quote) then cret (Ret None) else scan rest)
  | [] => scan []
  end.

(** src/lexer/mod.rs:93-99 *)
Definition parse_bukkit_slot_access_c (code : str) : counted (outcome (option str)) :=
  cbind (starts_with_c (lit "'Z") code) (fun b : bool =>
  cret (if b then obind (slice_to code 2) (fun raw => Ret (Some raw)) else Ret None)).

(** src/lexer/mod.rs:101-121: the characters counted and the one that ends the
    run. *)
Fixpoint parse_whitespace_c (code : str) (p : position) : counted (nat * position) :=
  match code with
  | [] => cret (O, p)
  | c :: code' =>
    cread 1 (
      if N.eqb c c_nl then
        cbind (parse_whitespace_c code'
          {| line := line p + 1; column := 1;
             bytes := bytes p + Z.of_nat (utf8_len c); chars := chars p + 1 |})
          (fun np => cret (S (fst np), snd np))
      else if N.eqb c c_space || N.eqb c c_tab then
        cbind (parse_whitespace_c code'
          {| line := line p; column := column p + 1;
             bytes := bytes p + Z.of_nat (utf8_len c); chars := chars p + 1 |})
          (fun np => cret (S (fst np), snd np))
      else cret (O, p))
  end.

(** src/lexer/mod.rs:123-131 *)
Definition parse_ellipsis_c (code : str) : counted (outcome (option str)) :=
  cbind (starts_with_c (lit "...") code) (fun b : bool =>
  if b then cret (obind (slice_to code 3) (fun raw => Ret (Some raw)))
  else cbind (starts_with_c [c_ellipsis] code) (fun b' : bool =>
  if b' then cret (obind (slice_to code 1) (fun raw => Ret (Some raw)))
  else cret (Ret None))).

(** src/lexer/mod.rs:133-144 *)
Definition parse_boolean_c (code : str) : counted (outcome (option (str * bool))) :=
  let true_str := to_string_slice WIN in
  let false_str := to_string_slice FAIL in
  cbind (starts_with_c true_str code) (fun b : bool =>
  if b then cret (obind (slice_to code (byte_len true_str)) (fun raw => Ret (Some (raw, true))))
  else cbind (starts_with_c false_str code) (fun b' : bool =>
  if b' then cret (obind (slice_to code (byte_len false_str)) (fun raw => Ret (Some (raw, false))))
  else cret (Ret None))).

(** src/lexer/mod.rs:146-154 *)
Definition parse_noob_c (code : str) : counted (outcome (option str)) :=
  let noob_str := to_string_slice NOOB in
  cbind (starts_with_c noob_str code) (fun b : bool =>
  cret (if b then obind (slice_to code (byte_len noob_str)) (fun raw => Ret (Some raw))
        else Ret None)).

(** src/lexer/mod.rs:156-166; the contents are copied ([to_string]). *)
Definition parse_single_line_comment_c (code : str) : counted (outcome (option (str * str))) :=
  let btw_str := to_string_slice BTW in
  cbind (starts_with_c btw_str code) (fun b : bool =>
  if b then
    cbind (find_c [c_nl] code) (fun r =>
    let end_len_bytes := match r with Some n => n | None => byte_len code end in
    match slice code (byte_len btw_str) end_len_bytes with
    | Panic => cret Panic
    | Ret comment_contents =>
      cread (length comment_contents) (cret (
        obind (slice_to code end_len_bytes) (fun raw =>
        Ret (Some (raw, comment_contents)))))
    end)
  else cret (Ret None)).

(** src/lexer/mod.rs:168-186; the contents are copied ([to_string]). *)
Definition parse_multi_line_comment_c (code : str) : counted (outcome ml_result) :=
  let obtw_str := to_string_slice OBTW in
  let tldr_str := to_string_slice TLDR in
  cbind (starts_with_c obtw_str code) (fun b : bool =>
  if b then
    cbind (find_c tldr_str code) (fun r =>
    match r with
    | None => cret (Ret MlErr)
    | Some end_len_bytes =>
      match slice code (byte_len obtw_str) end_len_bytes with
      | Panic => cret Panic
      | Ret comment_contents =>
        cread (length comment_contents) (cret (
          obind (slice_to code (end_len_bytes + byte_len tldr_str)) (fun raw =>
          Ret (MlSome raw comment_contents))))
      end
    end)
  else cret (Ret MlNone)).

(** src/lexer/mod.rs:188-201: [*current_position += raw_string] counts the
    characters of the raw string; [copied] is the text that the token copies. *)
Definition make_token_c (code : str) (p : position) (raw copied : str) (ty : token_type)
  : counted step_result :=
  cread (length raw + length copied) (cret (of_make (make_token code p raw ty))).

Definition try_token_c {A} (code : str) (p : position) (m : counted (outcome (option A)))
           (raw copied : A -> str) (ty : A -> token_type) (k : counted step_result)
  : counted step_result :=
  cbind m (fun r =>
  match r with
  | Panic => cret SPanic
  | Ret (Some a) => make_token_c code p (raw a) (copied a) (ty a)
  | Ret None => k
  end).

Definition one_char_c (c : char) (code : str) : counted (outcome (option str)) :=
  cbind (starts_with_c [c] code) (fun b : bool =>
  cret (if b then obind (slice_to code 1) (fun raw => Ret (Some raw)) else Ret None)).

(** The body of the loop, src/lexer/mod.rs:215-373.  The strings are copied for
    string literals (line 351), identifiers (line 361) and symbols (line 371). *)
Definition lex_step_c (code : str) (p : position) : counted step_result :=
  cbind (parse_whitespace_c code p) (fun np =>
  let (nws, p') := np in
  if Nat.ltb 0 nws then
    cret (match slice_from code nws with
          | Ret code' => SSkip code' p'
          | Panic => SPanic
          end)
  else
  try_token_c code p (one_char_c c_comma code) (fun raw => raw) (fun _ => []) (fun _ => TComma) (
  try_token_c code p (one_char_c c_bang code) (fun raw => raw) (fun _ => [])
              (fun _ => TExclamationMark) (
  try_token_c code p (one_char_c c_comma code) (fun raw => raw) (fun _ => [])
              (fun _ => TQuestionMark) (
  try_token_c code p (parse_single_line_comment_c code) fst (fun _ => [])
              (fun a => TCommentSingleLine (snd a)) (
  cbind (parse_multi_line_comment_c code) (fun r =>
  match r with
  | Panic => cret SPanic
  | Ret MlErr =>
    cread (length code) (cret (SError (UnclosedMultilineComment
              {| r_start := p; r_end := position_add p code |})))
  | Ret (MlSome raw contents) => make_token_c code p raw [] (TCommentMultiLine contents)
  | Ret MlNone =>
  try_token_c code p (parse_bukkit_slot_access_c code) (fun raw => raw) (fun _ => [])
              (fun _ => TBukkitSlotAccess) (
  try_token_c code p (parse_ellipsis_c code) (fun raw => raw) (fun _ => [])
              (fun _ => TEllipsis) (
  try_token_c code p (parse_boolean_c code) fst (fun _ => [])
              (fun a => TValue (VBoolean (snd a))) (
  try_token_c code p (parse_noob_c code) (fun raw => raw) (fun _ => [])
              (fun _ => TValue VNoob) (
  try_token_c code p (parse_keyword_c code) fst (fun _ => []) (fun a => TKeyword (snd a)) (
  try_token_c code p (parse_number_c code) fst (fun _ => [])
              (fun a => TValue (VNumber (snd a))) (
  try_token_c code p (parse_string_c code) fst snd (fun a => TValue (VString (snd a))) (
  try_token_c code p (parse_identifier_c code) (fun raw => raw) (fun raw => raw)
              (fun raw => TIdentifier raw) (
  match slice_to code 1 with
  | Panic => cret SPanic
  | Ret raw_symbol => make_token_c code p raw_symbol raw_symbol (TSymbol raw_symbol)
  end)))))))) end)))))).

(** src/lexer/mod.rs:215-375 *)
Fixpoint tokenize_loop_c (fuel : nat) (code : str) (p : position) : counted lex_result :=
  match fuel with
  | O => cret LexFuel
  | S fuel' =>
    match code with
    | [] => cret (LexOk [])
    | _ =>
      cbind (lex_step_c code p) (fun r =>
      match r with
      | SSkip code' p' => tokenize_loop_c fuel' code' p'
      | SToken t code' p' =>
        cbind (tokenize_loop_c fuel' code' p') (fun r' => cret (lex_cons t r'))
      | SError e => cret (LexErr e)
      | SPanic => cret LexPanic
      end)
    end
  end.

Definition tokenize_c (code : str) : counted lex_result :=
  tokenize_loop_c (S (length code)) code position_start.

(** The number of characters that [tokenize] reads. *)
Definition lexer_reads (code : str) : nat := snd (tokenize_c code).

(** A character that can be part of a number. *)
Definition numeric (c : char) : Prop :=
  (48 <= c <= 57)%N \/ c = 43%N \/ c = 45%N \/ c = 46%N.

(** No run of [L + 1] such characters. *)
Definition numeric_runs_within (L : nat) (code : str) : Prop :=
  forall a b c, code = a ++ b ++ c -> Forall numeric b -> length b <= L.
