(** Model of src/lexer/mod.rs, function by function. *)
From Coq Require Import String.
From Verif Require Export Token.
Local Open Scope Z_scope.

(** ** Number literals (src/lexer/mod.rs:15-38) *)

(** [char >= '0' && char <= '9'], src/lexer/mod.rs:21 *)
Definition is_digit (c : char) : bool := N.leb c_zero c && N.leb c c_nine.

(** [char == '-' || char == '+'], src/lexer/mod.rs:18 *)
Definition is_sign (c : char) : bool := N.eqb c c_minus || N.eqb c c_plus.

(** The [enumerate().position(..)] closure of [parse_number],
    src/lexer/mod.rs:16-29: the index of the first character that is not part
    of the literal and the final value of [has_dot_been_used]; [None] if the
    source ends first (the [?] on line 29).
    Simplification: [index as i32 == 0] is [index = 0] (they differ only from
    index 2^32 on). *)
Fixpoint number_position (index : nat) (has_dot : bool) (code : str)
  : option (nat * bool) :=
  match code with
  | [] => None
  | c :: code' =>
    if Nat.eqb index 0 && is_sign c then number_position (S index) has_dot code'
    else if is_digit c then number_position (S index) has_dot code'
    else if negb has_dot && N.eqb c c_dot then number_position (S index) true code'
    else Some (index, has_dot)
  end.

(** Value of a digit string, most significant digit first. *)
Fixpoint digits_value (acc : Z) (s : str) : Z :=
  match s with
  | [] => acc
  | c :: s' => digits_value (10 * acc + (Z.of_N c - Z.of_N c_zero)) s'
  end.

Definition i32_min : Z := -2147483648.
Definition i32_max : Z := 2147483647.

(** Removes an optional sign: [(is_negative, rest)]. *)
Definition split_sign (s : str) : bool * str :=
  match s with
  | c :: s' =>
    if N.eqb c c_minus then (true, s')
    else if N.eqb c c_plus then (false, s')
    else (false, s)
  | [] => (false, s)
  end.

(** [str::parse::<i32>().ok()] (Rust standard library), used on line 35:
    optional sign, at least one digit, only digits, value in range. *)
Definition parse_i32 (s : str) : option Z :=
  let (neg, ds) := split_sign s in
  match ds with
  | [] => None
  | _ =>
    if forallb is_digit ds then
      let v := if neg then - digits_value 0 ds else digits_value 0 ds in
      if (i32_min <=? v) && (v <=? i32_max) then Some v else None
    else None
  end.

(** Splits a string at its first dot: digits before, digits after. *)
Fixpoint split_dot (s : str) : str * option str :=
  match s with
  | [] => ([], None)
  | c :: s' =>
    if N.eqb c c_dot then ([], Some s')
    else let (a, b) := split_dot s' in (c :: a, b)
  end.

(** The binary32 number nearest to [(-1)^neg * m / 10^k] (ties to even). *)
Definition f32_of_decimal (neg : bool) (m : Z) (k : nat) : spec_float :=
  match m with
  | Zpos p =>
    SFdiv 24 128 (S754_finite neg p 0)
          (S754_finite false (Z.to_pos (10 ^ Z.of_nat k)) 0)
  | _ => S754_zero neg
  end.

(** [str::parse::<f32>().ok()] (Rust standard library), used on line 33, on
    strings of the shape that [number_position] selects: optional sign, digits,
    an optional dot, digits; at least one digit.  The value is the correctly
    rounded binary32 number.  Simplification: exponents, "inf" and "nan", which
    Rust also accepts, cannot occur in such strings and are rejected here. *)
Definition parse_f32 (s : str) : option spec_float :=
  let (neg, ds) := split_sign s in
  let (ip, fp) := split_dot ds in
  let fs := match fp with Some f => f | None => [] end in
  if forallb is_digit ip && forallb is_digit fs then
    match ip ++ fs with
    | [] => None
    | ds' => Some (f32_of_decimal neg (digits_value 0 ds') (length fs))
    end
  else None.

(** [parse_number], src/lexer/mod.rs:15-38. *)
Definition parse_number (code : str) : outcome (option (str * number_token)) :=
  match number_position 0 false code with
  | None => Ret None
  | Some (position, has_dot) =>
    obind (slice code 0 position) (fun number_str =>
      if has_dot then
        match parse_f32 number_str with
        | Some x => Ret (Some (number_str, Float x))
        | None => Ret None
        end
      else
        match parse_i32 number_str with
        | Some n => Ret (Some (number_str, Int n))
        | None => Ret None
        end)
  end.

(** ** Keywords (src/lexer/mod.rs:40-52) *)

Definition parse_keyword (code : str) : outcome (option (str * keyword)) :=
  match List.find (fun k => starts_with (to_string_slice k) code) all_symbols with
  | None => Ret None
  | Some k =>
    obind (slice code 0 (byte_len (to_string_slice k))) (fun raw =>
      Ret (Some (raw, k)))
  end.

(** ** Identifiers (src/lexer/mod.rs:54-68) *)

(** The [take_while] predicate, src/lexer/mod.rs:58-60. *)
Definition is_ident_char (c : char) : bool :=
  N.eqb c c_underscore
  || (N.leb c_a c && N.leb c c_z)
  || (N.leb c_A c && N.leb c c_Z).

Definition parse_identifier (code : str) : outcome (option str) :=
  let non_ident_position := count_while is_ident_char code in
  if Nat.eqb non_ident_position 0 then Ret None
  else obind (slice_to code non_ident_position) (fun raw => Ret (Some raw)).

(** ** Strings (src/lexer/mod.rs:70-91) *)

(** The [while let] loop, src/lexer/mod.rs:78-88, from character [index] on:
    the character index of the closing quote. *)
Fixpoint string_end (index : nat) (s : str) : option nat :=
  match s with
  | [] => None
  | c :: s' =>
    if N.eqb c c_colon then
      match s' with
      | c' :: s'' =>
        if N.eqb c' c_quote then string_end (S (S index)) s''
        else string_end (S index) s'
      | [] => string_end (S index) s'
      end
    else if N.eqb c c_quote then Some index
    else string_end (S index) s'
  end.

Definition parse_string (code : str) : outcome (option (str * str)) :=
  let scan rest :=
    match string_end 1 rest with
    | Some index =>
      obind (slice_to code (index + 1)) (fun raw =>
      obind (slice code 1 index) (fun contents =>
      Ret (Some (raw, contents))))
    | None =>
      obind (slice_from code 1) (fun contents => Ret (Some (code, contents)))
    end in
  match code with
  | c :: rest => if negb (N.eqb c c_quote) then Ret None else scan rest
  | [] => scan []
  end.

(** ** Small tokens *)

(** [parse_bukkit_slot_access], src/lexer/mod.rs:93-99. *)
Definition parse_bukkit_slot_access (code : str) : outcome (option str) :=
  if starts_with (lit "'Z") code then
    obind (slice_to code 2) (fun raw => Ret (Some raw))
  else Ret None.

(** [parse_whitespace], src/lexer/mod.rs:101-121: the number of whitespace
    characters and the updated position. *)
Fixpoint parse_whitespace (code : str) (p : position) : nat * position :=
  match code with
  | [] => (O, p)
  | c :: code' =>
    if N.eqb c c_nl then
      let (n, p') :=
        parse_whitespace code'
          {| line := line p + 1; column := 1;
             bytes := bytes p + Z.of_nat (utf8_len c); chars := chars p + 1 |} in
      (S n, p')
    else if N.eqb c c_space || N.eqb c c_tab then
      let (n, p') :=
        parse_whitespace code'
          {| line := line p; column := column p + 1;
             bytes := bytes p + Z.of_nat (utf8_len c); chars := chars p + 1 |} in
      (S n, p')
    else (O, p)
  end.

(** [parse_ellipsis], src/lexer/mod.rs:123-131. *)
Definition parse_ellipsis (code : str) : outcome (option str) :=
  if starts_with (lit "...") code then
    obind (slice_to code 3) (fun raw => Ret (Some raw))
  else if starts_with [c_ellipsis] code then
    obind (slice_to code 1) (fun raw => Ret (Some raw))
  else Ret None.

(** [parse_boolean], src/lexer/mod.rs:133-144. *)
Definition parse_boolean (code : str) : outcome (option (str * bool)) :=
  let true_str := to_string_slice WIN in
  let false_str := to_string_slice FAIL in
  if starts_with true_str code then
    obind (slice_to code (byte_len true_str)) (fun raw => Ret (Some (raw, true)))
  else if starts_with false_str code then
    obind (slice_to code (byte_len false_str)) (fun raw => Ret (Some (raw, false)))
  else Ret None.

(** [parse_noob], src/lexer/mod.rs:146-154. *)
Definition parse_noob (code : str) : outcome (option str) :=
  let noob_str := to_string_slice NOOB in
  if starts_with noob_str code then
    obind (slice_to code (byte_len noob_str)) (fun raw => Ret (Some raw))
  else Ret None.

(** ** Comments *)

(** [parse_single_line_comment], src/lexer/mod.rs:156-166. *)
Definition parse_single_line_comment (code : str) : outcome (option (str * str)) :=
  let btw_str := to_string_slice BTW in
  if starts_with btw_str code then
    let end_len_bytes :=
      match find [c_nl] code with Some n => n | None => byte_len code end in
    obind (slice code (byte_len btw_str) end_len_bytes) (fun comment_contents =>
    obind (slice_to code end_len_bytes) (fun raw =>
    Ret (Some (raw, comment_contents))))
  else Ret None.

(** Result of [parse_multi_line_comment]: [Err(())], [Ok(None)], [Ok(Some ..)]. *)
Inductive ml_result : Set :=
| MlErr
| MlNone
| MlSome (raw contents : str).

(** [parse_multi_line_comment], src/lexer/mod.rs:168-186. *)
Definition parse_multi_line_comment (code : str) : outcome ml_result :=
  let obtw_str := to_string_slice OBTW in
  let tldr_str := to_string_slice TLDR in
  if starts_with obtw_str code then
    match find tldr_str code with
    | None => Ret MlErr
    | Some end_len_bytes =>
      obind (slice code (byte_len obtw_str) end_len_bytes) (fun comment_contents =>
      obind (slice_to code (end_len_bytes + byte_len tldr_str)) (fun raw =>
      Ret (MlSome raw comment_contents)))
    end
  else Ret MlNone.

(** ** The tokenizer loop *)

(** [make_token], src/lexer/mod.rs:188-201: the token, the remaining code and
    the new position. *)
Definition make_token (code : str) (current_position : position)
           (raw_string : str) (tt : token_type)
  : outcome (token * str * position) :=
  let start_position := current_position in
  let current_position' := position_add current_position raw_string in
  obind (slice_from code (byte_len raw_string)) (fun code' =>
    Ret ({| tok_type := tt;
            tok_range := {| r_start := start_position;
                            r_end := current_position' |} |},
         code', current_position')).

(** What one iteration of the [while] loop does. *)
Inductive step_result : Set :=
| SSkip (code : str) (p : position)              (* whitespace skipped, [continue] *)
| SToken (t : token) (code : str) (p : position) (* one token pushed *)
| SError (e : token_error)                       (* [return Err(..)] *)
| SPanic.

Definition of_make (m : outcome (token * str * position)) : step_result :=
  match m with
  | Ret (t, code, p) => SToken t code p
  | Panic => SPanic
  end.

(** Runs a sub-parser: on [Some] emits the token, on [None] goes on. *)
Definition try_token {A} (code : str) (p : position) (m : outcome (option A))
           (raw : A -> str) (tt : A -> token_type) (k : step_result) : step_result :=
  match m with
  | Panic => SPanic
  | Ret (Some a) => of_make (make_token code p (raw a) (tt a))
  | Ret None => k
  end.

(** [if code.starts_with(c) { let raw = &code[..1]; .. }], e.g.
    src/lexer/mod.rs:225-234. *)
Definition one_char (c : char) (code : str) : outcome (option str) :=
  if starts_with [c] code then
    obind (slice_to code 1) (fun raw => Ret (Some raw))
  else Ret None.

(** The body of the [while] loop, src/lexer/mod.rs:215-373, on non-empty code. *)
Definition lex_step (code : str) (p : position) : step_result :=
  (* lines 216-222 *)
  let (nws, p') := parse_whitespace code p in
  if Nat.ltb 0 nws then
    match slice_from code nws with
    | Ret code' => SSkip code' p'
    | Panic => SPanic
    end
  else
  (* lines 225-234 *)
  try_token code p (one_char c_comma code) (fun raw => raw) (fun _ => TComma) (
  (* lines 236-245 *)
  try_token code p (one_char c_bang code) (fun raw => raw) (fun _ => TExclamationMark) (
  (* lines 247-256: tests ',' again, not '?' *)
  try_token code p (one_char c_comma code) (fun raw => raw) (fun _ => TQuestionMark) (
  (* lines 258-266 *)
  try_token code p (parse_single_line_comment code) fst
            (fun a => TCommentSingleLine (snd a)) (
  (* lines 268-284 *)
  match parse_multi_line_comment code with
  | Panic => SPanic
  | Ret MlErr =>
    SError (UnclosedMultilineComment
              {| r_start := p; r_end := position_add p code |})
  | Ret (MlSome raw contents) =>
    of_make (make_token code p raw (TCommentMultiLine contents))
  | Ret MlNone =>
  (* lines 286-294 *)
  try_token code p (parse_bukkit_slot_access code) (fun raw => raw)
            (fun _ => TBukkitSlotAccess) (
  (* lines 296-304 *)
  try_token code p (parse_ellipsis code) (fun raw => raw) (fun _ => TEllipsis) (
  (* lines 306-314 *)
  try_token code p (parse_boolean code) fst
            (fun a => TValue (VBoolean (snd a))) (
  (* lines 316-324 *)
  try_token code p (parse_noob code) (fun raw => raw) (fun _ => TValue VNoob) (
  (* lines 326-334 *)
  try_token code p (parse_keyword code) fst (fun a => TKeyword (snd a)) (
  (* lines 336-344 *)
  try_token code p (parse_number code) fst
            (fun a => TValue (VNumber (snd a))) (
  (* lines 346-354 *)
  try_token code p (parse_string code) fst
            (fun a => TValue (VString (snd a))) (
  (* lines 356-364 *)
  try_token code p (parse_identifier code) (fun raw => raw)
            (fun raw => TIdentifier raw) (
  (* lines 366-372 *)
  match slice_to code 1 with
  | Panic => SPanic
  | Ret raw_symbol => of_make (make_token code p raw_symbol (TSymbol raw_symbol))
  end)))))))) end)))).

(** Result of [tokenize]: [Ok], [Err], a panic, or fuel exhaustion of the model
    (proved impossible, theorem C01). *)
Inductive lex_result : Set :=
| LexOk (tokens : list token)
| LexErr (e : token_error)
| LexPanic
| LexFuel.

Definition lex_cons (t : token) (r : lex_result) : lex_result :=
  match r with
  | LexOk ts => LexOk (t :: ts)
  | _ => r
  end.

(** The [while code.len() > 0] loop, src/lexer/mod.rs:215-375.  The token vector
    is built by prepending to the result of the rest of the loop instead of
    pushing to an accumulator. *)
Fixpoint tokenize_loop (fuel : nat) (code : str) (p : position) : lex_result :=
  match fuel with
  | O => LexFuel
  | S fuel' =>
    match code with
    | [] => LexOk []
    | _ =>
      match lex_step code p with
      | SSkip code' p' => tokenize_loop fuel' code' p'
      | SToken t code' p' => lex_cons t (tokenize_loop fuel' code' p')
      | SError e => LexErr e
      | SPanic => LexPanic
      end
    end
  end.

(** [tokenize], src/lexer/mod.rs:204-376. *)
Definition tokenize (code : str) : lex_result :=
  tokenize_loop (S (length code)) code position_start.
