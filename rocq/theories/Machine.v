(** Model of src/lexer/mod.rs and src/lexer/position.rs with the 32-bit
    arithmetic of the code.  Token.v and Lexer.v compute positions in unbounded
    integers; here every [i32] addition can overflow, every [as i32] cuts off
    bits, and the result depends on how the crate is built.  The functions that
    compute no [i32] are those of Lexer.v. *)
From Coq Require Import String.
From Verif Require Export Lexer Api.
Local Open Scope Z_scope.

(** Builds with and without overflow checks ([cargo build] and
    [cargo build --release]). *)
Inductive build : Set := Checked | Wrapping.

(** [as i32]: the lowest 32 bits, as a signed number. *)
Definition as_i32 (z : Z) : Z := (z + 2 ^ 31) mod 2 ^ 32 - 2 ^ 31.

(** [a + b] and [a += b] for [i32]. *)
Definition add_i32 (b : build) (x y : Z) : outcome Z :=
  if (i32_min <=? x + y) && (x + y <=? i32_max) then Ret (x + y)
  else match b with
       | Checked => Panic
       | Wrapping => Ret (as_i32 (x + y))
       end.

(** [Add<&str>] and [AddAssign<&str>], src/lexer/position.rs:41-59. *)
Definition position_add_m (b : build) (p : position) (s : str) : outcome position :=
  obind (add_i32 b (column p) (as_i32 (Z.of_nat (byte_len s)))) (fun column' =>
  obind (add_i32 b (chars p) (as_i32 (Z.of_nat (length s)))) (fun chars' =>
  obind (add_i32 b (bytes p) (as_i32 (Z.of_nat (byte_len s)))) (fun bytes' =>
  Ret {| line := line p; column := column'; bytes := bytes'; chars := chars' |}))).

(** The closure of [parse_number], src/lexer/mod.rs:16-29, with
    [index as i32 == 0]. *)
Fixpoint number_position_m (index : nat) (has_dot : bool) (code : str)
  : option (nat * bool) :=
  match code with
  | [] => None
  | c :: code' =>
    if (as_i32 (Z.of_nat index) =? 0) && is_sign c then number_position_m (S index) has_dot code'
    else if is_digit c then number_position_m (S index) has_dot code'
    else if negb has_dot && N.eqb c c_dot then number_position_m (S index) true code'
    else Some (index, has_dot)
  end.

(** [parse_number], src/lexer/mod.rs:15-38. *)
Definition parse_number_m (code : str) : outcome (option (str * number_token)) :=
  match number_position_m 0 false code with
  | None => Ret None
  | Some (position, has_dot) =>
    obind (slice code 0 position) (fun number_str =>
      if has_dot then
        match parse_f32 number_str with
        | Some x => Ret (Some (number_str, Float x))
        | None => Ret None
        end
      else
        match parse_i32 number_str with
        | Some n => Ret (Some (number_str, Int n))
        | None => Ret None
        end)
  end.

(** [parse_whitespace], src/lexer/mod.rs:101-121. *)
Fixpoint parse_whitespace_m (b : build) (code : str) (p : position) : outcome (nat * position) :=
  match code with
  | [] => Ret (O, p)
  | c :: code' =>
    if N.eqb c c_nl then
      obind (add_i32 b (line p) 1) (fun line' =>
      obind (add_i32 b (bytes p) (as_i32 (Z.of_nat (utf8_len c)))) (fun bytes' =>
      obind (add_i32 b (chars p) 1) (fun chars' =>
      obind (parse_whitespace_m b code'
               {| line := line'; column := 1; bytes := bytes'; chars := chars' |}) (fun r =>
      Ret (S (fst r), snd r)))))
    else if N.eqb c c_space || N.eqb c c_tab then
      obind (add_i32 b (column p) 1) (fun column' =>
      obind (add_i32 b (bytes p) (as_i32 (Z.of_nat (utf8_len c)))) (fun bytes' =>
      obind (add_i32 b (chars p) 1) (fun chars' =>
      obind (parse_whitespace_m b code'
               {| line := line p; column := column'; bytes := bytes'; chars := chars' |}) (fun r =>
      Ret (S (fst r), snd r)))))
    else Ret (O, p)
  end.

(** [make_token], src/lexer/mod.rs:188-201. *)
Definition make_token_m (b : build) (code : str) (current_position : position)
           (raw_string : str) (tt : token_type)
  : outcome (token * str * position) :=
  obind (position_add_m b current_position raw_string) (fun current_position' =>
  obind (slice_from code (byte_len raw_string)) (fun code' =>
    Ret ({| tok_type := tt;
            tok_range := {| r_start := current_position;
                            r_end := current_position' |} |},
         code', current_position'))).

Definition try_token_m {A} (b : build) (code : str) (p : position) (m : outcome (option A))
           (raw : A -> str) (tt : A -> token_type) (k : step_result) : step_result :=
  match m with
  | Panic => SPanic
  | Ret (Some a) => of_make (make_token_m b code p (raw a) (tt a))
  | Ret None => k
  end.

(** The body of the [while] loop, src/lexer/mod.rs:215-373. *)
Definition lex_step_m (b : build) (code : str) (p : position) : step_result :=
  match parse_whitespace_m b code p with
  | Panic => SPanic
  | Ret (nws, p') =>
  if Nat.ltb 0 nws then
    match slice_from code nws with
    | Ret code' => SSkip code' p'
    | Panic => SPanic
    end
  else
  try_token_m b code p (one_char c_comma code) (fun raw => raw) (fun _ => TComma) (
  try_token_m b code p (one_char c_bang code) (fun raw => raw) (fun _ => TExclamationMark) (
  try_token_m b code p (one_char c_comma code) (fun raw => raw) (fun _ => TQuestionMark) (
  try_token_m b code p (parse_single_line_comment code) fst
            (fun a => TCommentSingleLine (snd a)) (
  match parse_multi_line_comment code with
  | Panic => SPanic
  | Ret MlErr =>
    match position_add_m b p code with
    | Ret e => SError (UnclosedMultilineComment {| r_start := p; r_end := e |})
    | Panic => SPanic
    end
  | Ret (MlSome raw contents) =>
    of_make (make_token_m b code p raw (TCommentMultiLine contents))
  | Ret MlNone =>
  try_token_m b code p (parse_bukkit_slot_access code) (fun raw => raw)
            (fun _ => TBukkitSlotAccess) (
  try_token_m b code p (parse_ellipsis code) (fun raw => raw) (fun _ => TEllipsis) (
  try_token_m b code p (parse_boolean code) fst
            (fun a => TValue (VBoolean (snd a))) (
  try_token_m b code p (parse_noob code) (fun raw => raw) (fun _ => TValue VNoob) (
  try_token_m b code p (parse_keyword code) fst (fun a => TKeyword (snd a)) (
  try_token_m b code p (parse_number_m code) fst
            (fun a => TValue (VNumber (snd a))) (
  try_token_m b code p (parse_string code) fst
            (fun a => TValue (VString (snd a))) (
  try_token_m b code p (parse_identifier code) (fun raw => raw)
            (fun raw => TIdentifier raw) (
  match slice_to code 1 with
  | Panic => SPanic
  | Ret raw_symbol => of_make (make_token_m b code p raw_symbol (TSymbol raw_symbol))
  end)))))))) end))))
  end.

(** The [while] loop, src/lexer/mod.rs:215-375. *)
Fixpoint tokenize_loop_m (b : build) (fuel : nat) (code : str) (p : position) : lex_result :=
  match fuel with
  | O => LexFuel
  | S fuel' =>
    match code with
    | [] => LexOk []
    | _ =>
      match lex_step_m b code p with
      | SSkip code' p' => tokenize_loop_m b fuel' code' p'
      | SToken t code' p' => lex_cons t (tokenize_loop_m b fuel' code' p')
      | SError e => LexErr e
      | SPanic => LexPanic
      end
    end
  end.

(** [tokenize], src/lexer/mod.rs:204-376. *)
Definition tokenize_m (b : build) (code : str) : lex_result :=
  tokenize_loop_m b (S (length code)) code position_start.

(** [tokenize_and_parse], src/lib.rs:76-79. *)
Definition tokenize_and_parse_m (b : build) (code : str) : api_result :=
  match tokenize_m b code with
  | LexErr e => ApiErr e
  | LexPanic => ApiPanic
  | LexFuel => ApiFuel
  | LexOk tokens =>
    match parse tokens with
    | ParseOk b => ApiOk b
    | ParsePanic _ => ApiPanic
    | ParseFuel => ApiFuel
    end
  end.
