(** Model of src/lexer/mod.rs and src/lexer/position.rs on the bytes of Rust's
    [str] and with the 32-bit arithmetic of the code.  Lexer.v and Machine.v take
    a source to be the list of its characters; here it is the list of its bytes,
    slices are slices of bytes, and characters exist only where the code asks
    for them with [chars()].  The closures that run over such characters are
    those of Lexer.v and Machine.v. *)
From Coq Require Import String.
From Verif Require Export Machine.
Local Open Scope N_scope.

Definition bstr := list N.

(** ** The operations of [str] (Rust standard library) *)

(** [core::str::validations::next_code_point], one step of [chars()].  The code
    reads the second to fourth byte without checking that they exist; the [None]
    there cannot occur in UTF-8. *)
Definition acc_cont_byte (ch byte : N) : N := N.lor (N.shiftl ch 6) (N.land byte 63).
Definition next_code_point (bs : bstr) : option (char * bstr) :=
  match bs with
  | [] => None
  | x :: bs1 =>
    if x <? 128 then Some (x, bs1)
    else
      let init := N.land x 31 in
      match bs1 with
      | [] => None
      | y :: bs2 =>
        if x <? 224 then Some (acc_cont_byte init y, bs2)
        else
          match bs2 with
          | [] => None
          | z :: bs3 =>
            let y_z := acc_cont_byte (N.land y 63) z in
            if x <? 240 then Some (N.lor (N.shiftl init 12) y_z, bs3)
            else
              match bs3 with
              | [] => None
              | w :: bs4 => Some (N.lor (N.shiftl (N.land init 7) 18) (acc_cont_byte y_z w), bs4)
              end
          end
      end
  end.

(** The items of [chars()]; there are at most as many as bytes. *)
Fixpoint chars_loop (fuel : nat) (bs : bstr) : str :=
  match fuel with
  | O => []
  | S fuel' =>
    match next_code_point bs with
    | Some (c, bs') => c :: chars_loop fuel' bs'
    | None => []
    end
  end.
Definition b_chars (bs : bstr) : str := chars_loop (length bs) bs.

(** [is_char_boundary]: [(b as i8) >= -0x40] says that [b] is not a continuation
    byte. *)
Definition b_is_char_boundary (bs : bstr) (n : nat) : bool :=
  Nat.eqb n 0 ||
  match nth_error bs n with
  | Some b => (b <? 128) || (192 <=? b)
  | None => Nat.eqb n (length bs)
  end.

(** [&s[..n]], [&s[n..]] and [&s[a..b]] *)
Definition b_slice_to (bs : bstr) (n : nat) : outcome bstr :=
  if b_is_char_boundary bs n then Ret (firstn n bs) else Panic.
Definition b_slice_from (bs : bstr) (n : nat) : outcome bstr :=
  if b_is_char_boundary bs n then Ret (skipn n bs) else Panic.
Definition b_slice (bs : bstr) (a b : nat) : outcome bstr :=
  if Nat.leb a b && b_is_char_boundary bs a && b_is_char_boundary bs b
  then Ret (firstn (b - a) (skipn a bs)) else Panic.

(** [starts_with] and [find]; the pattern given by its bytes. *)
Fixpoint b_starts_with (p bs : bstr) : bool :=
  match p, bs with
  | [], _ => true
  | _ :: _, [] => false
  | a :: p', b :: bs' => N.eqb a b && b_starts_with p' bs'
  end.
Fixpoint b_find (p bs : bstr) : option nat :=
  if b_starts_with p bs then Some O
  else match bs with
       | [] => None
       | _ :: bs' => match b_find p bs' with Some n => Some (S n) | None => None end
       end.

(** String literals of the Rust source, all ASCII but ['\u{2026}']. *)
Fixpoint b_lit (s : string) : bstr :=
  match s with
  | EmptyString => []
  | String a s' => Ascii.N_of_ascii a :: b_lit s'
  end.
Definition b_ellipsis : bstr := [226; 128; 166].
(** The literals of the [to_string_slice] function, ASCII too. *)
Definition b_keyword (k : keyword) : bstr := to_string_slice k.

(** ** The lexer *)

(** [Add<&str>] and [AddAssign<&str>], src/lexer/position.rs:41-59. *)
Definition b_position_add (b : build) (p : position) (s : bstr) : outcome position :=
  obind (add_i32 b (column p) (as_i32 (Z.of_nat (length s)))) (fun column' =>
  obind (add_i32 b (chars p) (as_i32 (Z.of_nat (length (b_chars s))))) (fun chars' =>
  obind (add_i32 b (bytes p) (as_i32 (Z.of_nat (length s)))) (fun bytes' =>
  Ret {| line := line p; column := column'; bytes := bytes'; chars := chars' |}))).

(** [parse_number], src/lexer/mod.rs:15-38; [parse::<f32>] and [parse::<i32>]
    read the bytes of [number_str]. *)
Definition b_parse_number (code : bstr) : outcome (option (bstr * number_token)) :=
  match number_position_m 0 false (b_chars code) with
  | None => Ret None
  | Some (position, has_dot) =>
    obind (b_slice code 0 position) (fun number_str =>
      if has_dot then
        match parse_f32 number_str with
        | Some x => Ret (Some (number_str, Float x))
        | None => Ret None
        end
      else
        match parse_i32 number_str with
        | Some n => Ret (Some (number_str, Int n))
        | None => Ret None
        end)
  end.

(** [parse_keyword], src/lexer/mod.rs:40-52. *)
Definition b_parse_keyword (code : bstr) : outcome (option (bstr * keyword)) :=
  match List.find (fun k => b_starts_with (b_keyword k) code) all_symbols with
  | None => Ret None
  | Some k =>
    obind (b_slice code 0 (length (b_keyword k))) (fun raw => Ret (Some (raw, k)))
  end.

(** [parse_identifier], src/lexer/mod.rs:54-68. *)
Definition b_parse_identifier (code : bstr) : outcome (option bstr) :=
  let non_ident_position := count_while is_ident_char (b_chars code) in
  if Nat.eqb non_ident_position 0 then Ret None
  else obind (b_slice_to code non_ident_position) (fun raw => Ret (Some raw)).

(** [parse_string], src/lexer/mod.rs:70-91. *)
Definition b_parse_string (code : bstr) : outcome (option (bstr * bstr)) :=
  let scan rest :=
    match string_end 1 rest with
    | Some index =>
      obind (b_slice_to code (index + 1)) (fun raw =>
      obind (b_slice code 1 index) (fun contents =>
      Ret (Some (raw, contents))))
    | None =>
      obind (b_slice_from code 1) (fun contents => Ret (Some (code, contents)))
    end in
  match b_chars code with
  | c :: rest => if negb (N.eqb c c_quote) then Ret None else scan rest
  | [] => scan []
  end.

(** [parse_bukkit_slot_access], src/lexer/mod.rs:93-99. *)
Definition b_parse_bukkit_slot_access (code : bstr) : outcome (option bstr) :=
  if b_starts_with (b_lit "'Z") code then
    obind (b_slice_to code 2) (fun raw => Ret (Some raw))
  else Ret None.

(** [parse_ellipsis], src/lexer/mod.rs:123-131. *)
Definition b_parse_ellipsis (code : bstr) : outcome (option bstr) :=
  if b_starts_with (b_lit "...") code then
    obind (b_slice_to code 3) (fun raw => Ret (Some raw))
  else if b_starts_with b_ellipsis code then
    obind (b_slice_to code 1) (fun raw => Ret (Some raw))
  else Ret None.

(** [parse_boolean], src/lexer/mod.rs:133-144. *)
Definition b_parse_boolean (code : bstr) : outcome (option (bstr * bool)) :=
  let true_str := b_keyword WIN in
  let false_str := b_keyword FAIL in
  if b_starts_with true_str code then
    obind (b_slice_to code (length true_str)) (fun raw => Ret (Some (raw, true)))
  else if b_starts_with false_str code then
    obind (b_slice_to code (length false_str)) (fun raw => Ret (Some (raw, false)))
  else Ret None.

(** [parse_noob], src/lexer/mod.rs:146-154. *)
Definition b_parse_noob (code : bstr) : outcome (option bstr) :=
  let noob_str := b_keyword NOOB in
  if b_starts_with noob_str code then
    obind (b_slice_to code (length noob_str)) (fun raw => Ret (Some raw))
  else Ret None.

(** [parse_single_line_comment], src/lexer/mod.rs:156-166. *)
Definition b_parse_single_line_comment (code : bstr) : outcome (option (bstr * bstr)) :=
  let btw_str := b_keyword BTW in
  if b_starts_with btw_str code then
    let end_len_bytes :=
      match b_find [c_nl] code with Some n => n | None => length code end in
    obind (b_slice code (length btw_str) end_len_bytes) (fun comment_contents =>
    obind (b_slice_to code end_len_bytes) (fun raw =>
    Ret (Some (raw, comment_contents))))
  else Ret None.

(** [parse_multi_line_comment], src/lexer/mod.rs:168-186. *)
Definition b_parse_multi_line_comment (code : bstr) : outcome ml_result :=
  let obtw_str := b_keyword OBTW in
  let tldr_str := b_keyword TLDR in
  if b_starts_with obtw_str code then
    match b_find tldr_str code with
    | None => Ret MlErr
    | Some end_len_bytes =>
      obind (b_slice code (length obtw_str) end_len_bytes) (fun comment_contents =>
      obind (b_slice_to code (end_len_bytes + length tldr_str)) (fun raw =>
      Ret (MlSome raw comment_contents)))
    end
  else Ret MlNone.

(** [make_token], src/lexer/mod.rs:188-201. *)
Definition b_make_token (b : build) (code : bstr) (current_position : position)
           (raw_string : bstr) (tt : token_type)
  : outcome (token * bstr * position) :=
  obind (b_position_add b current_position raw_string) (fun current_position' =>
  obind (b_slice_from code (length raw_string)) (fun code' =>
    Ret ({| tok_type := tt;
            tok_range := {| r_start := current_position;
                            r_end := current_position' |} |},
         code', current_position'))).

Definition b_try_token {A} (b : build) (code : bstr) (p : position) (m : outcome (option A))
           (raw : A -> bstr) (tt : A -> token_type) (k : step_result) : step_result :=
  match m with
  | Panic => SPanic
  | Ret (Some a) => of_make (b_make_token b code p (raw a) (tt a))
  | Ret None => k
  end.

(** [if code.starts_with(c) { let raw = &code[..1]; .. }] for an ASCII [c], e.g.
    src/lexer/mod.rs:225-234. *)
Definition b_one_char (c : N) (code : bstr) : outcome (option bstr) :=
  if b_starts_with [c] code then
    obind (b_slice_to code 1) (fun raw => Ret (Some raw))
  else Ret None.

(** The body of the [while] loop, src/lexer/mod.rs:215-373. *)
Definition b_lex_step (b : build) (code : bstr) (p : position) : step_result :=
  match parse_whitespace_m b (b_chars code) p with
  | Panic => SPanic
  | Ret (nws, p') =>
  if Nat.ltb 0 nws then
    match b_slice_from code nws with
    | Ret code' => SSkip code' p'
    | Panic => SPanic
    end
  else
  b_try_token b code p (b_one_char c_comma code) (fun raw => raw) (fun _ => TComma) (
  b_try_token b code p (b_one_char c_bang code) (fun raw => raw) (fun _ => TExclamationMark) (
  b_try_token b code p (b_one_char c_comma code) (fun raw => raw) (fun _ => TQuestionMark) (
  b_try_token b code p (b_parse_single_line_comment code) fst
            (fun a => TCommentSingleLine (snd a)) (
  match b_parse_multi_line_comment code with
  | Panic => SPanic
  | Ret MlErr =>
    match b_position_add b p code with
    | Ret e => SError (UnclosedMultilineComment {| r_start := p; r_end := e |})
    | Panic => SPanic
    end
  | Ret (MlSome raw contents) =>
    of_make (b_make_token b code p raw (TCommentMultiLine contents))
  | Ret MlNone =>
  b_try_token b code p (b_parse_bukkit_slot_access code) (fun raw => raw)
            (fun _ => TBukkitSlotAccess) (
  b_try_token b code p (b_parse_ellipsis code) (fun raw => raw) (fun _ => TEllipsis) (
  b_try_token b code p (b_parse_boolean code) fst
            (fun a => TValue (VBoolean (snd a))) (
  b_try_token b code p (b_parse_noob code) (fun raw => raw) (fun _ => TValue VNoob) (
  b_try_token b code p (b_parse_keyword code) fst (fun a => TKeyword (snd a)) (
  b_try_token b code p (b_parse_number code) fst
            (fun a => TValue (VNumber (snd a))) (
  b_try_token b code p (b_parse_string code) fst
            (fun a => TValue (VString (snd a))) (
  b_try_token b code p (b_parse_identifier code) (fun raw => raw)
            (fun raw => TIdentifier raw) (
  match b_slice_to code 1 with
  | Panic => SPanic
  | Ret raw_symbol => of_make (b_make_token b code p raw_symbol (TSymbol raw_symbol))
  end)))))))) end))))
  end.

(** The [while code.len() > 0] loop, src/lexer/mod.rs:215-375. *)
Fixpoint b_tokenize_loop (b : build) (fuel : nat) (code : bstr) (p : position) : lex_result :=
  match fuel with
  | O => LexFuel
  | S fuel' =>
    match code with
    | [] => LexOk []
    | _ =>
      match b_lex_step b code p with
      | SSkip code' p' => b_tokenize_loop b fuel' code' p'
      | SToken t code' p' => lex_cons t (b_tokenize_loop b fuel' code' p')
      | SError e => LexErr e
      | SPanic => LexPanic
      end
    end
  end.

(** [tokenize], src/lexer/mod.rs:204-376. *)
Definition b_tokenize (b : build) (code : bstr) : lex_result :=
  b_tokenize_loop b (S (length code)) code position_start.

(** [tokenize_and_parse], src/lib.rs:76-79. *)
Definition b_tokenize_and_parse (b : build) (code : bstr) : api_result :=
  match b_tokenize b code with
  | LexErr e => ApiErr e
  | LexPanic => ApiPanic
  | LexFuel => ApiFuel
  | LexOk tokens =>
    match parse tokens with
    | ParseOk b => ApiOk b
    | ParsePanic _ => ApiPanic
    | ParseFuel => ApiFuel
    end
  end.
