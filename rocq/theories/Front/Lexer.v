(** Model of the lexer, src/lexer.c.

    The remaining input is the list of bytes from SOURCE->elements[SOURCE->size] on; next_char
    is its first element, as everywhere in the code.  Reading beyond the list, or writing
    beyond token_str (MAX_TOKEN_LEN 256, src/defs.h:14), is the result LFault; error() and
    abort() are LError.  The bounded recursion is on an explicit counter; its exhaustion is
    LFuel, which by C30_terminates does not happen outside macro bodies. *)
From Coq Require Export List ZArith Bool Lia.
Export ListNotations.
Open Scope Z_scope.

(* src/lexer.c:11-90 token_t *)
Inductive token : Type :=
| T_start | T_numeric | T_identifier | T_comma | T_string | T_char | T_open_bracket | T_close_bracket
| T_open_curly | T_close_curly | T_open_square | T_close_square | T_asterisk | T_divide | T_mod
| T_bit_or | T_bit_xor | T_bit_not | T_log_and | T_log_or | T_log_not | T_lt | T_gt | T_le | T_ge
| T_lshift | T_rshift | T_dot | T_arrow | T_plus | T_minus | T_minuseq | T_pluseq | T_asteriskeq
| T_divideeq | T_modeq | T_lshifteq | T_rshifteq | T_xoreq | T_oreq | T_andeq | T_eq | T_noteq
| T_assign | T_increment | T_decrement | T_question | T_colon | T_semicolon | T_eof | T_ampersand
| T_return | T_if | T_else | T_while | T_for | T_do | T_typedef | T_enum | T_struct | T_sizeof
| T_elipsis | T_switch | T_case | T_break | T_default | T_continue
| T_cppd_include | T_cppd_define | T_cppd_undef | T_cppd_error | T_cppd_if | T_cppd_elif
| T_cppd_else | T_cppd_endif | T_cppd_ifdef | T_cppd_ifndef.
Definition token_eqb (a b : token) : bool.
Proof. refine (if _ : {a = b} + {a <> b} then true else false). decide equality. Defined.

Definition text := list Z.
Fixpoint text_eqb (a b : text) : bool :=
  match a, b with [], [] => true | x :: a, y :: b => (x =? y) && text_eqb a b | _, _ => false end.

Inductive lres : Type := LTok (t : token) (value : text) (rest : text) | LError | LFault | LFuel.

(* src/lexer.c:103-106 *)
Definition is_whitespace (c : Z) : bool := (c =? 32) || (c =? 9).
(* src/lexer.c:116-119 *)
Definition is_newline (c : Z) : bool := (c =? 13) || (c =? 10).
(* src/lexer.c:127-130 *)
Definition is_digit (c : Z) : bool := (48 <=? c) && (c <=? 57).
(* src/lexer.c:121-126 *)
Definition is_alnum (c : Z) : bool :=
  ((97 <=? c) && (c <=? 122)) || ((65 <=? c) && (c <=? 90)) || is_digit c || (c =? 95).
(* src/lexer.c:132-136 *)
Definition is_hex (c : Z) : bool :=
  is_digit c || ((97 <=? c) && (c <=? 102)) || (c =? 120) || ((65 <=? c) && (c <=? 70)).
(* src/lexer.c:138-153 *)
Definition is_numeric (b : text) : bool :=
  let hex := (2 <? Z.of_nat (length b)) && text_eqb (firstn 2 b) [48; 120] in
  forallb (fun c => if hex then is_hex c else is_digit c) b.

(** strings of the source as byte lists *)
Definition MAX_TOKEN_LEN : Z := 256.

Section Lexer.
  Variable find_alias : text -> option text.   (* src/globals.c find_alias, modelled in Data/Names *)
  Variable skip_newline : bool.                (* src/lexer.c:95 *)
  Variable macro_return : option text.         (* src/lexer.c:99-102, the input from macro_return_idx on; None for 0 *)

  (* src/lexer.c:155-172 skip_whitespace, with is_linebreak (110-114) *)
  Fixpoint skip_ws (s : text) : text :=
    match s with
    | c :: s1 =>
        match s1 with
        | d :: s2 => if (c =? 92) && (d =? 10) then skip_ws s2
                     else if is_whitespace c || (skip_newline && is_newline c) then skip_ws s1 else s
        | [] => if is_whitespace c || (skip_newline && is_newline c) then [] else s
        end
    | [] => []
    end.

  (* src/lexer.c:174-181 read_char *)
  Definition read_char (skip : bool) (s : text) (k : text -> lres) : lres :=
    match (if skip then skip_ws (tl s) else tl s) with [] => LFault | t => k t end.
  Definition skip_whitespace (s : text) (k : text -> lres) : lres :=
    match skip_ws s with [] => LFault | t => k t end.
  Definition next_char (s : text) : Z := hd 0 s.

  (* do { token_str[i++] = next_char; } while (p(read_char(false))); *)
  Fixpoint read_run (p : Z -> bool) (s : text) : option (text * text) :=
    match s with
    | c :: s1 =>
        match s1 with
        | [] => None
        | d :: _ => if p d then match read_run p s1 with Some (w, r) => Some (c :: w, r) | None => None end
                    else Some ([c], s1)
        end
    | [] => None
    end.
  (* ... token_str[i] = 0; skip_whitespace(); *)
  Definition run_then (p : Z -> bool) (s : text) (k : text -> text -> lres) : lres :=
    match read_run p s with
    | Some (w, r) => if Z.of_nat (length w) <? MAX_TOKEN_LEN then skip_whitespace r (k w) else LFault
    | None => LFault
    end.

  Inductive cres : Type := CClosed (rest : text) | COpen | CFault.
  (* src/lexer.c:226-236: the loop over a comment; the result CClosed is at the closing slash *)
  Fixpoint comment (s : text) : cres :=
    match s with
    | _ :: s1 =>
        match s1 with
        | [] => CFault
        | c :: s2 =>
            if c =? 42 then
              match s2 with
              | [] => CFault
              | d :: _ => if d =? 47 then CClosed s2 else if d =? 0 then COpen else comment s2
              end
            else if c =? 0 then COpen else comment s1
        end
    | [] => CFault
    end.
  (* src/lexer.c:243-247 *)
  Fixpoint line_comment (s : text) : text :=
    match s with
    | _ :: s1 => match s1 with [] => [] | c :: _ => if (c =? 0) || is_newline c then s1 else line_comment s1 end
    | [] => []
    end.

  (* src/lexer.c:320-334, 348-366: the character an escape denotes *)
  Definition unescape (c : Z) : option Z :=
    if c =? 110 then Some 10 else if c =? 34 then Some 34 else if c =? 114 then Some 13
    else if c =? 39 then Some 39 else if c =? 116 then Some 9 else if c =? 92 then Some 92
    else if c =? 48 then Some 0 else None.

  Inductive sres : Type := SDone (value rest : text) | SError | SFault.
  (* src/lexer.c:311-340: [acc] is token_str reversed *)
  Fixpoint string_body (acc : text) (special : bool) (s : text) : sres :=
    match s with
    | _ :: s1 =>
        match s1 with
        | [] => SFault
        | c :: _ =>
            if (c =? 34) && negb special then SDone (rev acc) s1
            else
              match acc with
              | b :: acc' =>
                  if b =? 92 then match unescape c with Some v => string_body (v :: acc') (c =? 92) s1 | None => SError end
                  else string_body (c :: acc) (c =? 92) s1
              | [] => string_body [c] (c =? 92) s1
              end
        end
    | [] => SFault
    end.

  (** names as byte lists *)
  Definition n_include := [35;105;110;99;108;117;100;101].
  Definition n_define := [35;100;101;102;105;110;101].
  Definition n_undef := [35;117;110;100;101;102].
  Definition n_error := [35;101;114;114;111;114].
  Definition n_cif := [35;105;102].
  Definition n_elif := [35;101;108;105;102].
  Definition n_ifdef := [35;105;102;100;101;102].
  Definition n_ifndef := [35;105;102;110;100;101;102].
  Definition n_celse := [35;101;108;115;101].
  Definition n_endif := [35;101;110;100;105;102].
  Definition n_if := [105;102].
  Definition n_while := [119;104;105;108;101].
  Definition n_for := [102;111;114].
  Definition n_do := [100;111].
  Definition n_else := [101;108;115;101].
  Definition n_return := [114;101;116;117;114;110].
  Definition n_typedef := [116;121;112;101;100;101;102].
  Definition n_enum := [101;110;117;109].
  Definition n_struct := [115;116;114;117;99;116].
  Definition n_sizeof := [115;105;122;101;111;102].
  Definition n_switch := [115;119;105;116;99;104].
  Definition n_case := [99;97;115;101].
  Definition n_break := [98;114;101;97;107].
  Definition n_default := [100;101;102;97;117;108;116].
  Definition n_continue := [99;111;110;116;105;110;117;101].
  Definition n_Bool := [95;66;111;111;108].

  (* src/lexer.c:189-222 *)
  Definition directive (w : text) : option token :=
    if text_eqb w n_include then Some T_cppd_include
    else if text_eqb w n_define then Some T_cppd_define
    else if text_eqb w n_undef then Some T_cppd_undef
    else if text_eqb w n_error then Some T_cppd_error
    else if text_eqb w n_cif then Some T_cppd_if
    else if text_eqb w n_elif then Some T_cppd_elif
    else if text_eqb w n_ifdef then Some T_cppd_ifdef
    else if text_eqb w n_ifndef then Some T_cppd_ifndef
    else if text_eqb w n_celse then Some T_cppd_else
    else if text_eqb w n_endif then Some T_cppd_endif
    else None.
  (* src/lexer.c:535-600 *)
  Definition word (aliasing : bool) (w : text) : token * text :=
    if text_eqb w n_if then (T_if, w)
    else if text_eqb w n_while then (T_while, w)
    else if text_eqb w n_for then (T_for, w)
    else if text_eqb w n_do then (T_do, w)
    else if text_eqb w n_else then (T_else, w)
    else if text_eqb w n_return then (T_return, w)
    else if text_eqb w n_typedef then (T_typedef, w)
    else if text_eqb w n_enum then (T_enum, w)
    else if text_eqb w n_struct then (T_struct, w)
    else if text_eqb w n_sizeof then (T_sizeof, w)
    else if text_eqb w n_switch then (T_switch, w)
    else if text_eqb w n_case then (T_case, w)
    else if text_eqb w n_break then (T_break, w)
    else if text_eqb w n_default then (T_default, w)
    else if text_eqb w n_continue then (T_continue, w)
    else if aliasing then
      match find_alias w with
      | Some a => ((if is_numeric a then T_numeric else if text_eqb a n_Bool then T_identifier else T_string), a)
      | None => (T_identifier, w)
      end
    else (T_identifier, w).

  Definition op (t : token) (s : text) : lres := LTok t [] s.

  (* src/lexer.c:186-625 lex_token_internal *)
  Fixpoint lex (F : nat) (aliasing : bool) (s : text) : lres :=
    match F with
    | O => LFuel
    | S F =>
      match s with [] => LFault | c :: _ =>
      if c =? 35 then
        run_then is_alnum s (fun w r => match directive w with Some t => LTok t w r | None => LError end)
      else if c =? 47 then
        read_char true s (fun s =>
          let c := next_char s in
          if c =? 42 then
            match comment s with
            | CClosed r => read_char true r (fun s => lex F aliasing s)
            | COpen => LError
            | CFault => LFault
            end
          else if c =? 47 then match line_comment s with [] => LFault | r => lex F aliasing r end
          else if c =? 61 then read_char true s (op T_divideeq)
          else op T_divide s)
      else if is_digit c then run_then is_hex s (fun w r => LTok T_numeric w r)
      else if c =? 40 then read_char true s (op T_open_bracket)
      else if c =? 41 then read_char true s (op T_close_bracket)
      else if c =? 123 then read_char true s (op T_open_curly)
      else if c =? 125 then read_char true s (op T_close_curly)
      else if c =? 91 then read_char true s (op T_open_square)
      else if c =? 93 then read_char true s (op T_close_square)
      else if c =? 44 then read_char true s (op T_comma)
      else if c =? 94 then
        read_char true s (fun s => if next_char s =? 61 then read_char true s (op T_xoreq) else op T_bit_xor s)
      else if c =? 126 then read_char true s (op T_bit_not)
      else if c =? 34 then
        match string_body [] false s with
        | SDone v r => if Z.of_nat (length v) <? MAX_TOKEN_LEN then read_char true r (fun s => LTok T_string v s) else LFault
        | SError => LError
        | SFault => LFault
        end
      else if c =? 39 then
        read_char false s (fun s =>
          let after (v : Z) (s : text) :=
            read_char true s (fun s => if next_char s =? 39 then read_char true s (fun s => LTok T_char [v] s) else LError) in
          if next_char s =? 92 then
            read_char false s (fun s => match unescape (next_char s) with Some v => after v s | None => LError end)
          else after (next_char s) s)
      else if c =? 42 then
        read_char true s (fun s => if next_char s =? 61 then read_char true s (op T_asteriskeq) else op T_asterisk s)
      else if c =? 38 then
        read_char false s (fun s =>
          if next_char s =? 38 then read_char true s (op T_log_and)
          else if next_char s =? 61 then read_char true s (op T_andeq)
          else skip_whitespace s (op T_ampersand))
      else if c =? 124 then
        read_char false s (fun s =>
          if next_char s =? 124 then read_char true s (op T_log_or)
          else if next_char s =? 61 then read_char true s (op T_oreq)
          else skip_whitespace s (op T_bit_or))
      else if c =? 60 then
        read_char false s (fun s =>
          if next_char s =? 61 then read_char true s (op T_le)
          else if next_char s =? 60 then
            read_char true s (fun s => if next_char s =? 61 then read_char true s (op T_lshifteq) else op T_lshift s)
          else skip_whitespace s (op T_lt))
      else if c =? 37 then
        read_char true s (fun s => if next_char s =? 61 then read_char true s (op T_modeq) else op T_mod s)
      else if c =? 62 then
        read_char false s (fun s =>
          if next_char s =? 61 then read_char true s (op T_ge)
          else if next_char s =? 62 then
            read_char true s (fun s => if next_char s =? 61 then read_char true s (op T_rshifteq) else op T_rshift s)
          else skip_whitespace s (op T_gt))
      else if c =? 33 then
        read_char false s (fun s =>
          if next_char s =? 61 then read_char true s (op T_noteq) else skip_whitespace s (op T_log_not))
      else if c =? 46 then
        read_char false s (fun s =>
          if next_char s =? 46 then
            read_char false s (fun s => if next_char s =? 46 then read_char true s (op T_elipsis) else LError)
          else skip_whitespace s (op T_dot))
      else if c =? 45 then
        read_char true s (fun s =>
          if next_char s =? 62 then read_char true s (op T_arrow)
          else if next_char s =? 45 then read_char true s (op T_decrement)
          else if next_char s =? 61 then read_char true s (op T_minuseq)
          else skip_whitespace s (op T_minus))
      else if c =? 43 then
        read_char false s (fun s =>
          if next_char s =? 43 then read_char true s (op T_increment)
          else if next_char s =? 61 then read_char true s (op T_pluseq)
          else skip_whitespace s (op T_plus))
      else if c =? 59 then read_char true s (op T_semicolon)
      else if c =? 63 then read_char true s (op T_question)
      else if c =? 58 then read_char true s (op T_colon)
      else if c =? 61 then
        read_char false s (fun s =>
          if next_char s =? 61 then read_char true s (op T_eq) else skip_whitespace s (op T_assign))
      else if is_alnum c then
        run_then is_alnum s (fun w r => let '(t, v) := word aliasing w in LTok t v r)
      else if c =? 10 then
        match macro_return with
        | Some r => lex F aliasing r
        | None => read_char true s (fun s => lex F aliasing s)
        end
      else if c =? 0 then LTok T_eof [] s
      else LError
      end
    end.
End Lexer.
