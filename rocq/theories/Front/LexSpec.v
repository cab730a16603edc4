(** What a program text is made of: tokens and the gaps between them. *)
From Coq Require Import String Ascii.
From Verif.Front Require Export Lexer.
Open Scope Z_scope.

Definition bytes (s : string) : text := map (fun c => Z.of_nat (nat_of_ascii c)) (list_ascii_of_string s).

Definition punctuators : list (token * text) :=
  [(T_comma, bytes ","); (T_open_bracket, bytes "("); (T_close_bracket, bytes ")"); (T_open_curly, bytes "{");
   (T_close_curly, bytes "}"); (T_open_square, bytes "["); (T_close_square, bytes "]"); (T_asterisk, bytes "*");
   (T_divide, bytes "/"); (T_mod, bytes "%"); (T_bit_or, bytes "|"); (T_bit_xor, bytes "^"); (T_bit_not, bytes "~");
   (T_log_and, bytes "&&"); (T_log_or, bytes "||"); (T_log_not, bytes "!"); (T_lt, bytes "<"); (T_gt, bytes ">");
   (T_le, bytes "<="); (T_ge, bytes ">="); (T_lshift, bytes "<<"); (T_rshift, bytes ">>"); (T_dot, bytes ".");
   (T_arrow, bytes "->"); (T_plus, bytes "+"); (T_minus, bytes "-"); (T_minuseq, bytes "-="); (T_pluseq, bytes "+=");
   (T_asteriskeq, bytes "*="); (T_divideeq, bytes "/="); (T_modeq, bytes "%="); (T_lshifteq, bytes "<<=");
   (T_rshifteq, bytes ">>="); (T_xoreq, bytes "^="); (T_oreq, bytes "|="); (T_andeq, bytes "&="); (T_eq, bytes "==");
   (T_noteq, bytes "!="); (T_assign, bytes "="); (T_increment, bytes "++"); (T_decrement, bytes "--");
   (T_question, bytes "?"); (T_colon, bytes ":"); (T_semicolon, bytes ";"); (T_ampersand, bytes "&"); (T_elipsis, bytes "...")].
Definition keywords : list (token * text) :=
  [(T_return, bytes "return"); (T_if, bytes "if"); (T_else, bytes "else"); (T_while, bytes "while"); (T_for, bytes "for");
   (T_do, bytes "do"); (T_typedef, bytes "typedef"); (T_enum, bytes "enum"); (T_struct, bytes "struct"); (T_sizeof, bytes "sizeof");
   (T_switch, bytes "switch"); (T_case, bytes "case"); (T_break, bytes "break"); (T_default, bytes "default"); (T_continue, bytes "continue")].
Definition directives : list (token * text) :=
  [(T_cppd_include, bytes "#include"); (T_cppd_define, bytes "#define"); (T_cppd_undef, bytes "#undef"); (T_cppd_error, bytes "#error");
   (T_cppd_if, bytes "#if"); (T_cppd_elif, bytes "#elif"); (T_cppd_else, bytes "#else"); (T_cppd_endif, bytes "#endif");
   (T_cppd_ifdef, bytes "#ifdef"); (T_cppd_ifndef, bytes "#ifndef")].

Definition letter (c : Z) : Prop := 97 <= c <= 122 \/ 65 <= c <= 90 \/ c = 95.
Definition digit (c : Z) : Prop := 48 <= c <= 57.
Definition hexdigit (c : Z) : Prop := digit c \/ 97 <= c <= 102 \/ 65 <= c <= 70.

(** a character of a string or character literal: itself, or backslash and a letter *)
Inductive schar := Plain (c : Z) | Esc (letter : Z).
Definition escapes : list (Z * Z) := [(110, 10); (34, 34); (114, 13); (39, 39); (116, 9); (92, 92); (48, 0)].
Definition schar_text (c : schar) : text := match c with Plain c => [c] | Esc e => [92; e] end.
Definition schar_value (c : schar) : Z := match c with Plain c => c | Esc e => match find (fun x => fst x =? e) escapes with Some x => snd x | None => e end end.

Inductive lexeme :=
| Word (w : text)          (* identifier or keyword *)
| Num (w : text)
| Punct (t : token)
| Str (l : list schar)
| Chr (c : schar)
| Dir (t : token).

Definition find_text (t : token) (l : list (token * text)) : text := match find (fun x => token_eqb (fst x) t) l with Some x => snd x | None => [] end.
Definition find_token (w : text) (l : list (token * text)) : option token := option_map fst (find (fun x => text_eqb w (snd x)) l).
Definition spelling (x : lexeme) : text :=
  match x with
  | Word w | Num w => w
  | Punct t => find_text t punctuators
  | Str l => [34] ++ flat_map schar_text l ++ [34]
  | Chr c => [39] ++ schar_text c ++ [39]
  | Dir t => find_text t directives
  end.
(** fits into the token buffer *)
Definition short (w : text) : Prop := Z.of_nat (List.length w) < 256.
(** backslash escapes are excluded in strings: see C30_backslash_refuted *)
Definition string_char (c : schar) : Prop :=
  match c with Plain c => c <> 34 /\ c <> 92 | Esc e => In e (map fst escapes) /\ e <> 92 end.
Definition char_char (c : schar) : Prop :=
  match c with Plain c => c <> 39 /\ c <> 92 | Esc e => In e (map fst escapes) end.
Definition wf_lexeme (x : lexeme) : Prop :=
  match x with
  | Word w => short w /\ exists c r, w = c :: r /\ letter c /\ Forall (fun c => letter c \/ digit c) r
  | Num w => short w /\ ((w <> [] /\ Forall digit w) \/ exists r, w = 48 :: 120 :: r /\ r <> [] /\ Forall hexdigit r)
  | Punct t => In t (map fst punctuators)
  | Str l => Forall string_char l /\ Z.of_nat (List.length l) < 256
  | Chr c => char_char c
  | Dir t => In t (map fst directives)
  end.

(** white space, line splices and comments *)
Inductive gap := Blank (c : Z) | Splice (c : Z) | Block (body : text) | Line (body : text).
Definition gap_text (g : gap) : text :=
  match g with
  | Blank c => [c]
  | Splice c => [92; 10; c]
  | Block b => [47; 42] ++ b ++ [42; 47]
  | Line b => [47; 47] ++ b ++ [10]
  end.
(** the text [b] contains star-slash *)
Fixpoint closes (b : text) : bool :=
  match b with c :: r => ((c =? 42) && (hd 0 r =? 47)) || closes r | [] => false end.
Definition wf_gap (g : gap) : Prop :=
  match g with
  | Blank c => In c [32; 9; 10; 13]
  | Splice c => In c [32; 9]
  | Block b => ~ In 0 b /\ closes b = false /\ last b 0 <> 42
  | Line b => ~ In 0 b /\ ~ In 10 b /\ ~ In 13 b /\ last b 0 <> 92
  end.
Definition gaps_text (l : list gap) : text := flat_map gap_text l.

(** the text from the first comment of the gaps, or else from [rest], on *)
Fixpoint solid (l : list gap) (rest : text) : text :=
  match l with Blank _ :: l | Splice _ :: l => solid l rest | _ => gaps_text l ++ rest end.

Definition source (l : list (lexeme * list gap)) : text := flat_map (fun x => spelling (fst x) ++ gaps_text (snd x)) l ++ [0].

(** what the C lexical grammar makes of [x] followed by the character [c]: a longer token or a comment *)
Definition continues (x : lexeme) (c : Z) : bool :=
  match x with
  | Word _ | Dir _ => is_alnum c
  | Num _ => is_hex c
  | Punct t => existsb (fun p => text_eqb (firstn (S (List.length (spelling x))) (snd p)) (spelling x ++ [c])) punctuators
               || token_eqb t T_divide && ((c =? 42) || (c =? 47))
  | Str _ | Chr _ => false
  end.
(** The operators after which the lexer skips white space before it looks for a longer token
    (against the C grammar: see C30_blank_refuted). *)
Definition looks_past_blanks (x : lexeme) : bool :=
  match x with Punct t => existsb (token_eqb t) [T_divide; T_bit_xor; T_asterisk; T_mod; T_minus; T_lshift; T_rshift] | _ => false end.
Fixpoint separated (l : list (lexeme * list gap)) : Prop :=
  match l with
  | [] => True
  | (x, g) :: r =>
      continues x (hd 0 (gaps_text g ++ source r)) = false /\
      (looks_past_blanks x = true -> continues x (hd 0 (solid g (source r))) = false) /\ separated r
  end.

(** token and text the parser is given for [x] *)
Definition meaning (find_alias : text -> option text) (x : lexeme) : token * text :=
  match x with
  | Word w => match find_token w keywords with
              | Some t => (t, w)
              | None => match find_alias w with
                        | Some a => ((if is_numeric a then T_numeric else if text_eqb a (bytes "_Bool") then T_identifier else T_string), a)
                        | None => (T_identifier, w)
                        end
              end
  | Num w => (T_numeric, w)
  | Punct t => (t, [])
  | Str l => (T_string, map schar_value l)
  | Chr c => (T_char, [schar_value c])
  | Dir t => (t, find_text t directives)
  end.

(** the tokens lexed one after the other up to the end of the input *)
Fixpoint lex_all (find_alias : text -> option text) (n : nat) (s : text) : option (list (token * text)) :=
  match n with
  | O => None
  | S n => match lex find_alias true None (S (List.length s)) true s with
           | LTok T_eof _ _ => Some []
           | LTok t v r => option_map (cons (t, v)) (lex_all find_alias n r)
           | _ => None
           end
  end.
Definition tokens (find_alias : text -> option text) (s : text) : option (list (token * text)) := lex_all find_alias (S (List.length s)) s.
