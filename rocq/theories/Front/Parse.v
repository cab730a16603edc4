(** Token-stream primitives of the parser and its operator tables.  The stream is what the
    lexer (Front/Lexer) delivers: token kinds with their spelling, macro names already replaced. *)
From Verif.Ir Require Export Ph2.
From Verif.Front Require Export Lexer Numeric.
Open Scope Z_scope.

Definition toks := list (token * text).
(* src/lexer.c:642-665 lex_accept *)
Definition lex_accept (t : token) (ts : toks) : option toks :=
  match ts with (t', _) :: r => if token_eqb t' t then Some r else None | [] => None end.
(* src/lexer.c:670-679 lex_peek *)
Definition lex_peek (t : token) (ts : toks) : option text :=
  match ts with (t', w) :: _ => if token_eqb t' t then Some w else None | [] => None end.
(* src/lexer.c:692-706 lex_expect: None = error("Unexpected token") *)
Definition lex_expect := lex_accept.

(* src/parser.c:69-103 get_operator_prio *)
Definition get_operator_prio (op : opcode) : Z :=
  match op with
  | OP_ternary => 3
  | OP_log_or => 4
  | OP_log_and => 5
  | OP_bit_or => 6
  | OP_bit_xor => 7
  | OP_bit_and => 8
  | OP_eq | OP_neq => 9
  | OP_lt | OP_leq | OP_gt | OP_geq => 10
  | OP_add | OP_sub => 12
  | OP_mul | OP_div | OP_mod => 13
  | _ => 0
  end.
(* src/parser.c:105-116 get_unary_operator_prio *)
Definition get_unary_operator_prio (op : opcode) : Z :=
  match op with OP_add | OP_sub | OP_bit_not | OP_log_not => 14 | _ => 0 end.
(* src/parser.c:118-160 get_operator: ? is only looked at, the others are consumed *)
Definition get_operator (ts : toks) : opcode * toks :=
  match ts with
  | [] => (OP_generic, ts)
  | (t, _) :: r =>
      match t with
      | T_plus => (OP_add, r)
      | T_minus => (OP_sub, r)
      | T_asterisk => (OP_mul, r)
      | T_divide => (OP_div, r)
      | T_mod => (OP_mod, r)
      | T_lshift => (OP_lshift, r)
      | T_rshift => (OP_rshift, r)
      | T_log_and => (OP_log_and, r)
      | T_log_or => (OP_log_or, r)
      | T_eq => (OP_eq, r)
      | T_noteq => (OP_neq, r)
      | T_lt => (OP_lt, r)
      | T_le => (OP_leq, r)
      | T_gt => (OP_gt, r)
      | T_ge => (OP_geq, r)
      | T_ampersand => (OP_bit_and, r)
      | T_bit_or => (OP_bit_or, r)
      | T_bit_xor => (OP_bit_xor, r)
      | T_question => (OP_ternary, ts)
      | _ => (OP_generic, ts)
      end
  end.
Definition op_eqb : opcode -> opcode -> bool := opcode_beq.
