(** Conditional compilation: constant expressions of #if and the directives around them
    (src/parser.c:189-345, 434-523).  None stands for an error message, undefined behaviour inside the
    compiler, or an endless loop at the end of the input. *)
From Verif.Front Require Export Parse.
Open Scope Z_scope.

Definition defined_str : text := [100; 101; 102; 105; 110; 101; 100].
Section Preproc.
  Variable find_alias : text -> option text.  (* src/globals.c find_alias, modelled in Data/Names *)

  (* src/parser.c:189-218 read_constant_expr_operand; buffer[MAX_ID_LEN] with MAX_ID_LEN = 64 *)
  Fixpoint read_constant_expr_operand (fuel : nat) (ts : toks) : option (Z * toks) :=
    match fuel with
    | O => None
    | S fuel =>
        match lex_peek T_numeric ts with
        | Some buffer => if 64 <=? Z.of_nat (length buffer) then None else Some (read_numeric_constant buffer, tl ts)
        | None =>
            match lex_accept T_open_bracket ts with
            | Some ts =>
                match read_constant_expr_operand fuel ts with
                | Some (value, ts) => match lex_expect T_close_bracket ts with Some ts => Some (value, ts) | None => None end
                | None => None
                end
            | None =>
                match lex_peek T_identifier ts with
                | Some buffer =>
                    if text_eqb buffer defined_str then
                      match lex_expect T_open_bracket (tl ts) with
                      | Some ts =>
                          match lex_peek T_identifier ts with
                          | Some lookup_alias =>
                              match lex_expect T_close_bracket (tl ts) with
                              | Some ts => Some (match find_alias lookup_alias with Some _ => 1 | None => 0 end, ts)
                              | None => None
                              end
                          | None => None
                          end
                      | None => None
                      end
                    else None
                | None => None
                end
            end
        end
    end.

  (* src/parser.c:228-246, the unary operators *)
  Definition unary_const (op : opcode) (lhs : Z) : option Z :=
    match op with
    | OP_add => Some lhs
    | OP_sub => Some (ineg lhs)
    | OP_bit_not => Some (-1 - lhs)
    | OP_log_not => Some (if lhs =? 0 then 1 else 0)
    | _ => None
    end.
  (* src/parser.c:258-314, the binary operators; OP_mod is not among them *)
  Definition infix_const (op : opcode) (lhs rhs : Z) : option Z :=
    match op with
    | OP_add => Some (iadd lhs rhs)
    | OP_sub => Some (isub lhs rhs)
    | OP_mul => Some (imul lhs rhs)
    | OP_div => if (rhs =? 0) || ((lhs =? -2147483648) && (rhs =? -1)) then None else Some (Z.quot lhs rhs)
    | OP_bit_and => Some (iand lhs rhs)
    | OP_bit_or => Some (ior lhs rhs)
    | OP_bit_xor => Some (ixor lhs rhs)
    | OP_lshift => if (0 <=? rhs) && (rhs <? 32) then Some (ishl lhs rhs) else None
    | OP_rshift => if (0 <=? rhs) && (rhs <? 32) then Some (ishr lhs rhs) else None
    | OP_gt => Some (if rhs <? lhs then 1 else 0)
    | OP_geq => Some (if rhs <=? lhs then 1 else 0)
    | OP_lt => Some (if lhs <? rhs then 1 else 0)
    | OP_leq => Some (if lhs <=? rhs then 1 else 0)
    | OP_eq => Some (if lhs =? rhs then 1 else 0)
    | OP_neq => Some (if lhs =? rhs then 0 else 1)
    | OP_log_and => Some (if negb (lhs =? 0) && negb (rhs =? 0) then 1 else 0)
    | OP_log_or => Some (if negb (lhs =? 0) || negb (rhs =? 0) then 1 else 0)
    | _ => None
    end.

  (* src/parser.c:220-319 read_constant_infix_expr; the while loop is [infix_loop] *)
  Fixpoint read_constant_infix_expr (fuel : nat) (precedence : Z) (ts : toks) : option (Z * toks) :=
    match fuel with
    | O => None
    | S fuel =>
        let '(op, ts) := get_operator ts in
        let current_precedence := get_unary_operator_prio op in
        let first :=
          if negb (current_precedence =? 0) && (precedence <=? current_precedence) then
            match read_constant_infix_expr fuel current_precedence ts with
            | Some (lhs, ts) => match unary_const op lhs with Some lhs => Some (lhs, ts) | None => None end
            | None => None
            end
          else read_constant_expr_operand fuel ts in
        match first with
        | None => None
        | Some (lhs, ts) => infix_loop fuel precedence lhs ts
        end
    end
  with infix_loop (fuel : nat) (precedence : Z) (lhs : Z) (ts : toks) : option (Z * toks) :=
    match fuel with
    | O => None
    | S fuel =>
        let '(op, ts) := get_operator ts in
        let current_precedence := get_operator_prio op in
        if (current_precedence =? 0) || (current_precedence <=? precedence) then Some (lhs, ts)
        else
          match read_constant_infix_expr fuel current_precedence ts with
          | None => None
          | Some (rhs, ts) =>
              match infix_const op lhs rhs with
              | None => None
              | Some lhs => let '(_, ts) := get_operator ts in infix_loop fuel precedence lhs ts
              end
          end
    end.
  (* src/parser.c:321-324 read_constant_expr *)
  Definition read_constant_expr (fuel : nat) (ts : toks) := read_constant_infix_expr fuel 0 ts.

  (* src/parser.c:329-336 cppd_control_flow_skip_lines *)
  Fixpoint cppd_control_flow_skip_lines (ts : toks) : option toks :=
    match ts with
    | [] => None
    | (t, w) :: r =>
        if token_eqb t T_cppd_elif || token_eqb t T_cppd_else || token_eqb t T_cppd_endif then Some ts
        else cppd_control_flow_skip_lines r
    end.
  Fixpoint skip_to_endif (ts : toks) : option toks :=
    match ts with [] => None | (t, w) :: r => if token_eqb t T_cppd_endif then Some ts else skip_to_endif r end.

  (* the conditional part of read_preproc_directive, src/parser.c:434-523; None = no such directive here.
     The result is the new value of preproc_match and the tokens that follow. *)
  Definition conditional (fuel : nat) (preproc_match : bool) (ts : toks) : option (option (bool * toks)) :=
    let test (r : option (Z * toks)) :=
      match r with
      | None => None
      | Some (v, ts) =>
          if negb (v =? 0) then Some (true, ts)
          else match cppd_control_flow_skip_lines ts with Some ts => Some (false, ts) | None => None end
      end in
    match ts with
    | (T_cppd_if, _) :: r => Some (test (read_constant_expr fuel r))
    | (T_cppd_elif, _) :: r =>
        Some (if preproc_match then match skip_to_endif r with Some ts => Some (true, ts) | None => None end
              else test (read_constant_expr fuel r))
    | (T_cppd_else, _) :: r =>
        Some (if negb preproc_match then Some (preproc_match, r)
              else match cppd_control_flow_skip_lines r with Some ts => Some (preproc_match, ts) | None => None end)
    | (T_cppd_endif, _) :: r => Some (Some (false, r))
    | (T_cppd_ifdef, _) :: r =>
        Some (match r with
              | (T_identifier, name) :: r => test (Some (match find_alias name with Some _ => 1 | None => 0 end, r))
              | _ => None
              end)
    | (T_cppd_ifndef, _) :: r =>
        Some (match r with
              | (T_identifier, name) :: r => test (Some (match find_alias name with Some _ => 0 | None => 1 end, r))
              | _ => None
              end)
    | _ => None
    end.
  (** the tokens the rest of the parser gets to see (src/parser.c:3378-3382 and the statement
      parser call read_preproc_directive before each statement; here: at every token.
      The macro table is constant here: #define between conditionals is not modelled). *)
  Fixpoint visible (n : nat) (fuel : nat) (preproc_match : bool) (ts : toks) : option toks :=
    match n with
    | O => None
    | S n =>
        match conditional fuel preproc_match ts with
        | Some (Some (m, r)) => visible n fuel m r
        | Some None => None
        | None =>
            match ts with
            | [] => Some []
            | t :: r => match visible n fuel preproc_match r with Some v => Some (t :: v) | None => None end
            end
        end
    end.
End Preproc.
