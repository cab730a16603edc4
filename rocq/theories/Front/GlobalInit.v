(** Constant initialisers of global variables (src/parser.c:2079-2350).
    None stands for a compile-time error message, or for behaviour that C leaves undefined in the
    compiler itself (division by zero, a literal longer than its buffer, stack overflow).
    The result is the constant of the OP_load_constant instruction that initialises the variable, and the remaining tokens. *)
From Verif.Front Require Export Parse.
Open Scope Z_scope.

(* src/parser.c:2079-2100 read_primary_constant; buffer[10] holds a literal of at most 9 characters *)
Fixpoint read_primary_constant (fuel : nat) (ts : toks) : option (Z * toks) :=
  match fuel with
  | O => None
  | S fuel =>
      let '(isneg, ts) := match lex_accept T_minus ts with Some r => (true, r) | None => (false, ts) end in
      let res :=
        match lex_accept T_open_bracket ts with
        | Some r =>
            match read_primary_constant fuel r with
            | Some (v, r) => match lex_expect T_close_bracket r with Some r => Some (v, r) | None => None end
            | None => None
            end
        | None =>
            match lex_peek T_numeric ts with
            | Some buffer => if 10 <=? Z.of_nat (length buffer) then None else Some (read_numeric_constant buffer, tl ts)
            | None =>
                match lex_peek T_char ts with
                | Some buffer => Some (hd 0 buffer, tl ts)
                | None => None
                end
            end
        end in
      match res with
      | Some (v, r) => Some (if isneg then imul (-1) v else v, r)
      | None => None
      end
  end.

(* src/parser.c:2102-2164 eval_expression_imm *)
Definition eval_expression_imm (op : opcode) (op1 op2 : Z) : option Z :=
  match op with
  | OP_add => Some (iadd op1 op2)
  | OP_sub => Some (isub op1 op2)
  | OP_mul => Some (imul op1 op2)
  | OP_div => if (op2 =? 0) || ((op1 =? -2147483648) && (op2 =? -1)) then None else Some (Z.quot op1 op2)
  | OP_mod =>
      let tmp := iand op2 (isub op2 1) in
      if negb (op2 =? 0) && (tmp =? 0) then Some (iand op1 (isub op2 1))
      else if (op2 =? 0) || ((op1 =? -2147483648) && (op2 =? -1)) then None else Some (Z.rem op1 op2)
  | OP_lshift => if (0 <=? op2) && (op2 <? 32) then Some (ishl op1 op2) else None
  | OP_rshift => if (0 <=? op2) && (op2 <? 32) then Some (ishr op1 op2) else None
  | OP_log_and => Some (if negb (op1 =? 0) && negb (op2 =? 0) then 1 else 0)
  | OP_log_or => Some (if negb (op1 =? 0) || negb (op2 =? 0) then 1 else 0)
  | OP_eq => Some (if op1 =? op2 then 1 else 0)
  | OP_neq => Some (if op1 =? op2 then 0 else 1)
  | OP_lt => Some (if op1 <? op2 then 1 else 0)
  | OP_gt => Some (if op2 <? op1 then 1 else 0)
  | OP_leq => Some (if op1 <=? op2 then 1 else 0)
  | OP_geq => Some (if op2 <=? op1 then 1 else 0)
  | _ => None
  end.

(** op_stack[10] and val_stack[10], top first; pushing an eleventh element is out of bounds *)
Definition push {A} (x : A) (st : list A) : option (list A) := if Z.of_nat (length st) <? 10 then Some (x :: st) else None.

(* src/parser.c:2257-2279, the inner do-while: apply stacked operators of no lower priority *)
Fixpoint reduce_imm (op : opcode) (ops : list opcode) (vals : list Z) : option (list opcode * list Z) :=
  match ops with
  | [] => Some ([], vals)
  | stack_op :: ops' =>
      if get_operator_prio stack_op >=? get_operator_prio op then
        match vals with
        | operand2 :: operand1 :: vals' =>
            match eval_expression_imm stack_op operand1 operand2 with
            | Some r => match push r vals' with Some vals' => reduce_imm op ops' vals' | None => None end
            | None => None
            end
        | _ => None
        end
      else Some (ops, vals)
  end.
(* src/parser.c:2254-2286, reading operators and operands *)
Fixpoint read_chain_imm (fuel : nat) (op : opcode) (ops : list opcode) (vals : list Z) (ts : toks)
  : option (opcode * list opcode * list Z * toks) :=
  match fuel with
  | O => None
  | S fuel' =>
      if op_eqb op OP_generic || op_eqb op OP_ternary then Some (op, ops, vals, ts)
      else
        match reduce_imm op ops vals with
        | None => None
        | Some (ops, vals) =>
            match read_primary_constant fuel ts with
            | None => None
            | Some (v, ts) =>
                match push v vals, push op ops with
                | Some vals, Some ops => let '(op, ts) := get_operator ts in read_chain_imm fuel' op ops vals ts
                | _, _ => None
                end
            end
        end
  end.
(* src/parser.c:2287-2331, unwinding; the result is val_stack[0] *)
Fixpoint unwind_imm (ops : list opcode) (vals : list Z) : option (list Z) :=
  match ops with
  | [] => Some vals
  | stack_op :: ops' =>
      match vals with
      | operand2 :: operand1 :: vals' =>
          match eval_expression_imm stack_op operand1 operand2 with
          | Some r => unwind_imm ops' (r :: vals')
          | None => None
          end
      | _ => None
      end
  end.

(* src/parser.c:2170-2172 and 2178-2180: skip tokens until one of kind t *)
Fixpoint skip_to (t : token) (ts : toks) : option toks :=
  match ts with [] => None | (t', w) :: r => if token_eqb t' t then Some ts else skip_to t r end.

(* src/parser.c:2167-2350 eval_ternary_imm and read_global_assignment (mutually recursive); opstack handling and the IR
   around the constant are left out *)
Fixpoint read_global_assignment (fuel : nat) (ts : toks) : option (Z * toks) :=
  match fuel with
  | O => None
  | S fuel' =>
      let ternary (cond : Z) (ts : toks) : option (Z * toks) :=
        match lex_expect T_question ts with
        | None => None
        | Some ts =>
            if cond =? 0 then
              match skip_to T_colon ts with
              | None => None
              | Some ts => read_global_assignment fuel' (tl ts)
              end
            else
              match read_global_assignment fuel' ts with
              | None => None
              | Some (v, ts) =>
                  match lex_expect T_colon ts with
                  | None => None
                  | Some ts => match skip_to T_semicolon ts with Some ts => Some (v, ts) | None => None end
                  end
              end
        end in
      match read_primary_constant fuel ts with
      | None => None
      | Some (operand1, ts) =>
          let '(op, ts) := get_operator ts in
          if op_eqb op OP_generic then Some (operand1, ts)
          else if op_eqb op OP_ternary then ternary operand1 ts
          else
            match read_primary_constant fuel ts with
            | None => None
            | Some (operand2, ts) =>
                let '(next_op, ts) := get_operator ts in
                if op_eqb next_op OP_generic then
                  match eval_expression_imm op operand1 operand2 with Some v => Some (v, ts) | None => None end
                else
                  match read_chain_imm fuel next_op [op] [operand2; operand1] ts with
                  | None => None
                  | Some (op, ops, vals, ts) =>
                      match unwind_imm ops vals with
                      | None => None
                      | Some vals => if op_eqb op OP_ternary then ternary (last vals 0) ts else Some (last vals 0, ts)
                      end
                  end
            end
      end
  end.
(** the initialiser after the = sign, as the declaration parser calls it *)
Definition global_initialiser (ts : toks) : option (Z * toks) := read_global_assignment (S (length ts)) ts.
