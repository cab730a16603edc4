(** Model of the expression parser, src/parser.c:36-50, 674-1225, 1233-1620: from tokens to instructions in basic blocks.
    Operands: numbers, character constants, enumeration constants, variables with subscripts, calls, parentheses, - ! ~.
    Not modelled (None): strings, & and * as prefix, sizeof, ++ and --, members, calls through pointers, macro calls.
    None is also error(), abort(), an array overrun, and running out of the recursion counter.  The ph1_ir list, labels and
    names of temporaries are left out: nothing reads them later. *)
From Verif.Front Require Export Parse.
From Verif.Mid Require Export Insn Alloc.
Open Scope Z_scope.

Notation "'do' p <- a ; b" := (match a with Some p => b | None => None end) (at level 200, p pattern, a at level 100, b at level 200).

(* the function being compiled: locals[] of the scope (its next_local), blocks (in order of creation), their instructions and
   successors, the number of predecessors, init_val of the variables; operand_stack (src/parser.c:38-39), top first *)
Record pst := mkp { p_var : nat; p_blk : nat; p_code : nat -> list rinsn; p_next : nat -> option nat; p_then : nat -> option nat;
                    p_else : nat -> option nat; p_pred : nat -> nat; p_init : nat -> Z; p_stack : list nat }.
(* src/defs.h:185-211 var_t, for the lookup of a variable: identity, is_ptr, array_size, size of the type *)
Record vinfo := mkvi { vi_id : nat; vi_ptr : Z; vi_array : Z; vi_size : Z }.
Inductive edge := NEXT | THEN | ELSE.                                  (* src/defs.h bb_connection_type_t *)

Definition MAX_OPERAND_STACK_SIZE : nat := 32.                         (* src/defs.h:41 *)
Definition MAX_BB_PRED : nat := 128.                                   (* src/defs.h:25 *)
Definition MAX_PARAMS : nat := 8.                                      (* src/defs.h:19 *)

Section Parser.
  Variable find_constant : text -> option Z.       (* src/globals.c:605 *)
  Variable find_var : text -> option vinfo.        (* src/globals.c find_var *)
  Variable find_func : text -> option Z.           (* src/globals.c find_func; functions are numbers *)
  Variable special : text -> bool.                 (* "__VA_ARGS__", a function-like macro or a macro parameter *)
  Variable lim : nat.                              (* MAX_LOCALS *)

  (* src/parser.c:27-36 require_var.  Simplified: variables of all scopes have different numbers *)
  Definition require_var (st : pst) : option (nat * pst) :=
    if (p_var st <? lim)%nat then
      Some (p_var st, mkp (S (p_var st)) (p_blk st) (p_code st) (p_next st) (p_then st) (p_else st) (p_pred st) (p_init st) (p_stack st))
    else None.
  Definition set_stack (l : list nat) (st : pst) : pst :=
    mkp (p_var st) (p_blk st) (p_code st) (p_next st) (p_then st) (p_else st) (p_pred st) (p_init st) l.
  (* src/parser.c:42-45 opstack_push; None: beyond the array *)
  Definition opstack_push (v : nat) (st : pst) : option pst :=
    if (length (p_stack st) <? MAX_OPERAND_STACK_SIZE)%nat then Some (set_stack (v :: p_stack st) st) else None.
  (* src/parser.c:47-50 opstack_pop *)
  Definition opstack_pop (st : pst) : option (nat * pst) :=
    match p_stack st with v :: l => Some (v, set_stack l st) | [] => None end.
  Definition set_init (v : nat) (c : Z) (st : pst) : pst :=
    mkp (p_var st) (p_blk st) (p_code st) (p_next st) (p_then st) (p_else st) (p_pred st) (upd (p_init st) v c) (p_stack st).
  (* src/globals.c:810-837 add_insn *)
  Definition add_insn (b : nat) (o : opcode) (rd rs1 rs2 : option nat) (sz str : Z) (st : pst) : pst :=
    mkp (p_var st) (p_blk st) (upd (p_code st) b (p_code st b ++ [mkr (mkinsn o rd rs1 rs2) sz str])) (p_next st) (p_then st) (p_else st)
        (p_pred st) (p_init st) (p_stack st).
  (* src/globals.c:703-715 bb_create *)
  Definition bb_create (st : pst) : nat * pst :=
    (p_blk st, mkp (p_var st) (S (p_blk st)) (p_code st) (p_next st) (p_then st) (p_else st) (p_pred st) (p_init st) (p_stack st)).
  (* src/globals.c:718-755 bb_connect *)
  Definition bb_connect (pred succ : nat) (t : edge) (st : pst) : option pst :=
    if (p_pred st succ <? MAX_BB_PRED)%nat then
      let set f := upd f pred (Some succ) in
      Some (mkp (p_var st) (p_blk st) (p_code st)
                (match t with NEXT => set (p_next st) | _ => p_next st end)
                (match t with THEN => set (p_then st) | _ => p_then st end)
                (match t with ELSE => set (p_else st) | _ => p_else st end)
                (upd (p_pred st) succ (S (p_pred st succ))) (p_init st) (p_stack st))
    else None.

  (* a new variable with an initial value, loaded and pushed: src/parser.c:672-678, 686-693, 929-936 ... *)
  Definition load_constant (c : Z) (b : nat) (st : pst) : option pst :=
    do (v, st) <- require_var st;
    do st <- opstack_push v (set_init v c st);
    Some (add_insn b OP_load_constant (Some v) None None 0 0 st).
  (* src/parser.c:784-791, 796-803, 1006-1013: a unary operator on the top of the stack *)
  Definition unary_op (o : opcode) (b : nat) (st : pst) : option pst :=
    do (x, st) <- opstack_pop st;
    do (v, st) <- require_var st;
    do st <- opstack_push v st;
    Some (add_insn b o (Some v) (Some x) None 0 0 st).
  (* src/parser.c:1075-1083, 1194-1202, 1290-1298 ...: a binary operator on the two topmost *)
  Definition binary_op (o : opcode) (b : nat) (st : pst) : option pst :=
    do (y, st) <- opstack_pop st;
    do (x, st) <- opstack_pop st;
    do (v, st) <- require_var st;
    do st <- opstack_push v st;
    Some (add_insn b o (Some v) (Some x) (Some y) 0 0 st).

  (* src/parser.c:1026-1029 is_logical *)
  Definition is_logical (o : opcode) : bool := op_eqb o OP_log_and || op_eqb o OP_log_or.
  Definition is_and (o : opcode) : bool := op_eqb o OP_log_and.
  (* a variable holding a label *)
  Definition label (st : pst) : option pst := do (_, st) <- require_var st; Some st.
  (* src/parser.c:1558-1599 read_logical *)
  Definition read_logical (o : opcode) (st : pst) (b : nat) : option (pst * nat) :=
    do (x, st) <- opstack_pop st;
    do st <- label st; do st <- label st;
    let st := add_insn b OP_branch None (Some x) None 0 0 st in
    do st <- label st;
    let '(n, st) := bb_create st in
    do st <- bb_connect b n (if is_and o then THEN else ELSE) st;
    Some (st, n).
  (* src/parser.c:1601-1778 finalize_logical *)
  Definition finalize_logical (o : opcode) (st : pst) (b shared : nat) : option (pst * nat) :=
    let '(e, st) := bb_create st in
    let '(n, st) := bb_create st in                 (* then_next, or else_bb *)
    do st <- bb_connect b (if is_and o then n else shared) THEN st;
    do st <- bb_connect b (if is_and o then shared else n) ELSE st;
    do st <- bb_connect (if is_and o then n else shared) e NEXT st;
    do st <- bb_connect (if is_and o then shared else n) e NEXT st;
    do (x, st) <- opstack_pop st;
    do st <- label st; do st <- label st;
    let st := add_insn b OP_branch None (Some x) None 0 0 st in
    do st <- label st;
    do (c, st) <- require_var st;
    let st := set_init c (if is_and o then 1 else 0) st in
    let st := add_insn n OP_load_constant (Some c) None None 0 0 st in
    do (r, st) <- require_var st;
    let st := add_insn n OP_assign (Some r) (Some c) None 0 0 st in
    do st <- label st; do st <- label st;
    do (d, st) <- require_var st;
    let st := set_init d (if is_and o then 0 else 1) st in
    let st := add_insn shared OP_load_constant (Some d) None None 0 0 st in
    let st := add_insn shared OP_assign (Some r) (Some d) None 0 0 st in
    do st <- label st;
    do st <- opstack_push r st;
    Some (st, e).

  (* src/parser.c:1036-1051, 1030: has_prev_log_op, prev_log_op, pprev_log_op (0 is OP_generic), the shared blocks *)
  Record lg := mklg { l_has : bool; l_prev : opcode; l_pprev : opcode; l_and : nat; l_or : nat }.
  Definition shared (o : opcode) (l : lg) : nat := if is_and o then l_and l else l_or l.
  (* src/parser.c:1069-1089: apply the operators on the stack that bind at least as tightly *)
  Fixpoint reduce (p : Z) (b : nat) (ops : list opcode) (st : pst) : option (list opcode * pst) :=
    match ops with
    | [] => Some ([], st)
    | o :: r => if get_operator_prio o >=? p then do st <- binary_op o b st; reduce p b r st else Some (ops, st)
    end.
  (* src/parser.c:1192-1203 *)
  Fixpoint unwind (b : nat) (ops : list opcode) (st : pst) : option pst :=
    match ops with [] => Some st | o :: r => do st <- binary_op o b st; unwind b r st end.
  (* src/parser.c:1091-1102, and 1056-1063 for the first operator: test the operand before && or || *)
  Definition test_operand (o : opcode) (st : pst) (b : nat) (l : lg) : option (pst * nat) :=
    do st <- bb_connect b (shared o l) (if is_and o then ELSE else THEN) st;
    read_logical o st b.
  (* src/parser.c:1090-1158 *)
  Definition next_logical (o : opcode) (st : pst) (b : nat) (l : lg) : option (pst * nat * lg) :=
    if op_eqb (l_prev l) OP_generic || op_eqb (l_prev l) o then
      do (st, b) <- test_operand o st b l; Some (st, b, mklg true o (l_pprev l) (l_and l) (l_or l))
    else if is_and (l_prev l) then
      do (st, b) <- finalize_logical OP_log_and st b (l_and l);
      let '(a, st) := bb_create st in
      do st <- bb_connect b (l_or l) THEN st;
      do (st, b) <- read_logical o st b;
      Some (st, b, mklg (l_has l) o OP_generic a (l_or l))
    else
      do st <- bb_connect b (l_and l) ELSE st;
      do (st, b) <- read_logical o st b;
      Some (st, b, mklg (l_has l) o (l_prev l) (l_and l) (l_or l)).
  (* src/parser.c:1159-1185: an operator of lower priority than the pending && or || (the shifts) *)
  Fixpoint leave_logical (n : nat) (o : opcode) (st : pst) (b : nat) (l : lg) : option (pst * nat * lg) :=
    if l_has l && (get_operator_prio o <? get_operator_prio (l_prev l)) then
      match n with
      | O => None
      | S n =>
          do (st, b) <- finalize_logical (l_prev l) st b (shared (l_prev l) l);
          let '(c, st) := bb_create st in
          leave_logical n o st b (mklg (negb (op_eqb (l_pprev l) OP_generic)) (l_pprev l) OP_generic
                                       (if is_and (l_prev l) then c else l_and l) (if is_and (l_prev l) then l_or l else c))
      end
    else Some (st, b, l).
  (* src/parser.c:1205-1215 *)
  Fixpoint end_logical (n : nat) (st : pst) (b : nat) (l : lg) : option (pst * nat) :=
    if l_has l then
      match n with
      | O => None
      | S n =>
          do (st, b) <- finalize_logical (l_prev l) st b (shared (l_prev l) l);
          end_logical n st b (mklg (negb (op_eqb (l_pprev l) OP_generic)) (l_pprev l) OP_generic (l_and l) (l_or l))
      end
    else Some (st, b).
  Definition stops (o : opcode) : bool := op_eqb o OP_generic || op_eqb o OP_ternary.

  (* src/parser.c:714-722: the arguments are passed after all have been evaluated *)
  Fixpoint push_args (b : nat) (l : list nat) (st : pst) : pst :=
    match l with [] => st | v :: r => push_args b r (add_insn b OP_push None (Some v) None (Z.of_nat (length l)) 0 st) end.
  (* src/parser.c:62-67 get_size *)
  Definition get_size (v : vinfo) : Z := if vi_ptr v =? 0 then vi_size v else 4.
  Definition peek (t : token) (ts : toks) : bool := match lex_peek t ts with Some _ => true | None => false end.

  Fixpoint read_operand (n : nat) (ts : toks) (st : pst) (b : nat) {struct n} : option (toks * pst * nat) :=
    match n with
    | O => None
    | S n =>
        (* src/parser.c:757-1016 read_expr_operand *)
        let '(is_neg, ts) := match lex_accept T_minus ts with Some r => (true, r) | None => (false, ts) end in
        if is_neg && negb (peek T_numeric ts) && negb (peek T_identifier ts) && negb (peek T_open_bracket ts) then None else
        match ts with
        | (T_char, w) :: r =>                       (* src/parser.c:681-694 read_char_param *)
            do st <- load_constant (hd 0 w) b st; Some (r, st, b)
        | (T_numeric, w) :: r =>                    (* src/parser.c:623-679 read_numeric_param *)
            do c <- read_numeric_param w is_neg; do st <- load_constant c b st; Some (r, st, b)
        | (T_log_not, _) :: r =>
            do (ts, st, b) <- read_operand n r st b; do st <- unary_op OP_log_not b st; Some (ts, st, b)
        | (T_bit_not, _) :: r =>
            do (ts, st, b) <- read_operand n r st b; do st <- unary_op OP_bit_not b st; Some (ts, st, b)
        | (T_open_bracket, _) :: r =>
            do (ts, st, b) <- read_expr n r st b;
            do (ts, st, b) <- read_ternary n ts st b;
            do ts <- lex_expect T_close_bracket ts; Some (ts, st, b)
        | (T_identifier, w) :: r =>                 (* src/parser.c:876-1004 *)
            if special w then None else
            do (ts, st, b) <-
              match find_constant w with
              | Some c => do st <- load_constant c b st; Some (r, st, b)
              | None =>
                  match find_var w with
                  | Some v => do (ts, st, b) <- read_lvalue n v r st b; if peek T_open_bracket ts then None else Some (ts, st, b)
                  | None =>
                      match find_func w with
                      | Some f => if peek T_open_bracket r then read_call n f r st b else None
                      | None => None
                      end
                  end
              end;
            if is_neg then do st <- unary_op OP_negate b st; Some (ts, st, b) else Some (ts, st, b)
        | _ => None
        end
    end
  (* src/parser.c:725-736 read_func_call, 701-723 read_func_parameters, 980-989 *)
  with read_call (n : nat) (f : Z) (ts : toks) (st : pst) (b : nat) {struct n} : option (toks * pst * nat) :=
    match n with
    | O => None
    | S n =>
        do ts <- lex_expect T_open_bracket ts;
        do (ts, st, b, l) <- read_args n [] ts st b;
        let st := add_insn b OP_call None None None 0 f (push_args b l st) in
        do (v, st) <- require_var st;
        do st <- opstack_push v st;
        Some (ts, add_insn b OP_func_ret (Some v) None None 0 0 st, b)
    end
  (* src/parser.c:707-713; l: params[], None: more than it holds *)
  with read_args (n : nat) (l : list nat) (ts : toks) (st : pst) (b : nat) {struct n} : option (toks * pst * nat * list nat) :=
    match n with
    | O => None
    | S n =>
        match lex_accept T_close_bracket ts with
        | Some ts => Some (ts, st, b, l)
        | None =>
            do (ts, st, b) <- read_expr n ts st b;
            do (ts, st, b) <- read_ternary n ts st b;
            do (v, st) <- opstack_pop st;
            if (length l <? MAX_PARAMS)%nat then
              read_args n (l ++ [v]) (match lex_accept T_comma ts with Some r => r | None => ts end) st b
            else None
        end
    end
  (* src/parser.c:1233-1556 read_lvalue with eval true and no prefix operator; the token after the name comes first *)
  with read_lvalue (n : nat) (v : vinfo) (ts : toks) (st : pst) (b : nat) {struct n} : option (toks * pst * nat) :=
    match n with
    | O => None
    | S n =>
        do st <- opstack_push (vi_id v) st;
        do (ts, st, b, size, ref) <- read_subscripts n v (get_size v) false ts st b;
        if peek T_plus ts && (negb (vi_ptr v =? 0) || negb (vi_array v =? 0)) then read_plus n v size ref ts st b
        else
          (* src/parser.c:1432-1554 *)
          if peek T_increment ts || peek T_decrement ts then None
          else if ref then
            do (a, st) <- opstack_pop st;
            do (t, st) <- require_var st;
            do st <- opstack_push t st;
            Some (ts, add_insn b OP_read (Some t) (Some a) None size 0 st, b)
          else Some (ts, st, b)
    end
  (* src/parser.c:1256-1320: the subscripts.  member: is_member; the last result is is_reference *)
  with read_subscripts (n : nat) (v : vinfo) (size : Z) (member : bool) (ts : toks) (st : pst) (b : nat) {struct n} : option (toks * pst * nat * Z * bool) :=
    match n with
    | O => None
    | S n =>
        if peek T_arrow ts || peek T_dot ts then None
        else match lex_accept T_open_square ts with
        | None => Some (ts, st, b, size, member)
        | Some ts =>
            do st <- (if negb (vi_ptr v =? 0) && member then
                        do (a, st) <- opstack_pop st;
                        do (t, st) <- require_var st;
                        do st <- opstack_push t st;
                        Some (add_insn b OP_read (Some t) (Some a) None 4 0 st)
                      else Some st);
            if (vi_ptr v =? 0) && (vi_array v =? 0) then None else
            let size := if (vi_ptr v <=? 1) && (vi_array v =? 0) then vi_size v else size in
            do (ts, st, b) <- read_expr n ts st b;
            do st <- (if size =? 1 then Some st else do st <- load_constant size b st; binary_op OP_mul b st);
            do st <- binary_op OP_add b st;
            do ts <- lex_expect T_close_square ts;
            read_subscripts n v size true ts st b
        end
    end
  (* src/parser.c:1397-1431: additions to a pointer *)
  with read_plus (n : nat) (v : vinfo) (size : Z) (ref : bool) (ts : toks) (st : pst) (b : nat) {struct n} : option (toks * pst * nat) :=
    match n with
    | O => None
    | S n =>
        match lex_accept T_plus ts with
        | None => Some (ts, st, b)
        | Some ts =>
            do st <- (if ref : bool then
                        do (a, st) <- opstack_pop st;
                        do (t, st) <- require_var st;
                        do st <- opstack_push t st;
                        Some (add_insn b OP_read (Some t) (Some a) None size 0 st)
                      else Some st);
            do (ts, st, b) <- read_operand n ts st b;
            let size := vi_size v in
            do st <- (if 1 <? size then do st <- load_constant size b st; binary_op OP_mul b st else Some st);
            do st <- binary_op OP_add b st;
            read_plus n v size ref ts st b
        end
    end
  (* src/parser.c:1031-1216 read_expr *)
  with read_expr (n : nat) (ts : toks) (st : pst) (b : nat) {struct n} : option (toks * pst * nat) :=
    match n with
    | O => None
    | S n =>
        let '(a, st) := bb_create st in
        let '(o, st) := bb_create st in
        let l := mklg false OP_generic OP_generic a o in
        do (ts, st, b) <- read_operand n ts st b;
        let '(op, ts) := get_operator ts in
        if stops op then Some (ts, st, b)
        else if is_logical op then
          do (st, b) <- test_operand op st b l;
          do (ts, st, b) <- read_operand n ts st b;
          let '(op', ts) := get_operator ts in expr_loop n op' ts st b [] (mklg true op OP_generic a o)
        else
          do (ts, st, b) <- read_operand n ts st b;
          let '(op', ts) := get_operator ts in expr_loop n op' ts st b [op] l
    end
  (* src/parser.c:1067-1191, 1192-1216.  oper_stack[10], top first *)
  with expr_loop (n : nat) (op : opcode) (ts : toks) (st : pst) (b : nat) (ops : list opcode) (l : lg) {struct n} : option (toks * pst * nat) :=
    match n with
    | O => None
    | S n =>
        if stops op then
          do st <- unwind b ops st; do (st, b) <- end_logical 3 st b l; Some (ts, st, b)
        else
          do (ops, st) <- reduce (get_operator_prio op) b ops st;
          do (st, b, l) <- (if is_logical op then next_logical op st b l else leave_logical 3 op st b l);
          do (ts, st, b) <- read_operand n ts st b;
          do ops <- (if is_logical op then Some ops else if (length ops <? 10)%nat then Some (op :: ops) else None);
          let '(op', ts) := get_operator ts in expr_loop n op' ts st b ops l
    end
  (* src/parser.c:1780-1861 read_ternary_operation *)
  with read_ternary (n : nat) (ts : toks) (st : pst) (b : nat) {struct n} : option (toks * pst * nat) :=
    match n with
    | O => None
    | S n =>
        match lex_accept T_question ts with
        | None => Some (ts, st, b)
        | Some ts =>
            do (x, st) <- opstack_pop st;
            do st <- label st; do st <- label st;
            let st := add_insn b OP_branch None (Some x) None 0 0 st in
            let '(t, st) := bb_create st in
            let '(e, st) := bb_create st in
            let '(j, st) := bb_create st in
            do st <- bb_connect t j NEXT st;
            do st <- bb_connect e j NEXT st;
            do st <- label st;
            do (ts, st, t) <- read_expr n ts st t;
            do st <- bb_connect b t THEN st;
            do ts <- lex_accept T_colon ts;
            do (y, st) <- opstack_pop st;
            do (v, st) <- require_var st;
            let st := add_insn t OP_assign (Some v) (Some y) None 0 0 st in
            do st <- label st; do st <- label st;
            do (ts, st, e) <- read_expr n ts st e;
            do st <- bb_connect b e ELSE st;
            do (z, st) <- opstack_pop st;
            let st := add_insn e OP_assign (Some v) (Some z) None 0 0 st in
            do st <- label st;
            do st <- opstack_push v st;
            Some (ts, st, j)
        end
    end.

  (* src/parser.c:2402-2419: return e; (perform_side_effect has nothing to do without ++ and --) *)
  Definition read_return (n : nat) (exit : nat) (ts : toks) (st : pst) (b : nat) : option (toks * pst) :=
    do (ts, st, b) <- read_expr n ts st b;
    do (ts, st, b) <- read_ternary n ts st b;
    do ts <- lex_expect T_semicolon ts;
    do (x, st) <- opstack_pop st;
    do st <- bb_connect b exit NEXT (add_insn b OP_return None (Some x) None 0 0 st);
    Some (ts, st).
End Parser.
