(** Unfolding equations for the readers of ExprParse.v (generated from its text). *)
From Verif.Front Require Export ExprParse.
Open Scope Z_scope.
Section Unfold.
  Variable find_constant : text -> option Z.
  Variable find_var : text -> option vinfo.
  Variable find_func : text -> option Z.
  Variable special : text -> bool.
  Variable lim : nat.
  Local Notation require_var := (ExprParse.require_var lim).
  Local Notation load_constant := (ExprParse.load_constant lim).
  Local Notation unary_op := (ExprParse.unary_op lim).
  Local Notation binary_op := (ExprParse.binary_op lim).
  Local Notation label := (ExprParse.label lim).
  Local Notation reduce := (ExprParse.reduce lim).
  Local Notation unwind := (ExprParse.unwind lim).
  Local Notation test_operand := (ExprParse.test_operand lim).
  Local Notation next_logical := (ExprParse.next_logical lim).
  Local Notation leave_logical := (ExprParse.leave_logical lim).
  Local Notation end_logical := (ExprParse.end_logical lim).
  Local Notation read_logical := (ExprParse.read_logical lim).
  Local Notation finalize_logical := (ExprParse.finalize_logical lim).
  Local Notation read_operand := (ExprParse.read_operand find_constant find_var find_func special lim).
  Local Notation read_call := (ExprParse.read_call find_constant find_var find_func special lim).
  Local Notation read_args := (ExprParse.read_args find_constant find_var find_func special lim).
  Local Notation read_lvalue := (ExprParse.read_lvalue find_constant find_var find_func special lim).
  Local Notation read_subscripts := (ExprParse.read_subscripts find_constant find_var find_func special lim).
  Local Notation read_plus := (ExprParse.read_plus find_constant find_var find_func special lim).
  Local Notation read_expr := (ExprParse.read_expr find_constant find_var find_func special lim).
  Local Notation expr_loop := (ExprParse.expr_loop find_constant find_var find_func special lim).
  Local Notation read_ternary := (ExprParse.read_ternary find_constant find_var find_func special lim).
  Lemma read_operand_S (n : nat) (ts : toks) (st : pst) (b : nat) : read_operand (S n) ts st b =
        
        let '(is_neg, ts) := match lex_accept T_minus ts with Some r => (true, r) | None => (false, ts) end in
        if is_neg && negb (peek T_numeric ts) && negb (peek T_identifier ts) && negb (peek T_open_bracket ts) then None else
        match ts with
        | (T_char, w) :: r =>                       
            do st <- load_constant (hd 0 w) b st; Some (r, st, b)
        | (T_numeric, w) :: r =>                    
            do c <- read_numeric_param w is_neg; do st <- load_constant c b st; Some (r, st, b)
        | (T_log_not, _) :: r =>
            do (ts, st, b) <- read_operand n r st b; do st <- unary_op OP_log_not b st; Some (ts, st, b)
        | (T_bit_not, _) :: r =>
            do (ts, st, b) <- read_operand n r st b; do st <- unary_op OP_bit_not b st; Some (ts, st, b)
        | (T_open_bracket, _) :: r =>
            do (ts, st, b) <- read_expr n r st b;
            do (ts, st, b) <- read_ternary n ts st b;
            do ts <- lex_expect T_close_bracket ts; Some (ts, st, b)
        | (T_identifier, w) :: r =>                 
            if special w then None else
            do (ts, st, b) <-
              match find_constant w with
              | Some c => do st <- load_constant c b st; Some (r, st, b)
              | None =>
                  match find_var w with
                  | Some v => do (ts, st, b) <- read_lvalue n v r st b; if peek T_open_bracket ts then None else Some (ts, st, b)
                  | None =>
                      match find_func w with
                      | Some f => if peek T_open_bracket r then read_call n f r st b else None
                      | None => None
                      end
                  end
              end;
            if is_neg then do st <- unary_op OP_negate b st; Some (ts, st, b) else Some (ts, st, b)
        | _ => None
        end.
  Proof. reflexivity. Qed.
  Lemma read_call_S (n : nat) (f : Z) (ts : toks) (st : pst) (b : nat) : read_call (S n) f ts st b =
        do ts <- lex_expect T_open_bracket ts;
        do (ts, st, b, l) <- read_args n [] ts st b;
        let st := add_insn b OP_call None None None 0 f (push_args b l st) in
        do (v, st) <- require_var st;
        do st <- opstack_push v st;
        Some (ts, add_insn b OP_func_ret (Some v) None None 0 0 st, b).
  Proof. reflexivity. Qed.
  Lemma read_args_S (n : nat) (l : list nat) (ts : toks) (st : pst) (b : nat) : read_args (S n) l ts st b =
        match lex_accept T_close_bracket ts with
        | Some ts => Some (ts, st, b, l)
        | None =>
            do (ts, st, b) <- read_expr n ts st b;
            do (ts, st, b) <- read_ternary n ts st b;
            do (v, st) <- opstack_pop st;
            if (length l <? MAX_PARAMS)%nat then
              read_args n (l ++ [v]) (match lex_accept T_comma ts with Some r => r | None => ts end) st b
            else None
        end.
  Proof. reflexivity. Qed.
  Lemma read_lvalue_S (n : nat) (v : vinfo) (ts : toks) (st : pst) (b : nat) : read_lvalue (S n) v ts st b =
        do st <- opstack_push (vi_id v) st;
        do (ts, st, b, size, ref) <- read_subscripts n v (get_size v) false ts st b;
        if peek T_plus ts && (negb (vi_ptr v =? 0) || negb (vi_array v =? 0)) then read_plus n v size ref ts st b
        else
          
          if peek T_increment ts || peek T_decrement ts then None
          else if ref then
            do (a, st) <- opstack_pop st;
            do (t, st) <- require_var st;
            do st <- opstack_push t st;
            Some (ts, add_insn b OP_read (Some t) (Some a) None size 0 st, b)
          else Some (ts, st, b).
  Proof. reflexivity. Qed.
  Lemma read_subscripts_S (n : nat) (v : vinfo) (size : Z) (member : bool) (ts : toks) (st : pst) (b : nat) : read_subscripts (S n) v size member ts st b =
        if peek T_arrow ts || peek T_dot ts then None
        else match lex_accept T_open_square ts with
        | None => Some (ts, st, b, size, member)
        | Some ts =>
            do st <- (if negb (vi_ptr v =? 0) && member then
                        do (a, st) <- opstack_pop st;
                        do (t, st) <- require_var st;
                        do st <- opstack_push t st;
                        Some (add_insn b OP_read (Some t) (Some a) None 4 0 st)
                      else Some st);
            if (vi_ptr v =? 0) && (vi_array v =? 0) then None else
            let size := if (vi_ptr v <=? 1) && (vi_array v =? 0) then vi_size v else size in
            do (ts, st, b) <- read_expr n ts st b;
            do st <- (if size =? 1 then Some st else do st <- load_constant size b st; binary_op OP_mul b st);
            do st <- binary_op OP_add b st;
            do ts <- lex_expect T_close_square ts;
            read_subscripts n v size true ts st b
        end.
  Proof. reflexivity. Qed.
  Lemma read_plus_S (n : nat) (v : vinfo) (size : Z) (ref : bool) (ts : toks) (st : pst) (b : nat) : read_plus (S n) v size ref ts st b =
        match lex_accept T_plus ts with
        | None => Some (ts, st, b)
        | Some ts =>
            do st <- (if ref : bool then
                        do (a, st) <- opstack_pop st;
                        do (t, st) <- require_var st;
                        do st <- opstack_push t st;
                        Some (add_insn b OP_read (Some t) (Some a) None size 0 st)
                      else Some st);
            do (ts, st, b) <- read_operand n ts st b;
            let size := vi_size v in
            do st <- (if 1 <? size then do st <- load_constant size b st; binary_op OP_mul b st else Some st);
            do st <- binary_op OP_add b st;
            read_plus n v size ref ts st b
        end.
  Proof. reflexivity. Qed.
  Lemma read_expr_S (n : nat) (ts : toks) (st : pst) (b : nat) : read_expr (S n) ts st b =
        let '(a, st) := bb_create st in
        let '(o, st) := bb_create st in
        let l := mklg false OP_generic OP_generic a o in
        do (ts, st, b) <- read_operand n ts st b;
        let '(op, ts) := get_operator ts in
        if stops op then Some (ts, st, b)
        else if is_logical op then
          do (st, b) <- test_operand op st b l;
          do (ts, st, b) <- read_operand n ts st b;
          let '(op', ts) := get_operator ts in expr_loop n op' ts st b [] (mklg true op OP_generic a o)
        else
          do (ts, st, b) <- read_operand n ts st b;
          let '(op', ts) := get_operator ts in expr_loop n op' ts st b [op] l.
  Proof. reflexivity. Qed.
  Lemma expr_loop_S (n : nat) (op : opcode) (ts : toks) (st : pst) (b : nat) (ops : list opcode) (l : lg) : expr_loop (S n) op ts st b ops l =
        if stops op then
          do st <- unwind b ops st; do (st, b) <- end_logical 3 st b l; Some (ts, st, b)
        else
          do (ops, st) <- reduce (get_operator_prio op) b ops st;
          do (st, b, l) <- (if is_logical op then next_logical op st b l else leave_logical 3 op st b l);
          do (ts, st, b) <- read_operand n ts st b;
          do ops <- (if is_logical op then Some ops else if (length ops <? 10)%nat then Some (op :: ops) else None);
          let '(op', ts) := get_operator ts in expr_loop n op' ts st b ops l.
  Proof. reflexivity. Qed.
  Lemma read_ternary_S (n : nat) (ts : toks) (st : pst) (b : nat) : read_ternary (S n) ts st b =
        match lex_accept T_question ts with
        | None => Some (ts, st, b)
        | Some ts =>
            do (x, st) <- opstack_pop st;
            do st <- label st; do st <- label st;
            let st := add_insn b OP_branch None (Some x) None 0 0 st in
            let '(t, st) := bb_create st in
            let '(e, st) := bb_create st in
            let '(j, st) := bb_create st in
            do st <- bb_connect t j NEXT st;
            do st <- bb_connect e j NEXT st;
            do st <- label st;
            do (ts, st, t) <- read_expr n ts st t;
            do st <- bb_connect b t THEN st;
            do ts <- lex_accept T_colon ts;
            do (y, st) <- opstack_pop st;
            do (v, st) <- require_var st;
            let st := add_insn t OP_assign (Some v) (Some y) None 0 0 st in
            do st <- label st; do st <- label st;
            do (ts, st, e) <- read_expr n ts st e;
            do st <- bb_connect b e ELSE st;
            do (z, st) <- opstack_pop st;
            let st := add_insn e OP_assign (Some v) (Some z) None 0 0 st in
            do st <- label st;
            do st <- opstack_push v st;
            Some (ts, st, j)
        end.
  Proof. reflexivity. Qed.
End Unfold.
