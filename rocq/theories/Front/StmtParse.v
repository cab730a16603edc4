(** Model of the statement reader, src/parser.c:515-583, 1863-2075, 2375-3160: declarations, assignments, calls, blocks, if,
    while, do, for, break, continue, return.  Expressions are read by ExprParse.v.
    Not modelled (None): switch, struct and function pointer declarations, calls through pointers, macro calls, #if inside a
    function, and any statement that cannot be reached (the real reader warns, then drops its instructions or aborts). *)
From Verif.Front Require Export ExprParse.
From Verif.Front Require Import StmtSpec.
Open Scope Z_scope.

(* the variables of the blocks around the statement, the innermost first and the parameters last (src/defs.h block_t), and all
   the variables declared so far *)
Record cenv := mkce { c_scopes : list (list (text * vinfo)); c_locals : list vinfo }.

Section Statements.
  Variable find_constant : text -> option Z.       (* src/globals.c:605 *)
  Variable find_global : text -> option vinfo.     (* src/globals.c find_global_var *)
  Variable find_type : text -> option Z.           (* src/globals.c:392 find_type: the size *)
  Variable find_func : text -> option Z.           (* src/globals.c find_func *)
  Variable special : text -> bool.                 (* a macro *)
  Variable lim : nat.                              (* MAX_LOCALS *)
  Variable exit : nat.                             (* func->fn->exit *)

  (* src/globals.c find_local_var, find_global_var: the first of that name in the innermost block that has one *)
  Definition find_var (e : cenv) (x : text) : option vinfo :=
    match find_scopes x (c_scopes e) with Some v => Some v | None => find_global x end.
  Notation expr e := (read_expr find_constant (find_var e) find_func special lim).
  Notation ternary e := (read_ternary find_constant (find_var e) find_func special lim).

  (* src/parser.c:1881-1904 *)
  Definition update_op (ts : toks) : option (opcode * bool * toks) :=
    match ts with
    | (T_increment, _) :: r => Some (OP_add, true, r) | (T_decrement, _) :: r => Some (OP_sub, true, r)
    | (T_pluseq, _) :: r => Some (OP_add, false, r) | (T_minuseq, _) :: r => Some (OP_sub, false, r)
    | (T_asteriskeq, _) :: r => Some (OP_mul, false, r) | (T_divideeq, _) :: r => Some (OP_div, false, r)
    | (T_modeq, _) :: r => Some (OP_mod, false, r) | (T_lshifteq, _) :: r => Some (OP_lshift, false, r)
    | (T_rshifteq, _) :: r => Some (OP_rshift, false, r) | (T_xoreq, _) :: r => Some (OP_bit_xor, false, r)
    | (T_oreq, _) :: r => Some (OP_bit_or, false, r) | (T_andeq, _) :: r => Some (OP_bit_and, false, r)
    | _ => None
    end.
  (* src/parser.c:1939-1952, 1989-2002: t *)
  Definition old_value (ref : bool) (size : Z) (b : nat) (st : pst) : option (nat * pst) :=
    if ref then
      do (a, st) <- opstack_pop st;
      do (t, st) <- require_var lim st;
      do st <- opstack_push t st;
      Some (a, add_insn b OP_read (Some t) (Some a) None size 0 st)
    else match p_stack st with v :: _ => Some (v, st) | [] => None end.
  (* src/parser.c:1971-1985, 2031-2045, 2056-2069 *)
  Definition new_value (ref : bool) (size : Z) (t d : nat) (b : nat) (st : pst) : pst :=
    if ref then add_insn b OP_write None (Some t) (Some d) size 0 st else add_insn b OP_assign (Some t) (Some d) None 0 0 st.
  (* src/parser.c:1863-2075 read_body_assignment, with read_lvalue (1233-1395, eval false); the name is the first token *)
  Definition read_assignment (n : nat) (e : cenv) (prefix : option opcode) (ts : toks) (st : pst) (b : nat) : option (toks * pst * nat) :=
    match ts with
    | (T_identifier, x) :: ts =>
        do v <- find_var e x;
        do st <- opstack_push (vi_id v) st;
        do (ts, st, b, size, ref) <- read_subscripts find_constant (find_var e) find_func special lim n v (get_size v) false ts st b;
        if peek T_open_bracket ts then None else
        let inc := if vi_ptr v =? 0 then 1 else vi_size v in
        match (match update_op ts with Some u => Some u | None => match prefix with Some o => Some (o, true, ts) | None => None end end) with
        | Some (o, true, ts) =>
            do (t, st) <- old_value ref size b st;
            do (c, st) <- require_var lim st;
            let st := add_insn b OP_load_constant (Some c) None None 0 0 (set_init c inc st) in
            do (y, st) <- opstack_pop st;
            do (d, st) <- require_var lim st;
            Some (ts, new_value ref size t d b (add_insn b o (Some d) (Some y) (Some c) 0 0 st), b)
        | Some (o, false, ts) =>
            do (t, st) <- old_value ref size b st;
            do (ts, st, b) <- expr e n ts st b;
            do st <- load_constant lim inc b st;
            do st <- binary_op lim OP_mul b st;
            do (z, st) <- opstack_pop st;
            do (y, st) <- opstack_pop st;
            do (d, st) <- require_var lim st;
            Some (ts, new_value ref size t d b (add_insn b o (Some d) (Some y) (Some z) 0 0 st), b)
        | None =>
            do ts <- lex_expect T_assign ts;
            do (ts, st, b) <- expr e n ts st b;
            do (ts, st, b) <- ternary e n ts st b;
            do (z, st) <- opstack_pop st;
            do (y, st) <- opstack_pop st;
            Some (ts, new_value ref size y z b st, b)
        end
    | _ => None
    end.

  (* src/parser.c:527-528 *)
  Fixpoint read_stars (ts : toks) : Z * toks :=
    match ts with (T_asterisk, _) :: r => let '(k, ts) := read_stars r in (k + 1, ts) | _ => (0, ts) end.
  (* src/parser.c:522-572 read_inner_var_decl: the variable with number id, of a type of that size *)
  Definition read_declarator (id : nat) (size : Z) (ts : toks) : option (toks * text * vinfo) :=
    let '(k, ts) := read_stars ts in
    match ts with
    | (T_identifier, x) :: ts =>
        match lex_accept T_open_square ts with
        | Some ((T_numeric, w) :: ts) =>           (* char buffer[10] *)
            if (length w <? 10)%nat then do ts <- lex_expect T_close_square ts; Some (ts, x, mkvi id k (read_numeric_constant w) size) else None
        | Some ts => do ts <- lex_expect T_close_square ts; Some (ts, x, mkvi id (k + 1) 0 size)
        | None => Some (ts, x, mkvi id k 0 size)
        end
    | _ => None
    end.
  (* src/parser.c:2779-2816, 3020-3058: the declarators up to the semicolon; only after the first may ?: follow *)
  Fixpoint read_declarators (n : nat) (first : bool) (size : Z) (e : cenv) (ts : toks) (st : pst) (b : nat) : option (toks * pst * nat * cenv) :=
    match n with
    | O => None
    | S n =>
        do (id, st) <- require_var lim st;
        do (ts, x, v) <- read_declarator id size ts;
        let e := mkce (declare x v (c_scopes e)) (v :: c_locals e) in
        let st := add_insn b OP_allocat (Some id) None None 0 0 st in
        do (ts, st, b) <-
          (match lex_accept T_assign ts with
           | Some ts =>
               do (ts, st, b) <- expr e n ts st b;
               do (ts, st, b) <- (if first : bool then ternary e n ts st b else Some (ts, st, b));
               do (z, st) <- opstack_pop st;
               Some (ts, add_insn b OP_assign (Some id) (Some z) None 0 0 st, b)
           | None => Some (ts, st, b)
           end);
        match lex_accept T_comma ts with
        | Some ts => read_declarators n false size e ts st b
        | None => do ts <- lex_expect T_semicolon ts; Some (ts, st, b, e)
        end
    end.
  Definition open_scope (e : cenv) : cenv := mkce ([] :: c_scopes e) (c_locals e).
  (* after the block: its variables are no longer found *)
  Definition close_scope (outer e : cenv) : cenv := mkce (c_scopes outer) (c_locals e).
  (* src/parser.c:2448-2457 ...: the branch on the top of the operand stack, with its two labels *)
  Definition add_branch (b : nat) (st : pst) : option pst :=
    do (x, st) <- opstack_pop st;
    do st <- label lim st; do st <- label lim st;
    Some (add_insn b OP_branch None (Some x) None 0 0 st).
  (* src/parser.c:2470-2474, 2493-2497: then_next_, else_next_ *)
  Definition after_body (o : option nat) (st : pst) : option (option nat * pst) :=
    match o with
    | Some c => let '(k, st) := bb_create st in do st <- bb_connect c k NEXT st; Some (Some k, st)
    | None => Some (None, st)
    end.
  Definition connect_opt (o : option nat) (k : nat) (st : pst) : option pst :=
    match o with Some c => bb_connect c k NEXT st | None => Some st end.

  Fixpoint read_stmt (n : nat) (brk cnt : option nat) (e : cenv) (ts : toks) (st : pst) (b : nat) {struct n} : option (toks * pst * option nat * cenv) :=
    match n with
    | O => None
    | S n =>
        match ts with
        | (T_open_curly, _) :: ts =>               (* src/parser.c:2392-2393, 3100-3122 read_code_block *)
            do (ts, st, o, e1) <- read_block n brk cnt (open_scope e) ts st (Some b); Some (ts, st, o, close_scope e e1)
        | (T_return, _) :: ts =>                   (* src/parser.c:2395-2419 *)
            match lex_accept T_semicolon ts with
            | Some ts => do st <- bb_connect b exit NEXT (add_insn b OP_return None None None 0 0 st); Some (ts, st, None, e)
            | None => do (ts, st) <- read_return find_constant (find_var e) find_func special lim n exit ts st b; Some (ts, st, None, e)
            end
        | (T_if, _) :: ts =>                       (* src/parser.c:2421-2510 *)
            let '(k, st) := bb_create st in
            do st <- bb_connect b k NEXT st;
            do ts <- lex_expect T_open_bracket ts;
            do (ts, st, c) <- expr e n ts st k;
            do ts <- lex_expect T_close_bracket ts;
            do st <- add_branch c st;
            do st <- label lim st;
            let '(t, st) := bb_create st in
            let '(f, st) := bb_create st in
            do st <- bb_connect c t THEN st;
            do st <- bb_connect c f ELSE st;
            do (ts, st, o, e) <- read_stmt n brk cnt e ts st t;
            do (p, st) <- after_body o st;
            match lex_accept T_else ts with
            | Some ts =>
                do st <- label lim st; do st <- label lim st;
                do (ts, st, o, e) <- read_stmt n brk cnt e ts st f;
                do (q, st) <- after_body o st;
                do st <- label lim st;
                match p, q with
                | Some p, Some q =>
                    let '(j, st) := bb_create st in
                    do st <- bb_connect p j NEXT st;
                    do st <- bb_connect q j NEXT st; Some (ts, st, Some j, e)
                | Some p, None => Some (ts, st, Some p, e)
                | None, _ => Some (ts, st, q, e)
                end
            | None =>
                do st <- label lim st;
                match p with
                | Some p => do st <- bb_connect f p NEXT st; Some (ts, st, Some p, e)
                | None => Some (ts, st, Some f, e)
                end
            end
        | (T_while, _) :: ts =>                    (* src/parser.c:2512-2589 *)
            let '(k, st) := bb_create st in
            do st <- bb_connect b k NEXT st;
            do st <- label lim st; do st <- label lim st;
            let '(_, st) := bb_create st in
            do ts <- lex_expect T_open_bracket ts;
            do (ts, st, c) <- expr e n ts st k;
            do ts <- lex_expect T_close_bracket ts;
            do st <- add_branch c st;
            do st <- label lim st;
            let '(t, st) := bb_create st in
            let '(f, st) := bb_create st in
            do st <- bb_connect c t THEN st;
            do st <- bb_connect c f ELSE st;
            do (ts, st, o, e) <- read_stmt n (Some f) (Some k) e ts st t;
            do st <- label lim st;
            do st <- connect_opt o k st;
            Some (ts, st, Some f, e)
        | (T_break, _) :: ts =>                    (* src/parser.c:2751-2757 *)
            do k <- brk; do st <- bb_connect b k NEXT st; do ts <- lex_expect T_semicolon ts; Some (ts, st, None, e)
        | (T_continue, _) :: ts =>                 (* src/parser.c:2759-2765 *)
            do k <- cnt; do st <- bb_connect b k NEXT st; do ts <- lex_expect T_semicolon ts; Some (ts, st, None, e)
        | (T_for, _) :: ts =>                      (* src/parser.c:2767-2945 *)
            do ts <- lex_expect T_open_bracket ts;
            let e1 := open_scope e in
            let '(k, st) := bb_create st in
            do st <- bb_connect b k NEXT st;
            do (ts, st, k, e1) <-
              (match lex_accept T_semicolon ts with
               | Some ts => Some (ts, st, k, e1)
               | None =>
                   match ts with
                   | (T_identifier, x) :: r =>
                       match find_type x with
                       | Some size => read_declarators n true size e1 r st k
                       | None => do (ts, st, k) <- read_assignment n e1 None ts st k; do ts <- lex_expect T_semicolon ts; Some (ts, st, k, e1)
                       end
                   | _ => None
                   end
               end);
            let '(c0, st) := bb_create st in
            let '(f, st) := bb_create st in
            do st <- bb_connect k c0 NEXT st;
            do st <- label lim st;
            do (ts, st, c) <-
              (match lex_accept T_semicolon ts with
               | Some ts => do st <- load_constant lim 1 c0 st; Some (ts, st, c0)
               | None => do (ts, st, c) <- expr e1 n ts st c0; do ts <- lex_expect T_semicolon ts; Some (ts, st, c)
               end);
            do st <- bb_connect c f ELSE st;
            do st <- add_branch c st;
            do st <- label lim st;
            let '(i0, st) := bb_create st in
            do st <- label lim st;
            do (ts, st, i) <-
              (match lex_accept T_close_bracket ts with
               | Some ts => Some (ts, st, i0)
               | None =>
                   let '(prefix, ts) := match ts with (T_increment, _) :: r => (Some OP_add, r) | (T_decrement, _) :: r => (Some OP_sub, r) | _ => (None, ts) end in
                   do (ts, st, i) <- read_assignment n e1 prefix ts st i0; do ts <- lex_expect T_close_bracket ts; Some (ts, st, i)
               end);
            do st <- label lim st; do st <- label lim st;
            let '(t, st) := bb_create st in
            do st <- bb_connect c t THEN st;
            do (ts, st, o, e2) <- read_stmt n (Some f) (Some i0) e1 ts st t;
            do st <-
              (match o with
               | Some a => do st <- bb_connect a i NEXT st; bb_connect i c0 NEXT st
               | None => match p_code st i with [] => Some st | _ => bb_connect i c0 NEXT st end
               end);
            do st <- label lim st;
            Some (ts, st, Some f, close_scope e e2)
        | (T_do, _) :: ts =>                       (* src/parser.c:2947-3010 *)
            let '(k, st) := bb_create st in
            do st <- bb_connect b k NEXT st;
            let '(c0, st) := bb_create st in
            let '(f, st) := bb_create st in
            do st <- label lim st; do st <- label lim st; do st <- label lim st;
            do (ts, st, o, e) <- read_stmt n (Some f) (Some c0) e ts st k;
            do st <- connect_opt o c0 st;
            do ts <- lex_expect T_while ts;
            do ts <- lex_expect T_open_bracket ts;
            do st <- label lim st;
            do (ts, st, c) <- expr e n ts st c0;
            do ts <- lex_expect T_close_bracket ts;
            do st <- add_branch c st;
            do ts <- lex_expect T_semicolon ts;
            do st <- (if (p_pred st c =? 0)%nat then Some st else do st <- bb_connect c k THEN st; bb_connect c f ELSE st);
            Some (ts, st, Some f, e)
        | (T_semicolon, _) :: ts => Some (ts, st, Some b, e)
        | _ =>                                     (* src/parser.c:3016-3095 *)
            let '(prefix, ts) := match ts with (T_increment, _) :: r => (Some OP_add, r) | (T_decrement, _) :: r => (Some OP_sub, r) | _ => (None, ts) end in
            match ts with
            | (T_identifier, x) :: r =>
                match find_type x with
                | Some size => do (ts, st, b, e) <- read_declarators n true size e r st b; Some (ts, st, Some b, e)
                | None =>
                    if special x then None else
                    match find_func x with
                    | Some f =>
                        do ts <- lex_expect T_open_bracket r;
                        do (ts, st, b, l) <- read_args find_constant (find_var e) find_func special lim n [] ts st b;
                        do ts <- lex_expect T_semicolon ts;
                        Some (ts, add_insn b OP_call None None None 0 f (push_args b l st), Some b, e)
                    | None =>
                        do (ts, st, b) <- read_assignment n e prefix ts st b;
                        do ts <- lex_expect T_semicolon ts; Some (ts, st, Some b, e)
                    end
                end
            | _ => None
            end
        end
    end
  with read_block (n : nat) (brk cnt : option nat) (e : cenv) (ts : toks) (st : pst) (o : option nat) {struct n} : option (toks * pst * option nat * cenv) :=
    match n with
    | O => None
    | S n =>
        match lex_accept T_close_curly ts with
        | Some ts => Some (ts, st, o, e)
        | None =>
            do b <- o;
            do (ts, st, o, e) <- read_stmt n brk cnt e ts st b;
            read_block n brk cnt e ts st o
        end
    end.
End Statements.

(* src/parser.c:3126-3160 read_func_body, from "{"; the blocks 0 and 1 are fn->bbs and fn->exit, the parameters (their scope)
   come first among the variables *)
Definition read_func_body find_constant find_global find_type find_func special lim (params : list (text * vinfo)) (n : nat) (ts : toks) (nvars : nat) : option (toks * pst * cenv) :=
  let st := mkp nvars 2 (fun _ => []) (fun _ => None) (fun _ => None) (fun _ => None) (fun _ => 0%nat) (fun _ => 0) [] in
  do ts <- lex_expect T_open_curly ts;
  do (ts, st, o, e) <- read_block find_constant find_global find_type find_func special lim 1 n None None (mkce [[]; params] []) ts st (Some 0%nat);
  do st <- connect_opt o 1 st;
  Some (ts, st, e).
