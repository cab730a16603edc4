(** Model of the reader of switch statements, src/parser.c:2592-2749, and of function bodies that contain them, src/parser.c:3100-3160.
    The statements below the labels, and the other statements of the function, are read by StmtParse.v.
    Not modelled (None): a switch inside another statement, statements that follow a break of the same label. *)
From Verif.Front Require Export StmtParse SwitchSpec.
Open Scope Z_scope.

Section Switch.
  Variable find_constant : text -> option Z.
  Variable find_global : text -> option vinfo.
  Variable find_type : text -> option Z.
  Variable find_func : text -> option Z.
  Variable special : text -> bool.
  Variable lim : nat.
  Variable exit : nat.
  Notation read_stmt := (read_stmt find_constant find_global find_type find_func special lim exit).
  Notation expr e := (read_expr find_constant (find_var find_global e) find_func special lim).

  (* src/parser.c:2671-2672, 2682-2683: the statements below a label end *)
  Definition at_label (ts : toks) : bool := peek T_case ts || peek T_default ts || peek T_close_curly ts.
  (* src/parser.c:2621-2636: the value of a case label *)
  Definition read_case_value (ts : toks) : option (Z * toks) :=
    match ts with
    | (T_numeric, w) :: r => Some (read_numeric_constant w, r)
    | (T_char, w) :: r => Some (hd 0 w, r)
    | (T_identifier, w) :: r => do c <- find_constant w; Some (c, r)
    | _ => None
    end.
  (* src/parser.c:2638-2661: compare with the value switched on, which stays on the operand stack, and branch *)
  Definition compare_case (c : Z) (b : nat) (st : pst) : option pst :=
    do st <- load_constant lim c b st;
    do st <- label lim st;
    do (x, st) <- opstack_pop st;
    match p_stack st with
    | y :: _ =>
        do (d, st) <- require_var lim st;
        let st := add_insn b OP_eq (Some d) (Some x) (Some y) 0 0 st in
        do st <- label lim st; do st <- label lim st;
        Some (add_insn b OP_branch None (Some d) None 0 0 st)
    | [] => None
    end.
  (* src/parser.c:2682-2686 *)
  Fixpoint read_case_body (n : nat) (f : nat) (cnt : option nat) (e : cenv) (ts : toks) (st : pst) (o : option nat) : option (toks * pst * option nat * cenv) :=
    match n with
    | O => None
    | S n =>
        if at_label ts then Some (ts, st, o, e) else
        do b <- o;
        do (ts, st, o, e) <- read_stmt n (Some f) cnt e ts st b;
        read_case_body n f cnt e ts st o
    end.
  (* src/parser.c:2688-2696 and the statements before: from the colon to the next label or brace *)
  Definition read_case (n : nat) (f : nat) (cnt : option nat) (default : bool) (e : cenv) (ts : toks) (st : pst) (t : nat) : option (toks * pst * option nat * cenv) :=
    do st <- (if default || at_label ts then Some st else label lim st);
    if at_label ts then Some (ts, st, Some t, e) else
    do (ts, st, o, e) <- read_case_body n f cnt e ts st (Some t);
    do (o, st) <- after_body o st;
    Some (ts, st, o, e).
  (* src/parser.c:2612-2723: b is bb, t is true_body_, f is switch_end *)
  Fixpoint read_cases (n : nat) (f : nat) (cnt : option nat) (e : cenv) (ts : toks) (st : pst) (b t : nat) : option (toks * pst * option nat * cenv) :=
    match n with
    | O => None
    | S n =>
        match ts with
        | (T_default, _) :: ts =>
            do ts <- lex_expect T_colon ts;
            do st <- bb_connect b t NEXT st;
            do (ts, st, o, e) <- read_case n f cnt true e ts st t;
            do st <- label lim st;
            if peek T_close_curly ts then Some (ts, st, o, e) else None
        | (T_case, _) :: ts =>
            do (c, ts) <- read_case_value ts;
            do st <- compare_case c b st;
            do ts <- lex_expect T_colon ts;
            do st <- bb_connect b t THEN st;
            do (ts, st, o, e) <- read_case n f cnt false e ts st t;
            do st <- label lim st;
            if peek T_close_curly ts then
              do st <- bb_connect b f ELSE st; Some (ts, st, o, e)
            else
              let '(b', st) := bb_create st in
              do st <- bb_connect b b' ELSE st;
              let '(t', st) := match o with Some t => (t, st) | None => bb_create st end in
              read_cases n f cnt e ts st b' t'
        | _ => Some (ts, st, Some t, e)
        end
    end.
  (* src/parser.c:2592-2611, 2725-2748: after the word switch *)
  Definition read_switch (n : nat) (cnt : option nat) (e : cenv) (ts : toks) (st : pst) (b : nat) : option (toks * pst * option nat * cenv) :=
    let '(k, st) := bb_create st in
    do st <- bb_connect b k NEXT st;
    do ts <- lex_expect T_open_bracket ts;
    do (ts, st, c) <- expr e n ts st k;
    do ts <- lex_expect T_close_bracket ts;
    do st <- label lim st;
    let '(f, st) := bb_create st in
    let '(t, st) := bb_create st in
    do ts <- lex_expect T_open_curly ts;
    do (ts, st, o, e) <- read_cases n f cnt e ts st c t;
    do (_, st) <- opstack_pop st;
    do ts <- lex_expect T_close_curly ts;
    do st <- connect_opt o f st;
    Some (ts, st, if (p_pred st f =? 0)%nat then None else Some f, e).

  (* src/parser.c:3100-3122 read_code_block, of a function *)
  Fixpoint read_items (n : nat) (e : cenv) (ts : toks) (st : pst) (o : option nat) : option (toks * pst * option nat * cenv) :=
    match n with
    | O => None
    | S n =>
        match lex_accept T_close_curly ts with
        | Some ts => Some (ts, st, o, e)
        | None =>
            do b <- o;
            do (ts, st, o, e) <-
              (match lex_accept T_switch ts with Some ts => read_switch n None e ts st b | None => read_stmt n None None e ts st b end);
            read_items n e ts st o
        end
    end.
End Switch.

(* src/parser.c:3126-3160 read_func_body, as in StmtParse.v *)
Definition read_switch_body find_constant find_global find_type find_func special lim (params : list (text * vinfo)) (n : nat) (ts : toks) (nvars : nat) : option (toks * pst * cenv) :=
  let st := mkp nvars 2 (fun _ => []) (fun _ => None) (fun _ => None) (fun _ => None) (fun _ => 0%nat) (fun _ => 0) [] in
  do ts <- lex_expect T_open_curly ts;
  do (ts, st, o, e) <- read_items find_constant find_global find_type find_func special lim 1 n (mkce [[]; params] []) ts st (Some 0%nat);
  do st <- connect_opt o 1 st;
  Some (ts, st, e).
