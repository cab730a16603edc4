(** Specification: C expressions with variables, subscripts and calls (ISO C 6.5), the tree the grammar gives to a token
    sequence, and what evaluating one means.  The operators, their levels and values are those of CExpr.v.  Nothing here comes
    from /repo. *)
From Verif.Front Require Export CExpr.
Open Scope Z_scope.

Inductive rexpr :=
| RLit (l : literal)
| RChr (c : Z)
| RVar (x : text)
| RIdx (x : text) (i : rexpr)                    (* x[i] *)
| RUn (u : unop) (e : rexpr)
| RBin (o : binop) (a b : rexpr)
| RCond (c a b : rexpr)                          (* c ? a : b *)
| RPar (e : rexpr)
| RCall (f : text) (args : list rexpr).

(** [rgram n e]: e is an expression of precedence level n or tighter, its tree the one the C grammar gives *)
Fixpoint rgram (n : Z) (e : rexpr) : Prop :=
  match e with
  | RLit l => literal_wf l
  | RChr c => True
  | RVar x => True
  | RIdx x i => rgram 3 i
  | RUn u e => n <= 14 /\ rgram 14 e
  | RBin o a b => n <= level o /\ rgram (level o) a /\ rgram (level o + 1) b
  | RCond c a b => n <= 3 /\ rgram 4 c /\ rgram 3 a /\ rgram 3 b
  | RPar e => rgram 3 e
  | RCall f args => fold_right (fun e P => rgram 3 e /\ P) True args
  end.

(** the token sequence; the text of punctuation is immaterial *)
Definition comma_separated (l : list (list (token * text))) : list (token * text) :=
  match l with
  | [] => []
  | t :: r => t ++ flat_map (fun t => (T_comma, []) :: t) r
  end.
Fixpoint rtokens (e : rexpr) : list (token * text) :=
  match e with
  | RLit l => [(T_numeric, literal_text l)]
  | RChr c => [(T_char, [c])]
  | RVar x => [(T_identifier, x)]
  | RIdx x i => (T_identifier, x) :: (T_open_square, []) :: rtokens i ++ [(T_close_square, [])]
  | RUn u e => (un_token u, []) :: rtokens e
  | RBin o a b => rtokens a ++ (op_token o, []) :: rtokens b
  | RCond c a b => rtokens c ++ (T_question, []) :: rtokens a ++ (T_colon, []) :: rtokens b
  | RPar e => (T_open_bracket, []) :: rtokens e ++ [(T_close_bracket, [])]
  | RCall f args => (T_identifier, f) :: (T_open_bracket, []) :: comma_separated (map rtokens args) ++ [(T_close_bracket, [])]
  end.

(** ** Evaluation.  [world]: memory, globals, input and output. *)
Section Eval.
  Context {world : Type}.
  Variable rho : text -> world -> option Z.        (* the value of a variable or enumeration constant, the address of an array *)
  Variable esize : text -> Z.                      (* size of the elements of an array, or of what a pointer points to *)
  Variable load : Z -> Z -> world -> option Z.     (* load size address *)
  Variable calls : text -> list Z -> world -> Z -> world -> Prop.  (* calls f arguments before result after *)

  (** [ceval e w v w']: evaluated in the world w, e has the value v and leaves w'.  Operands are evaluated from left to right
      (C leaves the order open); && || ?: evaluate only what they need. *)
  Inductive ceval : rexpr -> world -> Z -> world -> Prop :=
  | E_lit l w : ceval (RLit l) w (wrap (literal_value l)) w
  | E_chr c w : ceval (RChr c) w c w
  | E_var x w v : rho x w = Some v -> ceval (RVar x) w v w
  | E_idx x i w a k w' v : rho x w = Some a -> ceval i w k w' -> load (esize x) (wrap (a + k * esize x)) w' = Some v ->
      ceval (RIdx x i) w v w'
  | E_un u e w v w' : ceval e w v w' -> ceval (RUn u e) w (cun u v) w'
  | E_and_false a b w w' : ceval a w 0 w' -> ceval (RBin LAnd a b) w 0 w'
  | E_and_true a b w v w' u w'' : ceval a w v w' -> v <> 0 -> ceval b w' u w'' -> ceval (RBin LAnd a b) w (b2z (negb (u =? 0))) w''
  | E_or_true a b w v w' : ceval a w v w' -> v <> 0 -> ceval (RBin LOr a b) w 1 w'
  | E_or_false a b w w' u w'' : ceval a w 0 w' -> ceval b w' u w'' -> ceval (RBin LOr a b) w (b2z (negb (u =? 0))) w''
  | E_bin o a b w x w' y w'' v : o <> LAnd -> o <> LOr -> ceval a w x w' -> ceval b w' y w'' -> cbin o x y = Some v ->
      ceval (RBin o a b) w v w''
  | E_cond_true c a b w v w' u w'' : ceval c w v w' -> v <> 0 -> ceval a w' u w'' -> ceval (RCond c a b) w u w''
  | E_cond_false c a b w w' u w'' : ceval c w 0 w' -> ceval b w' u w'' -> ceval (RCond c a b) w u w''
  | E_par e w v w' : ceval e w v w' -> ceval (RPar e) w v w'
  | E_call f args w vs w' v w'' : cevals args w vs w' -> calls f vs w' v w'' -> ceval (RCall f args) w v w''
  with cevals : list rexpr -> world -> list Z -> world -> Prop :=
  | E_nil w : cevals [] w [] w
  | E_cons e l w v w' vs w'' : ceval e w v w' -> cevals l w' vs w'' -> cevals (e :: l) w (v :: vs) w''.
End Eval.

(** ** Which expressions the theorem is about. *)
Section Fine.
  Variable constant : text -> bool.                (* an enumeration constant *)
  Variable pointer : text -> bool.                 (* a pointer or array variable *)
  Variable global : text -> bool.                  (* a global variable *)
  Variable variable : text -> bool.                (* a variable *)
  Variable special : text -> bool.                 (* a function-like macro or the like *)

  (** no && || ?: anywhere inside *)
  Fixpoint flat (e : rexpr) : bool :=
    match e with
    | RLit _ | RChr _ | RVar _ => true
    | RIdx _ i => flat i
    | RUn _ e => flat e
    | RBin o a b => match o with LAnd | LOr => false | _ => true end && flat a && flat b
    | RCond _ _ _ => false
    | RPar e => flat e
    | RCall _ args => forallb flat args
    end.
  (** the last token is a pointer or array variable, or the subscript of one *)
  Fixpoint ends_pointer (e : rexpr) : bool :=
    match e with
    | RVar x => negb (constant x) && pointer x
    | RIdx _ _ => true
    | RUn _ e => ends_pointer e
    | RBin _ _ b => ends_pointer b
    | RCond _ _ b => ends_pointer b
    | _ => false
    end.
  Fixpoint no_calls (e : rexpr) : bool :=
    match e with
    | RLit _ | RChr _ | RVar _ => true
    | RIdx _ i => no_calls i
    | RUn _ e => no_calls e
    | RBin _ a b => no_calls a && no_calls b
    | RCond c a b => no_calls c && no_calls a && no_calls b
    | RPar e => no_calls e
    | RCall _ _ => false
    end.
  Fixpoint no_globals (e : rexpr) : bool :=
    match e with
    | RLit _ | RChr _ => true
    | RVar x => constant x || negb (global x)
    | RIdx x i => negb (global x) && no_globals i
    | RUn _ e => no_globals e
    | RBin _ a b => no_globals a && no_globals b
    | RCond c a b => no_globals c && no_globals a && no_globals b
    | RPar e => no_globals e
    | RCall _ args => forallb no_globals args
    end.
  (** the forms that are read as C reads them:
      no shifts; no minus before a parenthesis; what comes before + does not end with a pointer or a subscript; the arms of ?:
      contain no && || ?:; a subscript is not itself a conditional; names mean what they should *)
  Fixpoint fine (e : rexpr) : bool :=
    match e with
    | RLit _ | RChr _ => true
    | RVar x => negb (special x) && (constant x || variable x)
    | RIdx x i => negb (special x) && negb (constant x) && match i with RCond _ _ _ => false | _ => fine i end
    | RUn u e => match u, e with UNeg, RPar _ => false | _, _ => fine e end
    | RBin o a b => match o with Shl | Shr => false | BAdd => negb (ends_pointer a) | _ => true end && fine a && fine b
    | RCond c a b => fine c && flat a && flat b && fine a && fine b
    | RPar e => fine e
    | RCall f args => negb (special f) && negb (constant f) && negb (variable f) && forallb fine args
    end.
  (** the order of evaluation does not matter: no calls, or no global variables *)
  Definition settled (e : rexpr) : bool := no_calls e || no_globals e.
End Fine.
