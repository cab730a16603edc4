(** Specification: C statements (ISO C 6.7, 6.8) over the expressions of ExprSpec.v, their tokens, and what executing them
    means.  Nothing here comes from /repo. *)
From Verif.Front Require Export ExprSpec.
Open Scope Z_scope.

(** the type of a variable: number of stars, number of elements (0: not an array), size of the base type *)
Record vtype := mkt { t_stars : Z; t_array : Z; t_base : Z }.

Inductive lval := LVar (x : text) | LIdx (x : text) (i : rexpr).
Inductive simple :=
| Assign (l : lval) (e : rexpr)                   (* l = e *)
| Update (l : lval) (o : binop) (e : rexpr)       (* l o= e *)
| Post (l : lval) (o : binop)                     (* l++  l-- *)
| Pre (l : lval) (o : binop).                     (* ++l  --l *)
(** a declarator: stars, name, number of elements, initial value.  [d_place]: where the array is put; it is not in the text *)
Record declarator := mkd { d_stars : nat; d_name : text; d_array : option literal; d_init : option rexpr; d_place : Z }.
Inductive forinit := FNone | FSimple (p : simple) | FDecl (t : text) (ds : list declarator).
Inductive stmt :=
| SSkip
| SSimple (p : simple)
| SCall (f : text) (args : list rexpr)
| SDecl (t : text) (ds : list declarator)
| SBlock (q : stmt)                               (* { q }, q a sequence *)
| SNil | SCons (a q : stmt)                       (* sequences *)
| SIf (c : rexpr) (a : stmt)
| SIfElse (c : rexpr) (a b : stmt)
| SWhile (c : rexpr) (a : stmt)
| SDo (a : stmt) (c : rexpr)
| SFor (i : forinit) (c : option rexpr) (p : option simple) (a : stmt)
| SBreak | SContinue
| SReturn (e : option rexpr).

(** ** Text. *)
Definition tok (t : token) : token * text := (t, []).
Definition ident (x : text) : token * text := (T_identifier, x).
Definition asg_token (o : binop) : token :=
  match o with
  | BMul => T_asteriskeq | BDiv => T_divideeq | BMod => T_modeq | BAdd => T_pluseq | BSub => T_minuseq | Shl => T_lshifteq
  | Shr => T_rshifteq | BXor => T_xoreq | BOr => T_oreq | _ => T_andeq
  end.
Definition step_token (o : binop) : token := match o with BAdd => T_increment | _ => T_decrement end.
Definition ltokens (l : lval) : list (token * text) :=
  match l with LVar x => [ident x] | LIdx x i => ident x :: tok T_open_square :: rtokens i ++ [tok T_close_square] end.
Definition ptokens (p : simple) : list (token * text) :=
  match p with
  | Assign l e => ltokens l ++ tok T_assign :: rtokens e
  | Update l o e => ltokens l ++ tok (asg_token o) :: rtokens e
  | Post l o => ltokens l ++ [tok (step_token o)]
  | Pre l o => tok (step_token o) :: ltokens l
  end.
Definition dtokens (d : declarator) : list (token * text) :=
  repeat (tok T_asterisk) (d_stars d) ++ ident (d_name d) ::
  match d_array d with Some n => [tok T_open_square; (T_numeric, literal_text n); tok T_close_square] | None => [] end ++
  match d_init d with Some e => tok T_assign :: rtokens e | None => [] end.
Definition decl_tokens (t : text) (ds : list declarator) : list (token * text) :=
  ident t :: comma_separated (map dtokens ds) ++ [tok T_semicolon].
Fixpoint stokens (s : stmt) : list (token * text) :=
  match s with
  | SSkip => [tok T_semicolon]
  | SSimple p => ptokens p ++ [tok T_semicolon]
  | SCall f args => rtokens (RCall f args) ++ [tok T_semicolon]
  | SDecl t ds => decl_tokens t ds
  | SBlock q => tok T_open_curly :: stokens q ++ [tok T_close_curly]
  | SNil => []
  | SCons a q => stokens a ++ stokens q
  | SIf c a => tok T_if :: tok T_open_bracket :: rtokens c ++ tok T_close_bracket :: stokens a
  | SIfElse c a b => tok T_if :: tok T_open_bracket :: rtokens c ++ tok T_close_bracket :: stokens a ++ tok T_else :: stokens b
  | SWhile c a => tok T_while :: tok T_open_bracket :: rtokens c ++ tok T_close_bracket :: stokens a
  | SDo a c => tok T_do :: stokens a ++ tok T_while :: tok T_open_bracket :: rtokens c ++ [tok T_close_bracket; tok T_semicolon]
  | SFor i c p a =>
      tok T_for :: tok T_open_bracket ::
      match i with FNone => [tok T_semicolon] | FSimple p => ptokens p ++ [tok T_semicolon] | FDecl t ds => decl_tokens t ds end ++
      match c with Some c => rtokens c | None => [] end ++ tok T_semicolon ::
      match p with Some p => ptokens p | None => [] end ++ tok T_close_bracket :: stokens a
  | SBreak => [tok T_break; tok T_semicolon]
  | SContinue => [tok T_continue; tok T_semicolon]
  | SReturn None => [tok T_return; tok T_semicolon]
  | SReturn (Some e) => tok T_return :: rtokens e ++ [tok T_semicolon]
  end.

(** ** Grammar. *)
(** ends with an if that an else could still follow *)
Fixpoint open_if (s : stmt) : bool :=
  match s with
  | SIf _ _ => true
  | SIfElse _ _ b => open_if b
  | SWhile _ a => open_if a
  | SFor _ _ _ a => open_if a
  | _ => false
  end.
Definition lgram (l : lval) : Prop := match l with LVar _ => True | LIdx _ i => rgram 3 i end.
Definition assignable (o : binop) : bool := match o with BMul | BDiv | BMod | BAdd | BSub | Shl | Shr | BAnd | BXor | BOr => true | _ => false end.
Definition pgram (p : simple) : Prop :=
  match p with
  | Assign l e => lgram l /\ rgram 3 e
  | Update l o e => lgram l /\ assignable o = true /\ rgram 3 e
  | Post l o | Pre l o => lgram l /\ (o = BAdd \/ o = BSub)
  end.
Definition dgram (d : declarator) : Prop :=
  match d_array d with Some n => literal_wf n | None => True end /\ match d_init d with Some e => rgram 3 e | None => True end.
(** [sgram true s]: a sequence of statements and declarations; [sgram false s]: a statement *)
Fixpoint sgram (seq : bool) (s : stmt) : Prop :=
  match s with
  | SNil => seq = true
  | SCons a q => seq = true /\ match a with SDecl t ds => ds <> [] /\ Forall dgram ds | _ => sgram false a end /\ sgram true q
  | _ =>
      seq = false /\
      match s with
      | SSkip | SBreak | SContinue | SReturn None => True
      | SSimple p => pgram p
      | SCall f args => rgram 3 (RCall f args)
      | SBlock q => sgram true q
      | SIf c a | SWhile c a | SDo a c => rgram 3 c /\ sgram false a
      | SIfElse c a b => rgram 3 c /\ sgram false a /\ sgram false b /\ open_if a = false
      | SFor i c p a =>
          match i with FNone => True | FSimple p => pgram p | FDecl t ds => ds <> [] /\ Forall dgram ds end /\
          match c with Some c => rgram 3 c | None => True end /\ match p with Some p => pgram p | None => True end /\ sgram false a
      | SReturn (Some e) => rgram 3 e
      | _ => False
      end
  end.

(** ** Variables: the scopes, the innermost first. *)
Section Scopes.
  Context {A : Type}.
  Fixpoint find_in (x : text) (l : list (text * A)) : option A :=
    match l with [] => None | (y, a) :: r => if list_eq_dec Z.eq_dec x y then Some a else find_in x r end.
  Fixpoint find_scopes (x : text) (E : list (list (text * A))) : option A :=
    match E with [] => None | l :: r => match find_in x l with Some a => Some a | None => find_scopes x r end end.
  (** declare a variable in the innermost scope *)
  Definition declare (x : text) (a : A) (E : list (list (text * A))) : list (list (text * A)) :=
    match E with [] => [] | l :: r => (l ++ [(x, a)]) :: r end.
  Fixpoint change_in (x : text) (f : A -> A) (l : list (text * A)) : list (text * A) :=
    match l with [] => [] | (y, a) :: r => if list_eq_dec Z.eq_dec x y then (y, f a) :: r else (y, a) :: change_in x f r end.
  Fixpoint change (x : text) (f : A -> A) (E : list (list (text * A))) : list (list (text * A)) :=
    match E with [] => [] | l :: r => match find_in x l with Some _ => change_in x f l :: r | None => l :: change x f r end end.
End Scopes.
Definition env := list (list (text * (vtype * option Z))).
Definition tenv := list (list (text * vtype)).
Definition types (E : env) : tenv := map (map (fun p => (fst p, fst (snd p)))) E.

(** ** Execution. *)
Inductive outcome := ONormal | OBreak | OContinue | OReturn (r : option Z).
Section Exec.
  Context {world : Type}.
  Variable constant : text -> option Z.                      (* enumeration constants *)
  Variable tsize : text -> option Z.                         (* the types by name, and their sizes *)
  Variable gtype : text -> option vtype.                     (* the global variables *)
  Variable gget : text -> world -> Z.
  Variable gput : text -> Z -> world -> world.
  Variable load : Z -> Z -> world -> option Z.               (* load size address *)
  Variable store : Z -> Z -> Z -> world -> option world.     (* store size address value *)
  Variable calls : text -> list Z -> world -> Z -> world -> Prop.

  Definition type_of (E : tenv) (x : text) : option vtype := match find_scopes x E with Some t => Some t | None => gtype x end.
  (** the size of x[i]: a pointer if x is an array of pointers or a pointer to a pointer *)
  Definition elem_size (t : vtype) : Z := if (t_stars t =? 0) || ((t_stars t =? 1) && (t_array t =? 0)) then t_base t else 4.
  (** what ++ adds to a value of the type *)
  Definition pointer_step (stars base : Z) : Z := if stars =? 0 then 1 else if stars =? 1 then base else 4.
  Definition var_step (t : vtype) : Z := pointer_step (t_stars t) (t_base t).
  Definition elem_step (t : vtype) : Z := pointer_step (if t_array t =? 0 then t_stars t - 1 else t_stars t) (t_base t).
  (** conversion to the type: a char keeps 8 bits *)
  Definition convert (t : vtype) (v : Z) : Z := if (t_stars t =? 0) && (t_base t =? 1) then (v + 128) mod 256 - 128 else v.

  Definition value (E : env) (x : text) (w : world) : option Z :=
    match find_scopes x E with
    | Some (t, v) => v
    | None => match constant x with
              | Some c => Some c
              | None => match gtype x with Some t => Some (gget x w) | None => None end
              end
    end.
  Definition size_of (E : env) (x : text) : Z := match type_of (types E) x with Some t => elem_size t | None => 0 end.
  Definition cexp (E : env) : rexpr -> world -> Z -> world -> Prop := ceval (value E) (size_of E) load calls.
  (** x = v *)
  Definition set_var (E : env) (x : text) (v : Z) (w : world) : env * world :=
    match find_scopes x E with
    | Some _ => (change x (fun p => (fst p, Some (convert (fst p) v))) E, w)
    | None => (E, match gtype x with Some t => gput x (convert t v) w | None => w end)
    end.

  Definition addr (E : env) (x : text) (a k : Z) : Z := wrap (a + k * size_of E x).
  (** the operand of an o= is scaled if the left side is a pointer *)
  Inductive assigns : simple -> env -> world -> env -> world -> Prop :=
  | A_var E x e w v w1 E' w' : cexp E e w v w1 -> set_var E x v w1 = (E', w') -> assigns (Assign (LVar x) e) E w E' w'
  | A_elem E x i e w a k w1 v w2 w' : value E x w = Some a -> cexp E i w k w1 -> cexp E e w1 v w2 ->
      store (size_of E x) (addr E x a k) v w2 = Some w' -> assigns (Assign (LIdx x i) e) E w E w'
  | A_update E x o e w t u v w1 r E' w' : type_of (types E) x = Some t -> value E x w = Some u -> cexp E e w v w1 ->
      cbin o u (wrap (v * var_step t)) = Some r -> set_var E x r w1 = (E', w') -> assigns (Update (LVar x) o e) E w E' w'
  | A_update_elem E x i o e w t a k w1 u v w2 r w' : type_of (types E) x = Some t -> value E x w = Some a -> cexp E i w k w1 ->
      load (size_of E x) (addr E x a k) w1 = Some u -> cexp E e w1 v w2 -> cbin o u (wrap (v * elem_step t)) = Some r ->
      store (size_of E x) (addr E x a k) r w2 = Some w' -> assigns (Update (LIdx x i) o e) E w E w'
  | A_post E x o w t u r E' w' : type_of (types E) x = Some t -> value E x w = Some u ->
      cbin o u (var_step t) = Some r -> set_var E x r w = (E', w') -> assigns (Post (LVar x) o) E w E' w'
  | A_post_elem E x i o w t a k w1 u r w' : type_of (types E) x = Some t -> value E x w = Some a -> cexp E i w k w1 ->
      load (size_of E x) (addr E x a k) w1 = Some u -> cbin o u (elem_step t) = Some r ->
      store (size_of E x) (addr E x a k) r w1 = Some w' -> assigns (Post (LIdx x i) o) E w E w'
  | A_pre E w E' w' l o : assigns (Post l o) E w E' w' -> assigns (Pre l o) E w E' w'.

  Definition decl_type (base : Z) (d : declarator) : vtype :=
    mkt (Z.of_nat (d_stars d)) (match d_array d with Some n => literal_value n | None => 0 end) base.
  (** a variable without initial value has none; it is in scope in its own initial value *)
  Inductive declares (base : Z) : list declarator -> env -> world -> env -> world -> Prop :=
  | D_nil E w : declares base [] E w E w
  | D_plain d ds E w E' w' : d_array d = None -> d_init d = None ->
      declares base ds (declare (d_name d) (decl_type base d, None) E) w E' w' -> declares base (d :: ds) E w E' w'
  | D_init d ds e E w v w1 E' w' : d_array d = None -> d_init d = Some e ->
      cexp (declare (d_name d) (decl_type base d, None) E) e w v w1 ->
      declares base ds (declare (d_name d) (decl_type base d, Some (convert (decl_type base d) v)) E) w1 E' w' ->
      declares base (d :: ds) E w E' w'
  | D_array d ds n E w E' w' : d_array d = Some n -> d_init d = None ->
      declares base ds (declare (d_name d) (decl_type base d, Some (d_place d)) E) w E' w' -> declares base (d :: ds) E w E' w'.

  (** the condition of a for holds *)
  Inductive met : option rexpr -> env -> world -> world -> Prop :=
  | M_none E w : met None E w w
  | M_some c E w v w1 : cexp E c w v w1 -> v <> 0 -> met (Some c) E w w1.
  (** [exec s E w o E' w']: started in the environment E and the world w, s ends as o says, leaving E' and w' *)
  Inductive exec : stmt -> env -> world -> outcome -> env -> world -> Prop :=
  | X_skip E w : exec SSkip E w ONormal E w
  | X_simple p E w E' w' : assigns p E w E' w' -> exec (SSimple p) E w ONormal E' w'
  | X_call f args E w v w' : cexp E (RCall f args) w v w' -> exec (SCall f args) E w ONormal E w'
  | X_decl t n ds E w E' w' : tsize t = Some n -> declares n ds E w E' w' -> exec (SDecl t ds) E w ONormal E' w'
  | X_block q E w o l E' w' : exec q ([] :: E) w o (l :: E') w' -> exec (SBlock q) E w o E' w'
  | X_nil E w : exec SNil E w ONormal E w
  | X_cons a q E w E1 w1 o E' w' : exec a E w ONormal E1 w1 -> exec q E1 w1 o E' w' -> exec (SCons a q) E w o E' w'
  | X_stop a q E w o E' w' : exec a E w o E' w' -> o <> ONormal -> exec (SCons a q) E w o E' w'
  | X_if_true c a E w v w1 o E' w' : cexp E c w v w1 -> v <> 0 -> exec a E w1 o E' w' -> exec (SIf c a) E w o E' w'
  | X_if_false c a E w w1 : cexp E c w 0 w1 -> exec (SIf c a) E w ONormal E w1
  | X_then c a b E w v w1 o E' w' : cexp E c w v w1 -> v <> 0 -> exec a E w1 o E' w' -> exec (SIfElse c a b) E w o E' w'
  | X_else c a b E w w1 o E' w' : cexp E c w 0 w1 -> exec b E w1 o E' w' -> exec (SIfElse c a b) E w o E' w'
  | X_while_end c a E w w1 : cexp E c w 0 w1 -> exec (SWhile c a) E w ONormal E w1
  | X_while_again c a E w v w1 o1 E1 w2 o E' w' : cexp E c w v w1 -> v <> 0 -> exec a E w1 o1 E1 w2 -> o1 = ONormal \/ o1 = OContinue ->
      exec (SWhile c a) E1 w2 o E' w' -> exec (SWhile c a) E w o E' w'
  | X_while_break c a E w v w1 E1 w2 : cexp E c w v w1 -> v <> 0 -> exec a E w1 OBreak E1 w2 -> exec (SWhile c a) E w ONormal E1 w2
  | X_while_return c a E w v w1 r E1 w2 : cexp E c w v w1 -> v <> 0 -> exec a E w1 (OReturn r) E1 w2 -> exec (SWhile c a) E w (OReturn r) E1 w2
  | X_do_end a c E w o1 E1 w1 w' : exec a E w o1 E1 w1 -> o1 = ONormal \/ o1 = OContinue -> cexp E1 c w1 0 w' -> exec (SDo a c) E w ONormal E1 w'
  | X_do_again a c E w o1 E1 w1 v w2 o E' w' : exec a E w o1 E1 w1 -> o1 = ONormal \/ o1 = OContinue -> cexp E1 c w1 v w2 -> v <> 0 ->
      exec (SDo a c) E1 w2 o E' w' -> exec (SDo a c) E w o E' w'
  | X_do_break a c E w E1 w1 : exec a E w OBreak E1 w1 -> exec (SDo a c) E w ONormal E1 w1
  | X_do_return a c E w r E1 w1 : exec a E w (OReturn r) E1 w1 -> exec (SDo a c) E w (OReturn r) E1 w1
  | X_for i c p a E w E1 w1 o l E' w' :
      match i with
      | FNone => E1 = [] :: E /\ w1 = w
      | FSimple p => assigns p ([] :: E) w E1 w1
      | FDecl t ds => exists n, tsize t = Some n /\ declares n ds ([] :: E) w E1 w1
      end -> loops c p a E1 w1 o (l :: E') w' -> exec (SFor i c p a) E w o E' w'
  | X_break E w : exec SBreak E w OBreak E w
  | X_continue E w : exec SContinue E w OContinue E w
  | X_return E w : exec (SReturn None) E w (OReturn None) E w
  | X_return_value e E w v w' : cexp E e w v w' -> exec (SReturn (Some e)) E w (OReturn (Some v)) E w'
  (** the loop of a for, after its first part *)
  with loops : option rexpr -> option simple -> stmt -> env -> world -> outcome -> env -> world -> Prop :=
  | X_for_end c p a E w w1 : cexp E c w 0 w1 -> loops (Some c) p a E w ONormal E w1
  | X_for_again c p a E w w1 o1 E1 w2 E2 w3 o E' w' : met c E w w1 -> exec a E w1 o1 E1 w2 -> o1 = ONormal \/ o1 = OContinue ->
      match p with Some p => assigns p E1 w2 E2 w3 | None => E2 = E1 /\ w3 = w2 end ->
      loops c p a E2 w3 o E' w' -> loops c p a E w o E' w'
  | X_for_break c p a E w w1 E1 w2 : met c E w w1 -> exec a E w1 OBreak E1 w2 -> loops c p a E w ONormal E1 w2
  | X_for_return c p a E w w1 r E1 w2 : met c E w w1 -> exec a E w1 (OReturn r) E1 w2 -> loops c p a E w (OReturn r) E1 w2.
End Exec.

(** ** Which statements the theorem is about. *)
(** where the arrays a statement declares are put, in the order of the text *)
Definition array_places (ds : list declarator) : list Z := flat_map (fun d => match d_array d with Some _ => [d_place d] | None => [] end) ds.
Fixpoint places (s : stmt) : list Z :=
  match s with
  | SDecl _ ds => array_places ds
  | SBlock q => places q
  | SCons a q => places a ++ places q
  | SIf _ a | SWhile _ a | SDo a _ => places a
  | SIfElse _ a b => places a ++ places b
  | SFor i _ _ a => match i with FDecl _ ds => array_places ds | _ => [] end ++ places a
  | _ => []
  end.

Section Fine.
  Variable constant : text -> bool.                          (* an enumeration constant *)
  Variable tsize : text -> option Z.
  Variable gtype : text -> option vtype.
  Variable func : text -> bool.                              (* the name of a function *)
  Variable special : text -> bool.                           (* a macro *)

  Definition pointer (T : tenv) (x : text) : bool :=
    match type_of gtype T x with Some t => negb (t_stars t =? 0) || negb (t_array t =? 0) | None => false end.
  Definition variable (T : tenv) (x : text) : bool := match type_of gtype T x with Some _ => true | None => false end.
  Definition global (T : tenv) (x : text) : bool := match find_scopes x T with Some _ => false | None => match gtype x with Some _ => true | None => false end end.
  Definition fine_expr (T : tenv) (e : rexpr) : bool :=
    fine constant (pointer T) (variable T) special e && settled constant (global T) e.
  Definition no_cond (e : rexpr) : bool := match e with RCond _ _ _ => false | _ => true end.
  (** the name of a statement's left side: of a variable, and of nothing else *)
  Definition target (T : tenv) (x : text) : bool :=
    negb (constant x) && negb (special x) && negb (func x) && match tsize x with Some _ => false | None => true end && variable T x.
  (** 32 bits wide, not an array *)
  Definition wide (t : vtype) : bool := (t_array t =? 0) && (negb (t_stars t =? 0) || (t_base t =? 4)).
  Definition check (T : tenv) (x : text) (p : vtype -> bool) : bool := match type_of gtype T x with Some t => p t | None => false end.
  (** assignments: to int and pointer variables and to elements; a condition in an o= or a subscript is in parentheses;
      ++ and o= not on a char** and the like, nor on p[i] where p is a pointer to something longer than a char *)
  Definition fine_lval (T : tenv) (l : lval) : bool :=
    match l with
    | LVar x => target T x && check T x wide
    | LIdx x i => target T x && no_cond i && fine_expr T (RIdx x i)
    end.
  Definition fine_step (T : tenv) (l : lval) : bool :=
    match l with
    | LVar x => check T x (fun t => var_step t =? if t_stars t =? 0 then 1 else t_base t)
    | LIdx x i => check T x (fun t => elem_step t =? if t_stars t =? 0 then 1 else t_base t)
    end.
  (** the left side of an o= is not a global variable that a call on the right side could change *)
  Definition fine_mix (T : tenv) (l : lval) (e : rexpr) : bool :=
    match l with LVar x => negb (global T x) || no_calls e | LIdx _ _ => true end.
  Definition fine_simple (T : tenv) (p : simple) : bool :=
    match p with
    | Assign l e => fine_lval T l && fine_expr T e
    | Update l o e => fine_lval T l && fine_step T l && fine_mix T l e && no_cond e && fine_expr T e
    | Post l o | Pre l o => fine_lval T l && fine_step T l
    end.
  Definition flat_simple (p : simple) : bool :=
    match p with
    | Assign l e | Update l _ e => match l with LVar _ => true | LIdx _ i => flat i end && flat e
    | Post l _ | Pre l _ => match l with LVar _ => true | LIdx _ i => flat i end
    end.
  (** declarations: of int and pointer variables and of arrays, with names that are not those of enumeration constants; only the first initial value may be a conditional *)
  Fixpoint fine_decls (base : Z) (first : bool) (ds : list declarator) (T : tenv) : option tenv :=
    match ds with
    | [] => Some T
    | d :: ds =>
        let t := decl_type base d in
        let T := declare (d_name d) t T in
        if negb (constant (d_name d)) &&
           match d_array d, d_init d with
           | None, None => true
           | None, Some e => wide t && (first || no_cond e) && fine_expr T e
           | Some n, None => (0 <? t_array t) && (t_array t <? 2 ^ 31)
           | Some _, Some _ => false
           end
        then fine_decls base false ds T else None
    end.
  (** may end normally *)
  Fixpoint falls (s : stmt) : bool :=
    match s with
    | SBlock q => falls q
    | SCons a q => match q with SNil => falls a | _ => falls q end
    | SIfElse _ a b => falls a || falls b
    | SBreak | SContinue | SReturn _ => false
    | _ => true
    end.
  (** has a continue of its own *)
  Fixpoint continues (s : stmt) : bool :=
    match s with
    | SBlock q => continues q
    | SCons a q => continues a || continues q
    | SIf _ a => continues a
    | SIfElse _ a b => continues a || continues b
    | SContinue => true
    | _ => false
    end.
  (** the statements that are translated as they should be, and the variables they leave declared.
      Conditions of if, while, do and for are not themselves conditional expressions; the increment of a for contains no && || ?:,
      and if there is none, the loop may continue normally or has no continue *)
  Fixpoint fine_stmt (s : stmt) (T : tenv) : option tenv :=
    let sub a := match fine_stmt a T with Some _ => true | None => false end in
    match s with
    | SSkip | SNil | SBreak | SContinue | SReturn None => Some T
    | SSimple p => if fine_simple T p then Some T else None
    | SCall f args => if fine_expr T (RCall f args) && match tsize f with Some _ => false | None => true end then Some T else None
    | SDecl t ds => match tsize t with Some n => fine_decls n true ds T | None => None end
    | SBlock q => match fine_stmt q ([] :: T) with Some _ => Some T | None => None end
    | SCons a q => match fine_stmt a T with Some T => fine_stmt q T | None => None end
    | SIf c a | SWhile c a | SDo a c => if no_cond c && fine_expr T c && sub a then Some T else None
    | SIfElse c a b => if no_cond c && fine_expr T c && sub a && sub b then Some T else None
    | SFor i c p a =>
        match match i with
              | FNone => Some ([] :: T)
              | FSimple p => if fine_simple ([] :: T) p then Some ([] :: T) else None
              | FDecl t ds => match tsize t with Some n => fine_decls n true ds ([] :: T) | None => None end
              end with
        | Some T' =>
            if match c with Some c => no_cond c && fine_expr T' c | None => true end &&
               match p with Some p => fine_simple T' p && flat_simple p | None => falls a || negb (continues a) end &&
               match fine_stmt a T' with Some _ => true | None => false end
            then Some T else None
        | None => None
        end
    | SReturn (Some e) => if fine_expr T e then Some T else None
    end.
End Fine.
