(** Specification: the switch statement (ISO C 6.8.4.2) over the statements of StmtSpec.v, and bodies of functions that contain
    switch statements.  Nothing here comes from /repo. *)
From Verif.Front Require Export StmtSpec.
Open Scope Z_scope.

(** case 12:   case 'a':   case NAME:   default: *)
Inductive slabel := LCase (l : literal) | LChar (c : Z) | LName (x : text) | LDefault.
(** the labels of a switch, each with the statements that follow it *)
Definition scases := list (slabel * list stmt).
Definition sequence (l : list stmt) : stmt := fold_right SCons SNil l.

(** ** Text. *)
Definition label_tokens (l : slabel) : list (token * text) :=
  match l with
  | LCase n => [tok T_case; (T_numeric, literal_text n)]
  | LChar c => [tok T_case; (T_char, [c])]
  | LName x => [tok T_case; ident x]
  | LDefault => [tok T_default]
  end.
Fixpoint case_tokens (cs : scases) : list (token * text) :=
  match cs with [] => [] | (l, q) :: r => label_tokens l ++ tok T_colon :: stokens (sequence q) ++ case_tokens r end.
Definition switch_tokens (c : rexpr) (cs : scases) : list (token * text) :=
  tok T_switch :: tok T_open_bracket :: rtokens c ++ tok T_close_bracket :: tok T_open_curly :: case_tokens cs ++ [tok T_close_curly].

(** ** Meaning. *)
Section Exec.
  Variable constant : text -> option Z.                      (* enumeration constants *)
  (** the value of a case label *)
  Definition label_value (l : slabel) : option Z :=
    match l with LCase n => Some (wrap (literal_value n)) | LChar c => Some c | LName x => constant x | LDefault => None end.
  Fixpoint from_label (p : slabel -> bool) (cs : scases) : option scases :=
    match cs with [] => None | (l, q) :: r => if p l then Some cs else from_label p r end.
  (** where a switch goes on for the value v: at the case label with that value, else at default, else behind the switch *)
  Definition selected (v : Z) (cs : scases) : scases :=
    match from_label (fun l => match label_value l with Some c => v =? c | None => false end) cs with
    | Some r => r
    | None => match from_label (fun l => match l with LDefault => true | _ => false end) cs with Some r => r | None => [] end
    end.

  Context {world : Type}.
  Variable tsize : text -> option Z.
  Variable gtype : text -> option vtype.
  Variable gget : text -> world -> Z.
  Variable gput : text -> Z -> world -> world.
  Variable load : Z -> Z -> world -> option Z.
  Variable store : Z -> Z -> Z -> world -> option world.
  Variable calls : text -> list Z -> world -> Z -> world -> Prop.
  Notation exec := (exec constant tsize gtype gget gput load store calls).
  (** from the selected label on, all statements are executed, through the labels between them; a break ends the switch *)
  Inductive switches (c : rexpr) (cs : scases) : env -> world -> outcome -> env -> world -> Prop :=
  | X_switch E w v w1 o E' w' : cexp constant gtype gget load calls E c w v w1 ->
      exec (sequence (flat_map snd (selected v cs))) E w1 o E' w' ->
      switches c cs E w (match o with OBreak => ONormal | o => o end) E' w'.

  (** what the body of a function consists of *)
  Inductive item := IStmt (s : stmt) | ISwitch (c : rexpr) (cs : scases).
  Definition item_exec (i : item) : env -> world -> outcome -> env -> world -> Prop := match i with IStmt s => exec s | ISwitch c cs => switches c cs end.
  Inductive items_exec : list item -> env -> world -> outcome -> env -> world -> Prop :=
  | I_nil E w : items_exec [] E w ONormal E w
  | I_cons i r E w E1 w1 o E' w' : item_exec i E w ONormal E1 w1 -> items_exec r E1 w1 o E' w' -> items_exec (i :: r) E w o E' w'
  | I_stop i r E w o E' w' : item_exec i E w o E' w' -> o <> ONormal -> items_exec (i :: r) E w o E' w'.
End Exec.
Definition item_tokens (i : item) : list (token * text) := match i with IStmt s => stokens s | ISwitch c cs => switch_tokens c cs end.

(** ** Grammar. *)
Definition label_gram (l : slabel) : Prop := match l with LCase n => literal_wf n | _ => True end.
Definition case_gram (p : slabel * list stmt) : Prop := label_gram (fst p) /\ Forall (sgram false) (snd p).
Definition item_gram (i : item) : Prop :=
  match i with
  | IStmt (SDecl t ds) => ds <> [] /\ Forall dgram ds
  | IStmt s => sgram false s
  | ISwitch c cs => rgram 3 c /\ cs <> [] /\ Forall case_gram cs
  end.
Definition item_places (i : item) : list Z := match i with IStmt s => places s | ISwitch c cs => places (sequence (flat_map snd cs)) end.

(** ** Which switch statements the theorem is about. *)
(** default, if there is one, is the last label *)
Fixpoint default_last (cs : scases) : bool :=
  match cs with [] => true | [_] => true | (LDefault, _) :: _ => false | _ :: r => default_last r end.
Section Fine.
  Variable constant : text -> bool.
  Variable tsize : text -> option Z.
  Variable gtype : text -> option vtype.
  Variable func : text -> bool.
  Variable special : text -> bool.
  Notation fine_stmt := (fine_stmt constant tsize gtype func special).
  (** default comes last; the value switched on is not a conditional expression (unless in parentheses); no declarations
      directly below a label *)
  Definition fine_switch (c : rexpr) (cs : scases) (T : tenv) : bool :=
    no_cond c && fine_expr constant gtype special T c && default_last cs &&
    forallb (fun p => forallb (fun s => match fine_stmt s T with Some _ => true | None => false end) (snd p)) cs.
  Fixpoint fine_items (l : list item) (T : tenv) : option tenv :=
    match l with
    | [] => Some T
    | IStmt s :: r => match fine_stmt s T with Some T => fine_items r T | None => None end
    | ISwitch c cs :: r => if fine_switch c cs T then fine_items r T else None
    end.
End Fine.
