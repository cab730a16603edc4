(** Model of the name tables of src/globals.c: #define aliases, macros, constants,
    labels and variable lookup.  Strings are compared by value (strcmp); the fixed
    sizes of the tables and of the char arrays in them are not modelled. *)
From Verif.Base Require Import Int32.
From Verif.Data Require Import Hashmap.

(* src/defs.h:322-326 alias_t *)
Record alias := mkalias { al_name : str; al_value : str; al_disabled : bool }.

(* src/globals.c:489-495 add_alias *)
Definition add_alias (t : list alias) (name value : str) : list alias :=
  t ++ [mkalias name value false].
(* src/globals.c:497-504 find_alias *)
Fixpoint find_alias (t : list alias) (name : str) : option str :=
  match t with
  | [] => None
  | a :: r => if negb (al_disabled a) && streqb name (al_name a) then Some (al_value a) else find_alias r name
  end.
(* src/globals.c:506-515 remove_alias *)
Fixpoint remove_alias (t : list alias) (name : str) : list alias * bool :=
  match t with
  | [] => ([], false)
  | a :: r => if negb (al_disabled a) && streqb name (al_name a)
              then (mkalias (al_name a) (al_value a) true :: r, true)
              else let (r', b) := remove_alias r name in (a :: r', b)
  end.

(* src/globals.c:517-543 add_macro, find_macro, remove_macro: the same over macro_t;
   [M] stands for the rest of the macro record *)
Section Macro.
  Variable M : Type.
  Record macro := mkmacro { ma_name : str; ma_body : M; ma_disabled : bool }.
  Definition add_macro (t : list macro) (name : str) (m : M) : list macro := t ++ [mkmacro name m false].
  Fixpoint find_macro (t : list macro) (name : str) : option M :=
    match t with
    | [] => None
    | a :: r => if negb (ma_disabled a) && streqb name (ma_name a) then Some (ma_body a) else find_macro r name
    end.
  Fixpoint remove_macro (t : list macro) (name : str) : list macro * bool :=
    match t with
    | [] => ([], false)
    | a :: r => if negb (ma_disabled a) && streqb name (ma_name a)
                then (mkmacro (ma_name a) (ma_body a) true :: r, true)
                else let (r', b) := remove_macro r name in (a :: r', b)
    end.
End Macro.
Arguments add_macro {M}. Arguments find_macro {M}. Arguments remove_macro {M}.
Arguments mkmacro {M}. Arguments ma_name {M}. Arguments ma_body {M}. Arguments ma_disabled {M}.

(** Variables.  A block is the list of the names of its locals declared so far
    (locals[0..next_local)); a scope is the chain of blocks, innermost first. *)
Inductive var_ref := Local (depth idx : nat) | Param (idx : nat) | Global (idx : nat).

Fixpoint index_of (l : list str) (name : str) : option nat :=
  match l with
  | [] => None
  | x :: r => if streqb x name then Some O else option_map S (index_of r name)
  end.

(* src/globals.c:633-651 find_local_var; [params] is None when the block belongs to no
   function *)
Fixpoint find_in_blocks (depth : nat) (chain : list (list str)) (token : str) : option var_ref :=
  match chain with
  | [] => None
  | b :: r => match index_of b token with
              | Some i => Some (Local depth i)
              | None => find_in_blocks (S depth) r token
              end
  end.
Definition find_local_var (chain : list (list str)) (params : option (list str)) (token : str) : option var_ref :=
  match find_in_blocks 0 chain token with
  | Some v => Some v
  | None => match params with
            | Some ps => option_map Param (index_of ps token)
            | None => None
            end
  end.
(* src/globals.c:653-662 find_global_var: the locals of BLOCKS.head *)
Definition find_global_var (globals : list str) (token : str) : option var_ref :=
  option_map Global (index_of globals token).
(* src/globals.c:664-670 find_var *)
Definition find_var (chain : list (list str)) (params : option (list str)) (globals : list str) (token : str)
  : option var_ref :=
  match find_local_var chain params token with
  | Some v => Some v
  | None => find_global_var globals token
  end.
