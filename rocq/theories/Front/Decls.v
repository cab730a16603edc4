(** Model of type declarations: structures, enumerations and typedefs (src/parser.c, src/globals.c). *)
From Coq Require Import String.
From Verif.Base Require Import Int32.
From Verif.Front Require Import Lexer LexSpec Numeric Parse.
Open Scope Z_scope.

(* src/defs.h:82-88 base_type_t *)
Inductive base_type := TYPE_void | TYPE_int | TYPE_char | TYPE_struct | TYPE_typedef.
(* src/defs.h:273-299 var_t, the parts a structure member uses *)
Record fld := mkfld { f_type : text; f_name : text; f_ptr : Z; f_func : bool; f_array : Z; f_offset : Z }.
(* src/defs.h:301-309 type_t; base_struct is an index into TYPES; fields[] is a function of the index *)
Record ty := mkty { t_name : text; t_base : base_type; t_link : option nat; t_size : Z; t_field : nat -> fld; t_num : nat }.
(* src/defs.h:328-332 constant_t *)
Record decls := mkdecls { types : list ty; consts : list (text * Z) }.

Definition MAX_FIELDS : nat := 64. (* src/defs.h:21 *)
Definition MAX_TYPES : nat := 64.  (* src/defs.h:23 *)
Definition MAX_CONSTANTS : nat := 1024.
Definition MAX_TYPE_LEN : Z := 32.
Definition MAX_VAR_LEN : Z := 32.
Definition MAX_ID_LEN : Z := 64.

(* strcpy into an array of [limit] characters; [None] = it overruns *)
Definition strcpy (limit : Z) (s : text) : option text := if Z.of_nat (List.length s) <? limit then Some s else None.
(* src/lexer.c:681-697 lex_ident, with the size of the array the caller passes *)
Definition lex_ident (t : token) (limit : Z) (ts : toks) : option (text * toks) :=
  match ts with
  | (t', w) :: r => if token_eqb t' t then match strcpy limit w with Some w => Some (w, r) | None => None end else None
  | [] => None
  end.

(* src/globals.c:396-416 find_type: the index of the type found *)
Fixpoint find_type_from (i : nat) (l : list ty) (name : text) (flag : Z) : option nat :=
  match l with
  | [] => None
  | t :: r =>
      match t_base t with
      | TYPE_struct => if flag =? 1 then find_type_from (S i) r name flag
                       else if text_eqb (t_name t) name then Some i else find_type_from (S i) r name flag
      | b => if flag =? 2 then find_type_from (S i) r name flag
             else if text_eqb (t_name t) name then
               match b with TYPE_typedef => if t_size t =? 0 then t_link t else Some i | _ => Some i end
             else find_type_from (S i) r name flag
      end
  end.
Definition find_type (l : list ty) (name : text) (flag : Z) : option nat := find_type_from 0 l name flag.

(* src/globals.c:672-690 size_var; [None] = error("Incomplete type") or a null pointer dereference *)
Definition size_var (l : list ty) (v : fld) : option Z :=
  let base := if (0 <? f_ptr v) || f_func v then Some 4
              else match find_type l (f_type v) 0 with
                   | None => None
                   | Some i => match nth_error l i with
                               | None => None
                               | Some t => if t_size t =? 0 then
                                             match t_link t with Some j => option_map t_size (nth_error l j) | None => None end
                                           else Some (t_size t)
                               end
                   end in
  match base with Some size => Some (if 0 <? f_array v then imul size (f_array v) else size) | None => None end.

(* src/globals.c:583-586 add_type; [fresh] is what the memory of TYPES[] holds (it comes from malloc) *)
Definition add_type (fresh : ty) (l : list ty) : option (nat * list ty) :=
  if Nat.ltb (List.length l) MAX_TYPES then Some (List.length l, l ++ [fresh]) else None.
Fixpoint set_type (l : list ty) (i : nat) (t : ty) : list ty :=
  match l, i with
  | [], _ => []
  | _ :: r, O => t :: r
  | x :: r, S i => x :: set_type r i t
  end.

(* src/parser.c:527-528 the stars *)
Fixpoint stars (n : Z) (ts : toks) : Z * toks :=
  match ts with (T_asterisk, _) :: r => stars (n + 1) r | _ => (n, ts) end.

(* src/parser.c:575-580, 522-572, 589-606: read_full_var_decl(vd, anon, is_param = 1) and read_parameter_list_decl.
   [old] is what *vd holds before.  The parameters of a function pointer go to a local func_t and are forgotten; that array
   has MAX_PARAMS entries.  The code appended to the IR by an ordinary variable (is_param = 0) is not part of this model. *)
Fixpoint read_full_var_decl (fuel : nat) (anon : bool) (old : fld) (ts : toks) : option (fld * toks) :=
  match fuel with
  | O => None
  | S fuel =>
    let ts := match lex_accept T_struct ts with Some r => r | None => ts end in
    match lex_ident T_identifier MAX_TYPE_LEN ts with
    | None => None
    | Some (tname, ts) =>
      let '(ptr, ts) := stars 0 ts in
      match lex_accept T_open_bracket ts with
      | Some ts =>
        match lex_expect T_asterisk ts with
        | None => None
        | Some ts =>
          match lex_ident T_identifier MAX_VAR_LEN ts with
          | None => None
          | Some (name, ts) =>
            match lex_expect T_close_bracket ts with
            | None => None
            | Some ts =>
              match read_parameter_list_decl fuel ts with
              | None => None
              | Some ts => Some (mkfld tname name ptr true (f_array old) (f_offset old), ts)
              end
            end
          end
        end
      | None =>
        match (if anon then Some (f_name old, ts) else lex_ident T_identifier MAX_VAR_LEN ts) with
        | None => None
        | Some (name, ts) =>
          match lex_accept T_open_square ts with
          | Some ts =>
            match lex_peek T_numeric ts with
            | Some w =>
              match strcpy 10 w, lex_expect T_close_square (tl ts) with
              | Some w, Some ts => Some (mkfld tname name ptr false (read_numeric_constant w) (f_offset old), ts)
              | _, _ => None
              end
            | None =>
              match lex_expect T_close_square ts with
              | Some ts => Some (mkfld tname name (ptr + 1) false (f_array old) (f_offset old), ts)
              | None => None
              end
            end
          | None => Some (mkfld tname name ptr false 0 (f_offset old), ts)
          end
        end
      end
    end
  end
with read_parameter_list_decl (fuel : nat) (ts : toks) : option toks :=
  match fuel with
  | O => None
  | S fuel =>
    match lex_expect T_open_bracket ts with
    | None => None
    | Some ts =>
      match read_parameters fuel 0 ts with
      | None => None
      | Some ts =>
        let ts := match lex_accept T_elipsis ts with Some r => r | None => ts end in
        lex_expect T_close_bracket ts
      end
    end
  end
with read_parameters (fuel : nat) (vn : Z) (ts : toks) : option toks :=
  match fuel with
  | O => None
  | S fuel =>
    match lex_peek T_identifier ts with
    | None => Some ts
    | Some _ =>
      if vn <? 8 then
        match read_full_var_decl fuel true (mkfld [] [] 0 false 0 0) ts with
        | None => None
        | Some (_, ts) => read_parameters fuel (vn + 1) (match lex_accept T_comma ts with Some r => r | None => ts end)
        end
      else None
    end
  end.

(* src/parser.c:3234-3240 and 3287-3293: the do-while loop over the members; [l] is TYPES during the loop, [slots] the fields[]
   of the type being defined.  Result: the fields, their number, the accumulated size. *)
Definition upd (f : nat -> fld) (i : nat) (v : fld) : nat -> fld := fun j => if Nat.eqb j i then v else f j.
Fixpoint read_members (fuel : nat) (l : list ty) (slots : nat -> fld) (i : nat) (size : Z) (ts : toks) : option ((nat -> fld) * nat * Z * toks) :=
  match fuel with
  | O => None
  | S n =>
    if Nat.ltb i MAX_FIELDS then
      match read_full_var_decl fuel false (slots i) ts with
      | None => None
      | Some (v, ts) =>
        let v := mkfld (f_type v) (f_name v) (f_ptr v) (f_func v) (f_array v) size in
        match size_var l v with
        | None => None
        | Some sz =>
          match lex_expect T_semicolon ts with
          | None => None
          | Some ts =>
            let slots := upd slots i v in
            match lex_accept T_close_curly ts with
            | Some ts => Some (slots, S i, iadd size sz, ts)
            | None => read_members n l slots (S i) (iadd size sz) ts
            end
          end
        end
      end
    else None
  end.

(* src/parser.c:3222-3245: struct NAME { members } ; *)
Definition read_struct (fuel : nat) (fresh : ty) (d : decls) (ts : toks) : option (decls * toks) :=
  match lex_ident T_identifier MAX_ID_LEN ts with
  | None => None
  | Some (token, ts) =>
    match (match find_type (types d) token 2 with
           | Some i => Some (i, types d)
           | None => add_type fresh (types d)
           end) with
    | None => None
    | Some (i, l) =>
      match strcpy MAX_TYPE_LEN token, nth_error l i with
      | Some name, Some t =>
        let l := set_type l i (mkty name (t_base t) (t_link t) (t_size t) (t_field t) (t_num t)) in
        match lex_expect T_open_curly ts with
        | None => None
        | Some ts =>
          match read_members fuel l (t_field t) 0 0 ts with
          | None => None
          | Some (slots, n, size, ts) =>
            match lex_expect T_semicolon ts with
            | None => None
            | Some ts => Some (mkdecls (set_type l i (mkty name TYPE_struct (t_link t) size slots n)) (consts d), ts)
            end
          end
        end
      | _, _ => None
      end
    end
  end.

(* src/globals.c:596-601 add_constant *)
Definition add_constant (cs : list (text * Z)) (name : text) (v : Z) : option (list (text * Z)) :=
  if Nat.ltb (List.length cs) MAX_CONSTANTS
  then match strcpy MAX_VAR_LEN name with Some name => Some (cs ++ [(name, v)]) | None => None end
  else None.
(* src/globals.c:603-611 find_constant *)
Fixpoint find_constant (cs : list (text * Z)) (name : text) : option Z :=
  match cs with [] => None | (n, v) :: r => if text_eqb n name then Some v else find_constant r name end.

(* src/parser.c:3254-3263: the enumerators *)
Fixpoint read_enumerators (fuel : nat) (cs : list (text * Z)) (val : Z) (ts : toks) : option (list (text * Z) * toks) :=
  match fuel with
  | O => None
  | S fuel =>
    match lex_ident T_identifier MAX_ID_LEN ts with
    | None => None
    | Some (token, ts) =>
      match (match lex_accept T_assign ts with
             | None => Some (val, ts)
             | Some ts => match lex_ident T_numeric MAX_ID_LEN ts with
                          | None => None
                          | Some (value, ts) => Some (read_numeric_constant value, ts)
                          end
             end) with
      | None => None
      | Some (val, ts) =>
        match add_constant cs token val with
        | None => None
        | Some cs =>
          match lex_accept T_comma ts with
          | Some ts => read_enumerators fuel cs (iadd val 1) ts
          | None => Some (cs, ts)
          end
        end
      end
    end
  end.
(* src/parser.c:3247-3268: typedef enum { enumerators } NAME ; (after typedef enum) *)
Definition read_enum (fuel : nat) (fresh : ty) (d : decls) (ts : toks) : option (decls * toks) :=
  match add_type fresh (types d) with
  | None => None
  | Some (i, l) =>
    match lex_expect T_open_curly ts with
    | None => None
    | Some ts =>
      match read_enumerators fuel (consts d) 0 ts with
      | None => None
      | Some (cs, ts) =>
        match lex_expect T_close_curly ts with
        | None => None
        | Some ts =>
          match lex_ident T_identifier MAX_ID_LEN ts with
          | None => None
          | Some (token, ts) =>
            match strcpy MAX_TYPE_LEN token, lex_expect T_semicolon ts with
            | Some name, Some ts =>
                Some (mkdecls (set_type l i (mkty name TYPE_int (t_link fresh) 4 (t_field fresh) (t_num fresh))) cs, ts)
            | _, _ => None
            end
          end
        end
      end
    end
  end.

(* src/parser.c:3269-3315: typedef struct [TAG] [{ members }] NAME ; (after typedef struct) *)
Definition read_typedef_struct (fuel : nat) (fresh : ty) (d : decls) (ts : toks) : option (decls * toks) :=
  match add_type fresh (types d) with
  | None => None
  | Some (i, l) =>
    match (match lex_peek T_identifier ts with
           | None => Some (None, l, ts)
           | Some w =>
             match strcpy MAX_ID_LEN w with
             | None => None
             | Some token =>
               match find_type l token 2 with
               | Some j => Some (Some j, l, tl ts)
               | None => match add_type fresh l, strcpy MAX_TYPE_LEN token with
                         | Some (j, l), Some name =>
                             Some (Some j, set_type l j (mkty name TYPE_struct (t_link fresh) (t_size fresh) (t_field fresh) (t_num fresh)), tl ts)
                         | _, _ => None
                         end
               end
             end
           end) with
    | None => None
    | Some (tag, l, ts) =>
      match (match lex_accept T_open_curly ts with
             | None => Some (false, t_field fresh, O, 0, ts)
             | Some ts => match read_members fuel l (t_field fresh) 0 0 ts with
                          | None => None
                          | Some (slots, n, size, ts) => Some (true, slots, n, size, ts)
                          end
             end) with
      | None => None
      | Some (has_def, slots, n, size, ts) =>
        match lex_ident T_identifier MAX_TYPE_LEN ts with
        | None => None
        | Some (name, ts) =>
          let t := mkty name TYPE_typedef (t_link fresh) size slots n in
          let l := match tag with
                   | Some j =>
                     if has_def then
                       match nth_error l j with
                       | Some old => set_type (set_type l i t) j (mkty (t_name old) TYPE_struct (t_link t) size slots n)
                       | None => l
                       end
                     else set_type l i (mkty name TYPE_typedef tag size slots n)
                   | None => set_type l i (mkty name TYPE_typedef None size slots n)
                   end in
          match lex_expect T_semicolon ts with Some ts => Some (mkdecls l (consts d), ts) | None => None end
        end
      end
    end
  end.

(* src/parser.c:3316-3330: typedef BASE NAME ; *)
Definition read_typedef (fresh : ty) (d : decls) (ts : toks) : option (decls * toks) :=
  match add_type fresh (types d) with
  | None => None
  | Some (i, l) =>
    match lex_ident T_identifier MAX_TYPE_LEN ts with
    | None => None
    | Some (bname, ts) =>
      match find_type l bname 1 with
      | None => None
      | Some b =>
        match nth_error l b, lex_ident T_identifier MAX_TYPE_LEN ts with
        | Some base, Some (name, ts) =>
          match lex_expect T_semicolon ts with
          | Some ts => Some (mkdecls (set_type l i (mkty name (t_base base) (t_link fresh) (t_size base) (t_field fresh) 0)) (consts d), ts)
          | None => None
          end
        | _, _ => None
        end
      end
    end
  end.

(* src/parser.c:3222, 3246-3247, 3269, 3316: the four kinds *)
Definition read_type_decl (fuel : nat) (fresh : ty) (d : decls) (ts : toks) : option (decls * toks) :=
  match lex_accept T_struct ts with
  | Some ts => read_struct fuel fresh d ts
  | None =>
    match lex_accept T_typedef ts with
    | None => None
    | Some ts =>
      match lex_accept T_enum ts with
      | Some ts => read_enum fuel fresh d ts
      | None => match lex_accept T_struct ts with
                | Some ts => read_typedef_struct fuel fresh d ts
                | None => read_typedef fresh d ts
                end
      end
    end
  end.

(* src/globals.c:618-631 find_member: the member found *)
Fixpoint find_field (n : nat) (i : nat) (f : nat -> fld) (name : text) : option fld :=
  match n with O => None | S n => if text_eqb (f_name (f i)) name then Some (f i) else find_field n (S i) f name end.
Definition find_member (l : list ty) (name : text) (t : ty) : option fld :=
  match (if t_size t =? 0 then match t_link t with Some j => nth_error l j | None => None end else Some t) with
  | Some t => find_field (t_num t) 0 (t_field t) name
  | None => None
  end.

(* src/parser.c:62-67 get_size *)
Definition get_size (v : fld) (t : ty) : Z := if (negb (f_ptr v =? 0)) || f_func v then 4 else t_size t.
(* src/parser.c:1248-1249, 1284-1286, 1291-1293: the constant the index is multiplied with in v[index] (for a variable or a
   member v of type name f_type v) *)
Definition index_scale (l : list ty) (v : fld) : option Z :=
  match find_type l (f_type v) 0 with
  | None => None
  | Some i => match nth_error l i with
              | None => None
              | Some t => Some (if (f_ptr v <=? 1) && (f_array v =? 0) then t_size t else get_size v t)
              end
  end.

(* src/parser.c:3334-3354: the built-in types *)
Definition zero_fld : fld := mkfld [] [] 0 false 0 0.
Definition zero_ty : ty := mkty [] TYPE_void None 0 (fun _ => zero_fld) 0.
Definition builtin (name : string) (b : base_type) (size : Z) : ty := mkty (bytes name) b None size (fun _ => zero_fld) 0.
Definition initial : decls :=
  mkdecls [builtin "void" TYPE_void 0; builtin "char" TYPE_char 1; builtin "int" TYPE_int 4; builtin "_Bool" TYPE_char 1] [].
