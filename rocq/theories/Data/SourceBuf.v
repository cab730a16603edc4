(** Model of the source buffer (src/globals.c:839-885) and of load_source_file
    (src/parser.c:3391-3423).  malloc is assumed to succeed and to return [junk]; a
    write outside the allocation is the result [None]. *)
From Coq Require Import String Ascii.
From Verif.Base Require Import Int32.
Open Scope Z_scope.
Open Scope list_scope.

Definition chars (s : string) : list Z :=
  List.map (fun c => Z.of_nat (nat_of_ascii c)) (list_ascii_of_string s).
(** the C string at the start of a buffer *)
Fixpoint cstr (l : list Z) : list Z :=
  match l with [] => [] | c :: r => if c =? 0 then [] else c :: cstr r end.

(** overwrite [new] at position [k] of the buffer [l]; None if it does not fit *)
Definition write_at (l : list Z) (k : Z) (new : list Z) : option (list Z) :=
  if (0 <=? k) && (k + Z.of_nat (List.length new) <=? Z.of_nat (List.length l)) then
    Some (firstn (Z.to_nat k) l ++ new ++ skipn (Z.to_nat k + List.length new) l)
  else None.

(* src/defs.h:267-275 source_t; [so_elements] is the whole allocation *)
Record source := mksrc { so_size : Z; so_capacity : Z; so_elements : list Z }.

Section Source.
  (** contents of a fresh allocation *)
  Variable junk : Z -> list Z.

  (* src/globals.c:839-854 create_source *)
  Definition create_source (init_capacity : Z) : source := mksrc 0 init_capacity (junk init_capacity).

  (* src/globals.c:856-873 source_expand *)
  Definition source_expand (s : source) : option source :=
    if so_size s <? so_capacity s then Some s
    else
      let capacity := ishl (so_capacity s) 1 in
      match write_at (junk capacity) 0 (firstn (Z.to_nat (so_size s)) (so_elements s)) with
      | Some new_arr => Some (mksrc (so_size s) capacity new_arr)
      | None => None
      end.

  (* src/globals.c:875-884 source_push *)
  Definition source_push (s : source) (value : Z) : option source :=
    match source_expand s with
    | None => None
    | Some s =>
        match write_at (so_elements s) (so_size s) [value] with
        | Some e => Some (mksrc (so_size s + 1) (so_capacity s) e)
        | None => None
        end
    end.
End Source.

(* src/defs.h:16,30 *)
Definition MAX_LINE_LEN : Z := 256.
Definition MAX_SOURCE : Z := 524288.

(** ISO C fgets into a buffer of MAX_LINE_LEN bytes: at most 255 characters, up to and
    including a newline; None at end of file. *)
Fixpoint take_line (n : nat) (l : list Z) : list Z * list Z :=
  match n, l with
  | O, _ => ([], l)
  | _, [] => ([], [])
  | S n', c :: r => if c =? 10 then ([c], r) else let (a, b) := take_line n' r in (c :: a, b)
  end.
Definition fgets (l : list Z) : option (list Z * list Z) :=
  match l with [] => None | _ => Some (take_line (Z.to_nat (MAX_LINE_LEN - 1)) l) end.

(* src/parser.c:3406-3409: the index [c] *)
Fixpoint slash_from (c : nat) (file : list Z) : nat :=
  match c with
  | O => O
  | S c' => if nth c file 0 =? 47 then c else slash_from c' file
  end.

(* src/parser.c:3405-3415: the path of an inclusion; [garbage] is the uninitialised
   path[0], used when [file] has no directory part.  None: snprintf is given a size
   that is not positive *)
Definition inclusion_path (garbage : Z) (file buffer : list Z) : option (list Z) :=
  let c := slash_from (List.length file - 1) file in
  let inclusion_path_len := Z.of_nat (List.length buffer) - 11 in
  if inclusion_path_len <=? 0 then None
  else
    let head := match c with O => [garbage] | _ => firstn (c + 1) file end in
    Some (cstr (head ++ firstn (Z.to_nat (inclusion_path_len - 1)) (skipn 10 buffer))).

(* src/parser.c:3404: strncmp with the 9 characters of the directive, then a double quote at index 9 *)
Definition is_include (buffer : list Z) : bool :=
  if list_eq_dec Z.eq_dec (firstn 10 buffer) (chars "#include " ++ [34]) then true else false.

Section Load.
  Variable fs : list Z -> option (list Z).     (* file contents by path *)
  Variable garbage : list Z -> list Z -> Z.    (* the uninitialised byte, per call *)

  (* src/parser.c:3417-3419: strcpy (with its terminator) and the size update *)
  Definition append (s : source) (text : list Z) : option source :=
    match write_at (so_elements s) (so_size s) (text ++ [0]) with
    | Some e => Some (mksrc (so_size s + Z.of_nat (List.length text)) (so_capacity s) e)
    | None => None
    end.

  (* src/parser.c:3391-3423 load_source_file; [fuel] bounds the work (the C code has no
     bound: a file that includes itself never terminates) *)
  Fixpoint load_lines (fuel : nat) (file rest : list Z) (s : source) : option source :=
    match fuel with
    | O => None
    | S fuel' =>
        match fgets rest with
        | None => Some s
        | Some (line, rest') =>
            let buffer := cstr line in
            match (if is_include buffer then
                     match inclusion_path (garbage file buffer) file buffer with
                     | Some path =>
                         match fs path with
                         | Some contents => load_lines fuel' path contents s
                         | None => None     (* abort() *)
                         end
                     | None => None
                     end
                   else append s buffer) with
            | Some s' => load_lines fuel' file rest' s'
            | None => None
            end
        end
    end.
  Definition load_source_file (fuel : nat) (file : list Z) (s : source) : option source :=
    match fs file with
    | Some contents => load_lines fuel file contents s
    | None => None
    end.
End Load.
