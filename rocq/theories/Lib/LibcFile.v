(** Model of the file functions of lib/c.c:399-466 and of the loops that use them, src/elf.c:257-266 and
    src/parser.c:3396-3428.  The system calls they make are specified here (POSIX open, read, write, close); what the code
    does with them is below. *)
From Verif.Lib Require Export CMem.
Open Scope Z_scope.

(** *** The operating system (specification). *)
(** an open file: which, the offset, opened for writing or for reading *)
Record file := mkfile { f_name : list Z; f_pos : nat; f_write : bool }.
Record os := mkos { disk : list Z -> option (list Z); opened : Z -> option file }.
Definition name_eq (x y : list Z) : bool := if list_eq_dec Z.eq_dec x y then true else false.
Definition set_disk (o : os) (x : list Z) (c : list Z) : os := mkos (fun y => if name_eq y x then Some c else disk o y) (opened o).
Definition set_open (o : os) (fd : Z) (f : option file) : os := mkos (disk o) (fun x => if x =? fd then f else opened o x).
(** a byte written at an offset; a gap before it is filled with zeros *)
Definition put_byte (c : list Z) (p : nat) (b : Z) : list Z := firstn p c ++ repeat 0 (p - length c) ++ b :: skipn (S p) c.

(** open: O_CREAT is bit 6 of the flags, O_TRUNC bit 9; the lowest two are 0 to read and 1 to write.  A file that is not there
    and is not to be created: -ENOENT.  [fd] is the number the system gives. *)
Definition sys_open (fd : Z) (name : list Z) (flags : Z) (o : os) : Z * os :=
  let f := mkfile name 0 (flags mod 4 =? 1) in
  match disk o name with
  | Some c => (fd, set_open (if Z.testbit flags 9 then set_disk o name [] else o) fd (Some f))
  | None => if Z.testbit flags 6 then (fd, set_open (set_disk o name []) fd (Some f)) else (-2, o)
  end.
(** read of one byte: the result (1; 0 at the end; -EBADF) and the byte *)
Definition sys_read1 (fd : Z) (o : os) : Z * Z * os :=
  match opened o fd with
  | Some f =>
      if f_write f then (-9, 0, o) else
      match disk o (f_name f) with
      | Some c => match nth_error c (f_pos f) with
                  | Some b => (1, b, set_open o fd (Some (mkfile (f_name f) (S (f_pos f)) false)))
                  | None => (0, 0, o)
                  end
      | None => (0, 0, o)
      end
  | None => (-9, 0, o)
  end.
(** write of one byte *)
Definition sys_write1 (fd b : Z) (o : os) : Z * os :=
  match opened o fd with
  | Some f =>
      if f_write f then
        match disk o (f_name f) with
        | Some c => (1, set_open (set_disk o (f_name f) (put_byte c (f_pos f) b)) fd (Some (mkfile (f_name f) (S (f_pos f)) true)))
        | None => (-5, o)
        end
      else (-9, o)
  | None => (-9, o)
  end.
Definition sys_close (fd : Z) (o : os) : os := set_open o fd None.

(** *** The code. *)
Definition FM (A : Type) := heap * os -> option (A * (heap * os)).
Definition fret {A} (a : A) : FM A := fun s => Some (a, s).
Definition fbind {A B} (m : FM A) (k : A -> FM B) : FM B := fun s => match m s with Some (a, s) => k a s | None => None end.
Definition fstore (a v : Z) : FM unit := fun s => match store a v (fst s) with Some (_, h) => Some (tt, (h, snd s)) | None => None end.

(* lib/c.c:399-417 fopen.  The strings are given by their bytes, strcmp is C22's; [fd]: the number open gives. *)
Definition wb : list Z := [119; 98].
Definition rb : list Z := [114; 98].
Definition fopen (fd : Z) (filename mode : list Z) : FM Z := fun s =>
  if name_eq mode wb then let '(r, o) := sys_open fd filename 65 (snd s) in Some (r, (fst s, o))
  else if name_eq mode rb then let '(r, o) := sys_open fd filename 0 (snd s) in Some (r, (fst s, o))
  else Some (0, s).
(* lib/c.c:420-424 fclose *)
Definition fclose (stream : Z) : FM Z := fun s => Some (0, (fst s, sys_close stream (snd s))).
(* lib/c.c:428-434 fgetc; buf is a local int that is 0, read stores its lowest byte *)
Definition fgetc (stream : Z) : FM Z := fun s =>
  let '(r, buf, o) := sys_read1 stream (snd s) in
  Some (if r <? 1 then -1 else buf, (fst s, o)).
(* lib/c.c:436-458 fgets; [fuel] bounds the iterations *)
Fixpoint fgets_loop (fuel : nat) (str n stream i : Z) : FM Z :=
  match fuel with
  | O => fun _ => None
  | S k =>
      if i <? n - 1 then
        fbind (fgetc stream) (fun c =>
        if c =? -1 then if i =? 0 then fret 0 else fbind (fstore (str + i) 0) (fun _ => fret str)
        else fbind (fstore (str + i) c) (fun _ =>
             if c =? 10 then fbind (fstore (str + i + 1) 0) (fun _ => fret str)
             else fgets_loop k str n stream (iadd i 1)))
      else fbind (fstore (str + i) 0) (fun _ => fret str)
  end.
Definition fgets (fuel : nat) (str n stream : Z) : FM Z := fgets_loop fuel str n stream 0.
(* lib/c.c:461-466 fputc: write takes the lowest byte of c *)
Definition fputc (c stream : Z) : FM Z := fun s =>
  let '(r, o) := sys_write1 stream (c mod 256) (snd s) in
  Some (if r <? 0 then -1 else c, (fst s, o)).
(* src/elf.c:258-265, tools/inliner.c:69-70: for (...) fputc(a[i], fp) *)
Fixpoint fputs_all (l : list Z) (stream : Z) : FM unit :=
  match l with [] => fret tt | c :: l => fbind (fputc c stream) (fun _ => fputs_all l stream) end.
(* src/elf.c:257-266: fopen(outfile, "wb"), the bytes of header, code, data and sections, fclose *)
Definition write_file (fd : Z) (outfile : list Z) (bytes : list Z) : FM Z :=
  fbind (fopen fd outfile wb) (fun fp => fbind (fputs_all bytes fp) (fun _ => fclose fp)).
(* src/parser.c:3400-3427 load_source_file, without #include: for (;;) { if (!fgets(buffer, n, f)) break; strcat(source, buffer); }
   strlen: the bytes up to the first zero *)
Fixpoint string_at (fuel : nat) (h : heap) (a : Z) : list Z :=
  match fuel with O => [] | S k => match h a with Some b => if b =? 0 then [] else b :: string_at k h (a + 1) | None => [] end end.
Fixpoint read_all (fuel : nat) (buffer n stream : Z) : FM (list (list Z)) :=
  match fuel with
  | O => fun _ => None
  | S k =>
      fbind (fgets (Z.to_nat n) buffer n stream) (fun r =>
      if r =? 0 then fret []
      else fun s => fbind (read_all k buffer n stream) (fun l => fret (string_at (Z.to_nat n) (fst s) buffer :: l)) s)
  end.
(* src/parser.c:3396-3404: None if it aborts because !f *)
Definition load_file (fuel : nat) (fd : Z) (file : list Z) (buffer n : Z) : FM (option (list (list Z))) :=
  fbind (fopen fd file rb) (fun f =>
  if f =? 0 then fret None
  else fbind (read_all fuel buffer n f) (fun l => fbind (fclose f) (fun _ => fret (Some l)))).
