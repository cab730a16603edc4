(** Model of the build-time inliner, tools/inliner.c. *)
From Coq Require Import String.
From Verif.Front Require Import Lexer LexSpec.

Definition MAX_LINE_LEN : Z := 200.   (* tools/inliner.c:18 *)
Definition MAX_SIZE : Z := 65536.     (* tools/inliner.c:19 *)

(** The buffer SOURCE[0..source_idx-1]; a write beyond MAX_SIZE is the failure [None]. *)
Definition buf := option (list Z).
(* tools/inliner.c:24-27 *)
Definition write_char (b : buf) (c : Z) : buf :=
  match b with
  | Some s => if Z.of_nat (List.length s) <? MAX_SIZE then Some (s ++ [c]) else None
  | None => None
  end.
(* tools/inliner.c:29-33: up to the terminating NUL *)
Fixpoint write_str (b : buf) (str : text) : buf :=
  match str with [] => b | c :: r => if c =? 0 then b else write_str (write_char b c) r end.
(* tools/inliner.c:38-45, the loop of write_line *)
Fixpoint write_escaped (b : buf) (src : text) : buf :=
  match src with
  | [] => b
  | c :: r =>
    if c =? 0 then b
    else if c =? 34 then write_escaped (write_char (write_char b 92) 34) r
    else if negb (c =? 10) then write_escaped (write_char b c) r
    else write_escaped b r
  end.
Definition open_call : text := bytes "  __c(" ++ [34].                 (*   __c( then a quote *)
Definition close_call : text := [34] ++ bytes ");" ++ [10].
(* tools/inliner.c:35-51 *)
Definition write_line (b : buf) (src : text) : buf :=
  write_str (write_char (write_char (write_escaped (write_str b open_call) src) 92) 110) close_call.

(** fgets (C11 7.21.7.2): up to n characters, stopping after a newline; returns what was read and what is left *)
Fixpoint fgets (n : nat) (f : text) : text * text :=
  match n, f with
  | O, _ | _, [] => ([], f)
  | S n, c :: r => if c =? 10 then ([c], r) else let (l, r') := fgets n r in (c :: l, r')
  end.
(* tools/inliner.c:53-65; the counter bounds the loop: each round consumes at least one character *)
Fixpoint load_from (fuel : nat) (b : buf) (f : text) : buf :=
  match fuel, f with
  | _, [] => b
  | O, _ => None
  | S n, _ => let (l, r) := fgets (Z.to_nat (MAX_LINE_LEN - 1)) f in load_from n (write_line b l) r
  end.

Definition nl : string := String (Ascii.ascii_of_nat 10) EmptyString.
(* tools/inliner.c:84, 97-102: the fixed text before the calls *)
Definition prologue : text := bytes
  ("/* Created by tools/inliner - DO NOT EDIT. */" ++ nl ++
   "void __c(char *src) {" ++ nl ++
   "    for (int i = 0; src[i]; i++)" ++ nl ++
   "        source_push(SOURCE, src[i]);" ++ nl ++
   "}" ++ nl ++
   "void libc_generate() {" ++ nl)%string.
Definition epilogue : text := bytes ("}" ++ nl)%string.
(* tools/inliner.c:75-107 (with enough arguments): the bytes of the output file; [None]: buffer overrun *)
Definition inline (f : text) : option text :=
  write_str (load_from (List.length f) (write_str (Some []) prologue) f) epilogue.
