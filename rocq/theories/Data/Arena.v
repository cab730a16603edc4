(** Model of the arena allocator, src/globals.c:77-180.  A chunk is what one
    arena_block_create obtained from calloc; chunks are numbered in chain order and
    distinct chunks are disjoint memory (the C allocator's contract).  A pointer is a
    chunk number and a byte offset. *)
From Verif.Base Require Import Int32.

Record chunk := mkchunk { ck_capacity : Z; ck_offset : Z }.
Definition arena := list chunk.
Record ptr := mkptr { pt_chunk : nat; pt_off : Z }.

(* src/defs.h:46 *)
Definition DEFAULT_ARENA_SIZE : Z := 262144.

(* src/globals.c:83-104 arena_block_create (calloc succeeds) *)
Definition arena_block_create (capacity : Z) : chunk := mkchunk capacity 0.
(* src/globals.c:112-117 arena_init *)
Definition arena_init (initial_capacity : Z) : arena := [arena_block_create initial_capacity].

(* src/globals.c:128-157 arena_alloc; [k] counts the chunks passed *)
Fixpoint arena_alloc_from (k : nat) (a : arena) (size : Z) : arena * ptr :=
  match a with
  | [] =>
      let new_capacity := if size >? DEFAULT_ARENA_SIZE then size else DEFAULT_ARENA_SIZE in
      let b := arena_block_create new_capacity in
      ([mkchunk (ck_capacity b) (iadd (ck_offset b) size)], mkptr k (ck_offset b))
  | b :: r =>
      if iadd (ck_offset b) size <=? ck_capacity b then
        (mkchunk (ck_capacity b) (iadd (ck_offset b) size) :: r, mkptr k (ck_offset b))
      else let (r', p) := arena_alloc_from (S k) r size in (b :: r', p)
  end.
Definition arena_alloc (a : arena) (size : Z) : arena * ptr := arena_alloc_from 0 a size.

(* src/globals.c:163-171 arena_reset *)
Definition arena_reset (a : arena) : arena := map (fun b => mkchunk (ck_capacity b) 0) a.
