(** Model of the allocator of the embedded libc, lib/c.c:466-693.

    Memory is the byte memory of CMem; words are four bytes, little endian.  The three
    global variables __alloc_head, __alloc_tail and __freelist_head live in that memory, at
    the addresses given by [env].  The operating system's mmap2 is the function [os]: it
    chooses the address of a new mapping, whose bytes are zero, or refuses (None).  The code
    does not check for refusal but writes through the error number, so a refused request
    ends the run (fail). *)
From Verif.Lib Require Export CMem.
Open Scope cm_scope.

(** words in memory *)
Definition peek (h : heap) (a : Z) : option Z :=
  match h a, h (a + 1), h (a + 2), h (a + 3) with
  | Some b0, Some b1, Some b2, Some b3 =>
      Some (b0 mod 256 + 256 * (b1 mod 256) + 65536 * (b2 mod 256) + 16777216 * (b3 mod 256))
  | _, _, _, _ => None
  end.
Definition poke (h : heap) (a v : Z) : heap :=
  upd (upd (upd (upd h a v) (a + 1) (v / 256)) (a + 2) (v / 65536)) (a + 3) (v / 16777216).
Definition lw (a : Z) : M Z := fun h => match peek h a with Some v => Some (v, h) | None => None end.
Definition sw (a v : Z) : M unit := fun h => match peek h a with Some _ => Some (tt, poke h a v) | None => None end.

Record env := { g_head : Z; g_tail : Z; g_free : Z; os : heap -> Z -> option Z }.

Definition mapped (h : heap) (a len : Z) : heap := fun x => if (a <=? x) && (x <? a + len) then Some 0 else h x.
Definition unmapped (h : heap) (a len : Z) : heap := fun x => if (a <=? x) && (x <? a + len) then None else h x.

(* lib/c.c:492-496 __align_up, PAGESIZE 4096 (lib/c.c:469) *)
Definition align_up (size : Z) : Z := iadd (ior (isub size 1) 4095) 1.
(* sizeof(chunk_t), lib/c.c:476-480: two pointers and an int *)
Definition HDR : Z := 12.
(* field offsets *)
Definition next_of (c : Z) : Z := c.
Definition prev_of (c : Z) : Z := c + 4.
Definition size_of (c : Z) : Z := c + 8.
(* lib/c.c:471-474 CHUNK_GET_SIZE, IS_CHUNK_GET_FREED *)
Definition get_size (s : Z) : Z := iand s (-2).
Definition is_freed (s : Z) : bool := negb (iand s 1 =? 0).

Section Malloc.
  Variable E : env.

  (* __syscall(__syscall_mmap2, NULL, len, PROT_READ|PROT_WRITE, MAP_PRIVATE|MAP_ANONYMOUS, -1, 0) *)
  Definition mmap2 (len : Z) : M Z := fun h =>
    match os E h len with Some a => Some (a, mapped h a len) | None => None end.
  (* __syscall(__syscall_munmap, ptr, size) *)
  Definition munmap (a len : Z) : M unit := fun h => Some (tt, unmapped h a len).

  (* lib/c.c:510-519: the first block of malloc *)
  Definition init_alloc : M unit :=
    ah <- lw (g_head E) ;;
    if ah =? 0 then
      tmp <- mmap2 (align_up HDR) ;;
      sw (g_head E) tmp ;;;
      sw (g_tail E) tmp ;;;
      ah <- lw (g_head E) ;; sw (next_of ah) 0 ;;;
      ah <- lw (g_head E) ;; sw (prev_of ah) 0 ;;;
      ah <- lw (g_head E) ;; sw (size_of ah) 0
    else ret tt.

  (* lib/c.c:521-529 *)
  Definition init_free : M unit :=
    fh <- lw (g_free E) ;;
    if fh =? 0 then
      tmp <- mmap2 (align_up HDR) ;;
      sw (g_free E) tmp ;;;
      fh <- lw (g_free E) ;; sw (next_of fh) 0 ;;;
      fh <- lw (g_free E) ;; sw (prev_of fh) 0 ;;;
      fh <- lw (g_free E) ;; sw (size_of fh) (-1)
    else ret tt.

  (* lib/c.c:544-556: the search for the best fitting chunk *)
  Definition best_fit (F : nat) (fh0 size : Z) : M Z :=
    loop (fun '(fh, best, bsize) =>
      nx <- lw (next_of fh) ;;
      if nx =? 0 then ret (inr best)
      else
        sz <- lw (size_of fh) ;;
        let fh_size := get_size (s32 sz) in
        if (fh_size >=? size) && (best =? 0) then ret (inl (nx, fh, fh_size))
        else if (fh_size >=? size) && negb (best =? 0) && (fh_size <? bsize) then ret (inl (nx, fh, fh_size))
        else ret (inl (nx, best, bsize))) F (fh0, 0, 0).

  (* lib/c.c:560-570: removal of the chosen chunk *)
  Definition unlink_free (b : Z) : M unit :=
    pv <- lw (prev_of b) ;;
    (if negb (pv =? 0) then nx <- lw (next_of b) ;; sw (next_of pv) nx
     else nx <- lw (next_of b) ;; sw (g_free E) nx) ;;;
    nx <- lw (next_of b) ;;
    if negb (nx =? 0) then pv <- lw (prev_of b) ;; sw (prev_of nx) pv else ret tt.

  (* lib/c.c:532-573 *)
  Definition take_free (F : nat) (size : Z) : M Z :=
    fh <- lw (g_free E) ;;
    nx <- lw (next_of fh) ;;
    if nx =? 0 then ret 0
    else
      b <- best_fit F fh size ;;
      if negb (b =? 0) then unlink_free b ;;; ret b else ret 0.

  (* lib/c.c:575-580 *)
  Definition map_chunk (size : Z) : M Z :=
    a <- mmap2 (align_up (iadd HDR size)) ;;
    sw (size_of a) (align_up (iadd HDR size)) ;;;
    ret a.

  (* lib/c.c:582-590 (586: __alloc_tail->next = NULL; 587: size assigned to itself; 588: chunk_clear_freed, 487-490) *)
  Definition append_alloc (a : Z) : M Z :=
    at_ <- lw (g_tail E) ;;
    sw (next_of at_) a ;;;
    sw (prev_of a) at_ ;;;
    sw (g_tail E) a ;;;
    sw (next_of a) 0 ;;;
    sz <- lw (size_of a) ;; sw (size_of a) sz ;;;
    sz <- lw (size_of a) ;; sw (size_of a) (get_size (s32 sz)) ;;;
    ret (a + HDR).

  (* lib/c.c:502-591 malloc *)
  Definition malloc (F : nat) (size : Z) : M Z :=
    if size <=? 0 then ret 0
    else
      init_alloc ;;;
      init_free ;;;
      a <- take_free F size ;;
      a <- (if a =? 0 then map_chunk size else ret a) ;;
      append_alloc a.

  (* lib/c.c:593-617 calloc *)
  Definition calloc (F : nat) (n size : Z) : M Z :=
    let total := imul n size in
    p <- malloc F total ;;
    if p =? 0 then ret 0
    else
      let num_words := ishr total 2 in
      loop (fun i => if i <? num_words then sw (p + 4 * i) 0 ;;; ret (inl (iadd i 1)) else ret (inr tt)) F 0 ;;;
      loop (fun offset => if offset <? total then store (p + offset) 0 ;;; ret (inl (iadd offset 1)) else ret (inr tt)) F
        (ishl num_words 2) ;;;
      ret p.

  (* lib/c.c:660-693 free; the result [true] means that the program was aborted
     (message and abort(), lib/c.c:667-670).  The variable prev (672) is uninitialised when
     cur->prev is NULL; the model fails if it is used then. *)
  Definition free (ptr : Z) : M bool :=
    if ptr =? 0 then ret false
    else
      let cur := ptr - HDR in
      sz <- lw (size_of cur) ;;
      if is_freed (s32 sz) then ret true
      else
        pv <- lw (prev_of cur) ;;
        (if negb (pv =? 0) then nx <- lw (next_of cur) ;; sw (next_of pv) nx
         else nx <- lw (next_of cur) ;; sw (g_head E) nx) ;;;
        nx <- lw (next_of cur) ;;
        (if negb (nx =? 0) then pv <- lw (prev_of cur) ;; sw (prev_of nx) pv
         else if pv =? 0 then fail
         else sw (next_of pv) 0 ;;; sw (g_tail E) pv) ;;;
        fh <- lw (g_free E) ;;
        sw (next_of cur) fh ;;;
        sw (prev_of cur) 0 ;;;
        sz <- lw (size_of cur) ;; sw (size_of cur) (ior (s32 sz) 1) ;;;
        fh <- lw (g_free E) ;; sw (prev_of fh) cur ;;;
        sw (g_free E) cur ;;;
        ret false.

  (* lib/c.c:626-658 __free_all, with __rfree (619-624) *)
  Definition rfree (p size : Z) : M unit := if p =? 0 then ret tt else munmap p size.
  Definition release (cur : Z) : M unit :=
    sw (next_of cur) 0 ;;; sw (prev_of cur) 0 ;;;
    sz <- lw (size_of cur) ;; rfree cur (get_size (s32 sz)).
  Definition free_all (F : nat) : M unit :=
    fh <- lw (g_free E) ;; ah <- lw (g_head E) ;;
    if (fh =? 0) && (ah =? 0) then ret tt
    else
      loop (fun cur => nx <- lw (next_of cur) ;;
        if nx =? 0 then ret (inr tt) else release cur ;;; ret (inl nx)) F fh ;;;
      ah <- lw (g_head E) ;;
      nx <- lw (next_of ah) ;;
      if nx =? 0 then ret tt
      else loop (fun cur => if cur =? 0 then ret (inr tt)
                            else nx <- lw (next_of cur) ;; release cur ;;; ret (inl nx)) F nx.
End Malloc.
