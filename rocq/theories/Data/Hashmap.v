(** Model of the string hash map of src/globals.c:189-376 and of add_func/find_func.
    A string is the list of its char values (the terminator excluded); whether char is
    signed is left open: a char is any integer. int arithmetic wraps (two's complement),
    as in the compilers used. malloc is assumed to succeed. *)
From Verif.Base Require Import Int32.

Definition str := list Z.
Fixpoint streqb (a b : str) : bool :=
  match a, b with
  | [], [] => true
  | x :: a', y :: b' => (x =? y) && streqb a' b'
  | _, _ => false
  end.

(* src/globals.c:198-209 hashmap_hash_index *)
Definition fnv_step (hash c : Z) : Z := s32 (s32 (Z.lxor hash c) * 0x01000193).
Definition hashmap_hash_index (size : Z) (key : str) : Z :=
  let hash := fold_left fnv_step key (s32 0x811c9dc5) in
  let mask := Z.shiftr hash 31 in
  Z.land (s32 (Z.lxor hash mask - mask)) (size - 1).

(* src/globals.c:211-221 round_up_pow2 *)
Definition round_up_pow2 (v : Z) : Z :=
  let v := v - 1 in
  let v := Z.lor v (Z.shiftr v 1) in
  let v := Z.lor v (Z.shiftr v 2) in
  let v := Z.lor v (Z.shiftr v 4) in
  let v := Z.lor v (Z.shiftr v 8) in
  let v := Z.lor v (Z.shiftr v 16) in
  v + 1.

Section Map.
  Variable V : Type.    (* non-NULL pointers *)

  (** buckets are linked lists of nodes; the bucket array is a total function with its
      length [hm_size] (accesses outside it are what [C17_index_in_range] rules out) *)
  Record hashmap := mkhm { hm_size : Z; hm_buckets : Z -> list (str * V) }.

  (* src/globals.c:231-255 hashmap_create *)
  Definition hashmap_create (size : Z) : hashmap := mkhm (round_up_pow2 size) (fun _ => []).

  (* src/globals.c:302-319 hashmap_put: append at the end of the chain *)
  Definition hashmap_put (m : hashmap) (key : str) (v : V) : hashmap :=
    let index := hashmap_hash_index (hm_size m) key in
    mkhm (hm_size m)
         (fun i => if i =? index then hm_buckets m i ++ [(key, v)] else hm_buckets m i).

  Fixpoint chain_get (l : list (str * V)) (key : str) : option V :=
    match l with
    | [] => None
    | (k, v) :: r => if streqb k key then Some v else chain_get r key
    end.
  (* src/globals.c:329-341 hashmap_get *)
  Definition hashmap_get (m : hashmap) (key : str) : option V :=
    chain_get (hm_buckets m (hashmap_hash_index (hm_size m) key)) key.

  (* src/globals.c:352-355 hashmap_contains: the value is a non-NULL pointer *)
  Definition hashmap_contains (m : hashmap) (key : str) : bool :=
    match hashmap_get m key with Some _ => true | None => false end.
End Map.
Arguments hashmap_create {V}.
Arguments hashmap_put {V}.
Arguments hashmap_get {V}.
Arguments hashmap_contains {V}.
Arguments hm_size {V}.
Arguments hm_buckets {V}.

(* src/globals.c:562-582 add_func on a table whose values are [fresh] function records;
   returns the table and the record for [name] (its stack_size field is not modelled) *)
Definition add_func {V} (m : hashmap V) (name : str) (fresh : V) : hashmap V * V :=
  match hashmap_get m name with
  | Some fn => (m, fn)
  | None => (hashmap_put m name fresh, fresh)
  end.
(* src/globals.c:613-616 find_func *)
Definition find_func {V} (m : hashmap V) (name : str) : option V := hashmap_get m name.
