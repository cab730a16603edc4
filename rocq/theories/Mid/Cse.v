(** Model of common subexpression elimination, src/ssa.c:1222-1299, of the use chains it works on, src/ssa.c:404-451, and of
    the instruction loop of optimize(), src/ssa.c:1534-1553.
    Instructions, variables and blocks are numbers (stand for pointers); next and prev are the positions in the list of the
    block the instruction belongs to. *)
From Verif.Mid Require Export Dom Fold.

(** the fields changed: those of constant folding, insn_list of the blocks, users of the variables *)
Record cseing := mkcse { cs_fold : folding; cs_code : nat -> list nat; cs_users : nat -> list nat }.
Definition cs_ins (s : cseing) : nat -> insn := fo_ins (cs_fold s).
(** CNull: NULL is dereferenced (or the walk up the dominator tree does not end) *)
Inductive csed := Csed (changed : bool) (s : cseing) | CNull | CTrap.

(* insn_t.next *)
Fixpoint after (i : nat) (l : list nat) : option nat :=
  match l with
  | x :: (y :: _) as r => if Nat.eqb x i then Some y else after i r
  | _ => None
  end.
(* insn_t.prev *)
Fixpoint before (i : nat) (l : list nat) : option nat :=
  match l with
  | x :: (y :: _) as r => if Nat.eqb y i then Some x else before i r
  | _ => None
  end.
(* src/ssa.c:1278-1284: take i out of its list, the only one it is in and where it is once; src/ssa.c:421-436
   use_chain_delete: take the node of i out of a chain (when base and index are the same variable there are two nodes, and
   the C code may free one of them twice: here both are taken out) *)
Definition without (i : nat) (l : list nat) : list nat := filter (fun k => negb (Nat.eqb k i)) l.
Definition same_op (a b : option nat) : bool :=
  match a, b with Some x, Some y => Nat.eqb x y | None, None => true | _, _ => false end.

Section Cse.
  Variable is_global : nat -> bool.
  Variable own : nat -> nat.         (* belong_to *)
  Variable idom : tree.
  Variable fuel : nat.

  (* src/ssa.c:1264-1271: is bb on the way from i_bb up the dominator tree? *)
  Fixpoint under (n : nat) (i_bb bb : nat) : option bool :=
    match n with
    | O => None
    | S n => if Nat.eqb i_bb bb then Some true
             else match idom i_bb with
                  | None => None
                  | Some d => if Nat.eqb i_bb d then Some false else under n d bb
                  end
    end.
  (* src/ssa.c:1244-1251: delete the nodes noted by the previous round *)
  Definition drop_uses (pending : option (nat * nat * nat)) (u : nat -> list nat) : nat -> list nat :=
    match pending with
    | None => u
    | Some (i, base, idx) => let u := upd u base (without i (u base)) in upd u idx (without i (u idx))
    end.
  (* src/ssa.c:1241-1297: the loop along the users of base *)
  Fixpoint cse_users (prev base idx def bb : nat) (us : list nat) (pending : option (nat * nat * nat)) (s : cseing) : csed :=
    match us with
    | [] => Csed true s
    | i :: us =>
      let s := mkcse (cs_fold s) (cs_code s) (drop_uses pending (cs_users s)) in
      let skip := cse_users prev base idx def bb us None s in
      if Nat.eqb i prev then skip
      else if negb (op_is (cs_ins s i) OP_add) then skip
      else match after i (cs_code s (own i)) with
           | None => skip
           | Some n =>
             if negb (op_is (cs_ins s n) OP_read) then skip
             else if negb (same_op (i_rs1 (cs_ins s i)) (Some base) && same_op (i_rs2 (cs_ins s i)) (Some idx)) then skip
             else match under fuel (own i) bb with
                  | None => CNull
                  | Some false => skip
                  | Some true =>
                    let f := cs_fold s in
                    let x := fo_ins f n in
                    let f := mkfold (upd (fo_ins f) n (mkinsn OP_assign (i_rd x) (Some def) (i_rs2 x))) (fo_const f) (fo_init f) in
                    cse_users prev base idx def bb us (Some (i, base, idx))
                      (mkcse f (fun b => without i (cs_code s b)) (cs_users s))
                  end
           end
    end.
  (* src/ssa.c:1222-1299 cse *)
  Definition cse (i bb : nat) (s : cseing) : csed :=
    if negb (op_is (cs_ins s i) OP_read) then Csed false s
    else match before i (cs_code s (own i)) with
         | None => Csed false s
         | Some p =>
           let x := cs_ins s p in
           if negb (op_is x OP_add) then Csed false s
           else if negb (same_op (i_rd x) (i_rs1 (cs_ins s i))) then Csed false s
           else match i_rd (cs_ins s i), i_rs1 x, i_rs2 x with
                | Some def, Some base, Some idx =>
                  if is_global base || is_global idx then Csed false s
                  else cse_users p base idx def bb (cs_users s base) None s
                | _, _, _ => CNull
                end
         end.
  (* src/ssa.c:1543-1551: one instruction (last_assign is not used any more) *)
  Definition optimize_insn (i bb : nat) (s : cseing) : csed :=
    match cse i bb s with
    | Csed false s =>
        match const_folding is_global (before i (cs_code s (own i))) i (cs_fold s) with
        | Folded r f => Csed r (mkcse f (cs_code s) (cs_users s))
        | FNull => CNull
        | FTrap => CTrap
        end
    | r => r
    end.
  (* src/ssa.c:1543: insn = insn->next; cse takes out no instruction but additions, never the one at hand: an instruction of
     the block as it was that is no longer in the list is not met *)
  Fixpoint optimize_block (l : list nat) (bb : nat) (s : cseing) : csed :=
    match l with
    | [] => Csed false s
    | i :: r => if mem i (cs_code s bb)
                then match optimize_insn i bb s with Csed _ s => optimize_block r bb s | x => x end
                else optimize_block r bb s
    end.
  (* src/ssa.c:1541-1552 *)
  Fixpoint optimize_blocks (order : list nat) (s : cseing) : csed :=
    match order with
    | [] => Csed false s
    | b :: r => match optimize_block (cs_code s b) b s with Csed _ s => optimize_blocks r s | x => x end
    end.
End Cse.

(* src/ssa.c:438-451 use_chain_build, 404-419 use_chain_add_tail *)
Definition uses_of (x : insn) (v : nat) : nat :=
  ((match i_rs1 x with Some a => if Nat.eqb a v then 1 else 0 | None => 0 end) +
   (match i_rs2 x with Some a => if Nat.eqb a v then 1 else 0 | None => 0 end))%nat.
Definition use_chains (ins : nat -> insn) (code : nat -> list nat) (order : list nat) (v : nat) : list nat :=
  flat_map (fun b => flat_map (fun i => repeat i (uses_of (ins i) v)) (code b)) order.
(* src/ssa.c:1534-1553 of optimize() *)
Definition optimize_all (is_global : nat -> bool) (own : nat -> nat) (idom : tree) (fuel : nat) (order : list nat)
  (ins : nat -> insn) (code : nat -> list nat) (init : nat -> Z) : csed :=
  optimize_blocks is_global own idom fuel order
    (mkcse (mkfold ins (fun _ => false) init) code (use_chains ins code order)).
