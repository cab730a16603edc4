(** Model of constant folding, src/ssa.c:1301-1377, and of the loop that calls it, src/ssa.c:1538-1552 (without cse).
    Instructions and variables are numbers (stand for pointers); prev is the position in the list of the block. *)
From Verif.Base Require Export Int32.
From Verif.Mid Require Export Insn.

(** the fields the passes change: insn_t (opcode, rs1, rs2), var_t.is_const, var_t.init_val *)
Record folding := mkfold { fo_ins : nat -> insn; fo_const : nat -> bool; fo_init : nat -> Z }.
(** Folded: the result of the function in C and the new state; FNull: NULL is dereferenced; FTrap: the division of the host
    machine traps (by zero, or INT_MIN by -1, which C leaves undefined) *)
Inductive folded := Folded (changed : bool) (s : folding) | FNull | FTrap.

Section Fold.
  Variable is_global : nat -> bool.
  (* src/ssa.c:1301-1330 mark_const *)
  Definition mark_const (prev : option nat) (i : nat) (s : folding) : folded :=
    let x := fo_ins s i in
    match i_op x with
    | OP_load_constant =>
        match i_rd x with
        | None => FNull
        | Some d => Folded false (mkfold (fo_ins s) (upd (fo_const s) d true) (fo_init s))
        end
    | OP_assign =>
        match i_rd x with
        | None => FNull
        | Some d =>
          if is_global d then Folded false s
          else match i_rs1 x with
               | None => FNull
               | Some a =>
                 if fo_const s a ||
                    match prev with
                    | None => false
                    | Some p => op_is (fo_ins s p) OP_load_constant &&
                                match i_rd (fo_ins s p) with Some e => Nat.eqb a e | None => false end
                    end
                 then Folded true (mkfold (upd (fo_ins s) i (mkinsn OP_load_constant (Some d) None (i_rs2 x)))
                                          (upd (fo_const s) d true) (upd (fo_init s) d (fo_init s a)))
                 else Folded false s
               end
        end
    | _ => Folded false s
    end.
  (* src/ssa.c:1345-1363: the switch.  None: default; Some None: the host traps *)
  Definition fold_arith (o : opcode) (l r : Z) : option (option Z) :=
    let divides := negb (r =? 0) && negb ((l =? -2147483648) && (r =? -1)) in
    match o with
    | OP_add => Some (Some (iadd l r))
    | OP_sub => Some (Some (isub l r))
    | OP_mul => Some (Some (imul l r))
    | OP_div => Some (if divides then Some (wrap (Z.quot l r)) else None)
    | OP_mod => Some (if divides then Some (wrap (Z.rem l r)) else None)
    | _ => None
    end.
  (* src/ssa.c:1332-1369 eval_const_arithmetic *)
  Definition eval_const_arithmetic (i : nat) (s : folding) : folded :=
    let x := fo_ins s i in
    match i_rs1 x, i_rs2 x with
    | Some a, Some b =>
      if fo_const s a && fo_const s b then
        match fold_arith (i_op x) (fo_init s a) (fo_init s b) with
        | None => Folded false s
        | Some None => FTrap
        | Some (Some res) =>
          match i_rd x with
          | None => FNull
          | Some d => Folded true (mkfold (upd (fo_ins s) i (mkinsn OP_load_constant (Some d) None None))
                                          (upd (fo_const s) d true) (upd (fo_init s) d res))
          end
        end
      else Folded false s
    | _, _ => Folded false s
    end.
  (* src/ssa.c:1371-1377 const_folding *)
  Definition const_folding (prev : option nat) (i : nat) (s : folding) : folded :=
    match mark_const prev i s with
    | Folded false s => eval_const_arithmetic i s
    | r => r
    end.
  (* src/ssa.c:1541-1550: the instructions of a block *)
  Fixpoint fold_block (prev : option nat) (l : list nat) (s : folding) : folded :=
    match l with
    | [] => Folded false s
    | i :: r => match const_folding prev i s with
                | Folded _ s => fold_block (Some i) r s
                | x => x
                end
    end.
  (* src/ssa.c:1539-1551: the blocks along rpo_next *)
  Fixpoint fold_blocks (code : nat -> list nat) (order : list nat) (s : folding) : folded :=
    match order with
    | [] => Folded false s
    | b :: r => match fold_block None (code b) s with
                | Folded _ s => fold_blocks code r s
                | x => x
                end
    end.
End Fold.
