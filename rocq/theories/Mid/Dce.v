(** Model of dead code elimination, src/ssa.c:1379-1561.
    Instructions are numbers (stand for pointers to insn_t).  The links prev and next are positions in the list of the
    block: append_unwound_phi_insn (src/ssa.c:810-839) leaves prev of an appended copy NULL, but prev is only followed here from a
    call, from a removed instruction and from a push, and none of these comes after a copy. *)
From Verif.Mid Require Export Insn Edges Dom.

(** Done; Abort: the message of src/ssa.c:1446-1449 and abort(); Overrun: a write past work_list[2047]; Null: NULL is
    dereferenced; More: out of steps *)
Inductive outcome (A : Type) := Done (a : A) | Abort | Overrun | Null | More.
Arguments Done {A} a. Arguments Abort {A}. Arguments Overrun {A}. Arguments Null {A}. Arguments More {A}.
Definition bind {A B} (x : outcome A) (f : A -> outcome B) : outcome B :=
  match x with Done a => f a | Abort => Abort | Overrun => Overrun | Null => Null | More => More end.
Notation "'do' x <- a ; b" := (bind a (fun x => b)) (at level 200, x pattern, a at level 100, b at level 200).

(** insn_t.useful, basic_block_t.useful, and work_list (last entry first) *)
Record dce := mkdce { d_useful : nat -> bool; d_block : nat -> bool; d_work : list nat }.

Section Dce.
  Variable ins : nat -> insn.               (* opcode, rd, rs1, rs2 *)
  Variable own : nat -> nat.                (* belong_to *)
  Variable code : nat -> list nat.          (* insn_list *)
  Variable is_global : nat -> bool.
  Variable last : nat -> option nat.        (* var_t.last_assign *)
  Variable rdf : nat -> list nat.           (* RDF *)
  Definition op (i : nat) : opcode := i_op (ins i).

  Definition mark (i : nat) (s : dce) : dce := mkdce (upd (d_useful s) i true) (d_block s) (d_work s).
  Definition mark_block (b : nat) (s : dce) : dce := mkdce (d_useful s) (upd (d_block s) b true) (d_work s).
  (* work_list[work_list_idx] = insn; work_list_idx++; work_list has 2048 entries *)
  Definition push (i : nat) (s : dce) : outcome dce :=
    if Nat.ltb (length (d_work s)) 2048 then Done (mkdce (d_useful s) (d_block s) (i :: d_work s)) else Overrun.
  (* src/ssa.c:1410-1415: the run of OP_push before the call; [before] = the instructions before, nearest first *)
  Fixpoint mark_pushes (before : list nat) (s : dce) : outcome dce :=
    match before with
    | [] => Done s
    | p :: r => if opcode_eq_dec (op p) OP_push then do s <- push p (mark p s); mark_pushes r s else Done s
    end.
  (* src/ssa.c:1379-1431 dce_init_mark *)
  Definition dce_init_mark (before : list nat) (i : nat) (after : list nat) (s : dce) : outcome dce :=
    match op i with
    | OP_return | OP_write | OP_address_of | OP_unwound_phi | OP_allocat =>
        push i (mark_block (own i) (mark i s))
    | OP_indirect | OP_call =>
        do s <- push i (mark_block (own i) (mark i s));
        do s <- match after with
                | n :: _ => if opcode_eq_dec (op n) OP_func_ret then push i (mark n s) else Done s
                | [] => Done s
                end;
        mark_pushes before s
    | _ =>
        match i_rd (ins i) with
        | None => Done s
        | Some v => if is_global v && negb (d_useful s i) then push i (mark_block (own i) (mark i s)) else Done s
        end
    end.
  (* src/ssa.c:1440-1450 *)
  Fixpoint dce_init (before l : list nat) (s : dce) : outcome dce :=
    match l with
    | [] => Done s
    | i :: r => do s <- dce_init_mark before i r s;
                if Nat.ltb 2047 (length (d_work s)) then Abort else dce_init (i :: before) r s
    end.
  (* src/ssa.c:1457-1464, 1465-1472: one operand *)
  Definition trace_back (o : option nat) (s : dce) : outcome dce :=
    match o with
    | None => Done s
    | Some v => match last v with
                | None => Done s
                | Some j => if d_useful s j then Done s else push j (mark_block (own j) (mark j s))
                end
    end.
  Fixpoint tail_of (l : list nat) : option nat := match l with [] => None | [i] => Some i | _ :: r => tail_of r end.
  (* src/ssa.c:1474-1485 *)
  Fixpoint mark_branches (l : list nat) (s : dce) : outcome dce :=
    match l with
    | [] => Done s
    | r :: rest =>
      match tail_of (code r) with
      | None => Null
      | Some t => if opcode_eq_dec (op t) OP_branch
                  then if d_useful s t then mark_branches rest s
                       else do s <- push t (mark_block r (mark t s)); mark_branches rest s
                  else mark_branches rest s
      end
    end.
  (* src/ssa.c:1452-1486: the loop over the work list *)
  Fixpoint dce_loop (n : nat) (s : dce) : outcome dce :=
    match n with
    | O => More
    | S n => match d_work s with
             | [] => Done s
             | curr :: w =>
               do s <- trace_back (i_rs1 (ins curr)) (mkdce (d_useful s) (d_block s) w);
               do s <- trace_back (i_rs2 (ins curr)) s;
               do s <- mark_branches (rdf (own curr)) s;
               dce_loop n s
             end
    end.
  (* src/ssa.c:1434-1487 dce_insn *)
  Definition dce_insn (n : nat) (b : nat) (s : dce) : outcome dce :=
    do s <- dce_init [] (code b) (mkdce (d_useful s) (d_block s) []); dce_loop n s.
  (* src/ssa.c:1548-1552: the blocks along rpo_next; [order] = that chain *)
  Fixpoint dce_blocks (n : nat) (order : list nat) (s : dce) : outcome dce :=
    match order with [] => Done s | b :: r => do s <- dce_insn n b s; dce_blocks n r s end.

  Variable ridom : nat -> option nat.       (* r_idom *)
  Variable exit : nat.                      (* bb->belong_to->exit *)
  (* src/ssa.c:1506-1513: while (jump_bb != exit) *)
  Fixpoint redirect (n : nat) (useful : nat -> bool) (b : nat) (jump : option nat) (g : egraph) : outcome egraph :=
    match n with
    | O => More
    | S n => match jump with
             | None => Null
             | Some j => if Nat.eqb j exit then Done g
                         else if useful j then match bb_connect g (Some b) (Some j) NEXT with Some g => Done g | None => Abort end
                         else redirect n useful b (ridom j) g
             end
    end.
  (* src/ssa.c:1502-1514: a branch that is not useful *)
  Definition drop_branch (n : nat) (useful : nat -> bool) (b : nat) (g : egraph) : outcome egraph :=
    match bb_disconnect g b (e_then g b) with
    | None => Null
    | Some g => match bb_disconnect g b (e_else g b) with
                | None => Null
                | Some g => redirect n useful b (ridom b) g
                end
    end.
  (* src/ssa.c:1493-1524: the instructions of one block; the result is what stays in the list *)
  Fixpoint sweep_insns (n : nat) (s : dce) (b : nat) (l : list nat) (g : egraph) : outcome (egraph * list nat) :=
    match l with
    | [] => Done (g, [])
    | i :: r =>
      if d_useful s i then do (g, k) <- sweep_insns n s b r g; Done (g, i :: k)
      else do g <- if opcode_eq_dec (op i) OP_branch then drop_branch n (d_block s) b g else Done g;
           sweep_insns n s b r g
    end.
  (* src/ssa.c:1489-1527 dce_sweep, one function *)
  Fixpoint dce_sweep (n : nat) (s : dce) (order : list nat) (g : egraph) (c : nat -> list nat) : outcome (egraph * (nat -> list nat)) :=
    match order with
    | [] => Done (g, c)
    | b :: r => do (g, k) <- sweep_insns n s b (c b) g; dce_sweep n s r g (upd c b k)
    end.
End Dce.

(* src/ssa.c:1535-1547: rd->last_assign = insn, for one block and for the chain.  (cse and const_folding, called in the
   same loop, leave rd alone.) *)
Definition record_block (ins : nat -> insn) (l : list nat) (last : nat -> option nat) : nat -> option nat :=
  fold_left (fun last i => match i_rd (ins i) with Some v => upd last v (Some i) | None => last end) l last.
Definition record_assign (ins : nat -> insn) (code : nat -> list nat) (order : list nat) (last : nat -> option nat) : nat -> option nat :=
  fold_left (fun last b => record_block ins (code b) last) order last.

(* src/ssa.c:1529-1561 optimize, for one function, without cse and const_folding.  (build_rdom, which fills the tree of
   post-dominators, and use_chain_build, the lists of uses, are not used by the rest.) *)
Definition eliminate (fuel sweeps steps hops : nat) (ins : nat -> insn) (own : nat -> nat) (code : nat -> list nat)
  (is_global : nat -> bool) (order : list nat) (g : egraph) (exit : nat) (V : Z) (vis : nat -> Z) (o : Cfg.order) (T : tree)
  : outcome (egraph * (nat -> list nat)) :=
  match build_reversed_rpo fuel (to_cfg g) exit V vis o with
  | None => More
  | Some (V, vis, o) =>
    match build_r_idom fuel sweeps (to_cfg g) o exit T with
    | None => More
    | Some T =>
      match build_rdf fuel (to_cfg g) T exit V vis (fun _ => []) with
      | None => Null
      | Some (_, _, rdf) =>
        do s <- dce_blocks ins own code is_global (record_assign ins code order (fun _ => None)) rdf steps order
                  (mkdce (fun _ => false) (fun _ => false) []);
        dce_sweep ins T exit hops s order g code
      end
    end
  end.
