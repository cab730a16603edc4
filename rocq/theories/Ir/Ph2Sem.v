(** Meaning of a phase-2 IR program: a reference interpreter, independent of the
    back ends.  Eight virtual registers (possibly undefined), a stack pointer,
    a globals pointer, byte memory, and an abstract stack of return points.

    Undefined behaviour (division by zero, shift amounts outside 0..31, use of an
    undefined register, writing into the code image, overwriting a saved return
    address, falling off the end of a function ...) is the outcome [UB]. *)
From Verif.Base Require Export Os.
From Verif.Ir Require Export Ph2.

Inductive point :=
| PInit (k : nat)            (* k-th instruction of the global initialiser *)
| PFun (f b k : nat)         (* k-th instruction of block b of function f *)
| PExit.                     (* after main *)

Inductive callee := CSys | CFun (f : nat).

(** Where things are in memory; what the semantics may rely on is only that
    these are fixed numbers. *)
Record layout := mklayout {
  l_code : Z; l_code_end : Z;       (* code image occupies [l_code, l_code_end) *)
  l_data : Z;                       (* address of the data section *)
  l_faddr : callee -> Z;            (* address of a function *)
  l_link : point -> Z }.            (* the word that denotes a return point *)

(** Target conventions visible to programs. *)
Record conv := mkconv {
  c_slot : Z -> Z;                  (* frame size -> offset of the return-address word *)
  c_char : Z -> Z;                  (* value of a loaded char (byte) *)
  c_exit : Z;                       (* system call number of exit *)
  (* words an operator leaves below the stack pointer, as (offset, value); given the
     instruction and its two operand values *)
  c_spill : ph2 -> Z -> Z -> list (Z * Z) }.

Definition apply_spill (m : mem) (sp : Z) (l : list (Z * Z)) : mem :=
  fold_left (fun m ov => stw m (sp + fst ov) (snd ov)) l m.

Record st := mkst {
  s_pt : point; s_reg : Z -> option Z; s_sp : Z; s_mem : mem;
  s_stk : list point; s_latch : option Z }.

Inductive res := Ok (t : list (Z * list Z)) (s : st)
               | Halt (t : list (Z * list Z))
               | UB.

Definition rg (s : st) (i : Z) : option Z :=
  if (0 <=? i) && (i <? 8) then s_reg s i else None.
Definition rset (r : Z -> option Z) (i v : Z) : Z -> option Z :=
  fun q => if q =? i then Some (w32 v) else r q.

(** C semantics of the binary operators on [int] values. *)
Definition c_binop (o : opcode) (a b : Z) : option Z :=
  match o with
  | OP_add => Some (a + b)
  | OP_sub => Some (a - b)
  | OP_mul => Some (a * b)
  | OP_div => if b =? 0 then None else Some (Z.quot a b)
  | OP_mod => if b =? 0 then None else Some (Z.rem a b)
  | OP_lshift => if (0 <=? b) && (b <? 32) then Some (a * 2 ^ b) else None
  | OP_rshift => if (0 <=? b) && (b <? 32) then Some (a / 2 ^ b) else None
  | OP_eq => Some (if a =? b then 1 else 0)
  | OP_neq => Some (if a =? b then 0 else 1)
  | OP_lt => Some (if a <? b then 1 else 0)
  | OP_leq => Some (if a <=? b then 1 else 0)
  | OP_gt => Some (if b <? a then 1 else 0)
  | OP_geq => Some (if b <=? a then 1 else 0)
  | OP_bit_and => Some (Z.land a b)
  | OP_bit_or => Some (Z.lor a b)
  | OP_bit_xor => Some (Z.lxor a b)
  | _ => None
  end.

Definition c_unop (o : opcode) (a : Z) : option Z :=
  match o with
  | OP_negate => Some (- a)
  | OP_bit_not => Some (Z.lnot a)
  | OP_log_not => Some (if a =? 0 then 1 else 0)
  | _ => None
  end.

(** function names, block ids *)
Definition is_some {A} (o : option A) : bool := match o with Some _ => true | None => false end.

Fixpoint find_idx {A} (P : A -> bool) (l : list A) : option nat :=
  match l with
  | [] => None
  | x :: r => if P x then Some O else option_map S (find_idx P r)
  end.

Definition callee_of (p : program) (name : Z) : option callee :=
  if name =? p_sysname p then Some CSys
  else option_map CFun (find_idx (fun f => f_name f =? name) (p_funcs p)).

(** the function and block position of a block id *)
Definition find_block (p : program) (id : Z) : option (nat * nat) :=
  match find_idx (fun f => is_some (find_idx (fun b => b_id b =? id) (f_blocks f))) (p_funcs p) with
  | None => None
  | Some fi =>
      match nth_error (p_funcs p) fi with
      | None => None
      | Some f => option_map (pair fi) (find_idx (fun b => b_id b =? id) (f_blocks f))
      end
  end.

Definition touches_code (L : layout) (a n : Z) : bool :=
  existsb (fun d => (l_code L <=? w32 (a + d)) && (w32 (a + d) <? l_code_end L))
          (map Z.of_nat (seq 0 (Z.to_nat n))).

Section Sem.
  Variable p : program.
  Variable L : layout.
  Variable C : conv.
  Variable os : osspec.
  Variable gp : Z.

  (** the memory [m'] leaves the code image alone *)
  Variable code_kept : mem -> bool.

  Definition jump_to (s : st) (id : Z) : res :=
    match find_block p id with
    | Some (f, b) =>
        (* the entry block can only be entered by a call *)
        if (b =? 0)%nat then UB
        else Ok [] (mkst (PFun f b 0) (s_reg s) (s_sp s) (s_mem s) (s_stk s) None)
    | None => UB
    end.

  (** transfer to callee [c] with return point [ret] *)
  Definition enter (s : st) (c : callee) (ret : point) : res :=
    match c with
    | CFun f =>
        match nth_error (p_funcs p) f with
        | None => UB
        | Some fn =>
            let sp' := w32 (s_sp s - (f_stack fn + 4)) in
            let a := sp' + c_slot C (f_stack fn) in
            if touches_code L a 4 then UB
            else Ok [] (mkst (PFun f 0 0) (s_reg s) sp' (stw (s_mem s) a (l_link L ret))
                             (ret :: s_stk s) None)
        end
    | CSys =>
        match rg s 0 with
        | None => UB
        | Some num =>
            let n := os_nargs os num in
            if (n <=? 6)%nat then
              let args := map (rg s) [1; 2; 3; 4; 5; 6] in
              let used := firstn n args in
              if forallb is_some used then
                let vals := map (fun o => match o with Some v => v | None => 0 end) used in
                match os_call os num vals (s_mem s) with
                | None => Halt [(num, vals)]
                | Some (r, m') =>
                    if code_kept m' then
                      Ok [(num, vals)]
                         (mkst ret (fun q => if q =? 0 then Some (w32 r) else None)
                               (s_sp s) m' (s_stk s) None)
                    else UB
                end
              else UB
            else UB
        end
    end.

  (** execute instruction [i]; [nxt] is the point after it *)
  Definition exec (s : st) (i : ph2) (nxt : point) : res :=
    let def v := Ok [] (mkst nxt (rset (s_reg s) (p_dest i) v) (s_sp s) (s_mem s) (s_stk s) None) in
    let setmem m := Ok [] (mkst nxt (s_reg s) (s_sp s) m (s_stk s) None) in
    let dst_ok := (0 <=? p_dest i) && (p_dest i <? 8) in
    match p_op i with
    | OP_load_constant => if dst_ok then def (p_src0 i) else UB
    | OP_load_data_address => if dst_ok then def (l_data L + p_src0 i) else UB
    | OP_address_of => if dst_ok then def (s_sp s + p_src0 i) else UB
    | OP_global_address_of => if dst_ok then def (gp + p_src0 i) else UB
    | OP_assign =>
        match rg s (p_src0 i) with
        | Some a => if dst_ok then def a else UB
        | None => UB end
    | OP_load => if dst_ok then def (ldw (s_mem s) (s_sp s + p_src0 i)) else UB
    | OP_global_load => if dst_ok then def (ldw (s_mem s) (gp + p_src0 i)) else UB
    | OP_store =>
        match rg s (p_src0 i) with
        | Some a => if touches_code L (s_sp s + p_src1 i) 4 then UB
                    else setmem (stw (s_mem s) (s_sp s + p_src1 i) a)
        | None => UB end
    | OP_global_store =>
        match rg s (p_src0 i) with
        | Some a => if touches_code L (gp + p_src1 i) 4 then UB
                    else setmem (stw (s_mem s) (gp + p_src1 i) a)
        | None => UB end
    | OP_read =>
        match rg s (p_src0 i) with
        | Some a =>
            if dst_ok then
              if p_src1 i =? 1 then def (c_char C (ldb (s_mem s) a))
              else if p_src1 i =? 4 then def (ldw (s_mem s) a) else UB
            else UB
        | None => UB end
    | OP_write =>
        match rg s (p_src0 i), rg s (p_src1 i) with
        | Some a, Some v =>
            if p_dest i =? 1 then
              if touches_code L a 1 then UB else setmem (stb (s_mem s) a v)
            else if p_dest i =? 4 then
              if touches_code L a 4 then UB else setmem (stw (s_mem s) a v)
            else UB
        | _, _ => UB end
    | OP_branch =>
        match rg s (p_src0 i) with
        | Some a => if a =? 0 then jump_to s (p_else i) else jump_to s (p_then i)
        | None => UB end
    | OP_jump => jump_to s (p_next i)
    | OP_call =>
        match callee_of p (p_func i) with
        | Some c => enter s c nxt
        | None => UB end
    | OP_address_of_func =>
        match rg s (p_src0 i), callee_of p (p_func i) with
        | Some a, Some c => if touches_code L a 4 then UB
                            else setmem (stw (s_mem s) a (l_faddr L c))
        | _, _ => UB end
    | OP_load_func =>
        match rg s (p_src0 i) with
        | Some a => Ok [] (mkst nxt (s_reg s) (s_sp s) (s_mem s) (s_stk s) (Some a))
        | None => UB end
    | OP_indirect =>
        match s_latch s with
        | Some a =>
            if a =? w32 (l_faddr L CSys) then enter s CSys nxt
            else match find_idx (fun f => a =? w32 (l_faddr L (CFun f)))
                                (seq 0 (length (p_funcs p))) with
                 | Some f => enter s (CFun f) nxt
                 | None => UB end
        | None => UB end
    | OP_return =>
        match s_pt s, s_stk s with
        | PFun f _ _, ret :: r =>
            match nth_error (p_funcs p) f with
            | Some fn =>
                if ldw (s_mem s) (s_sp s + c_slot C (f_stack fn)) =? w32 (l_link L ret) then
                  let fin rs := Ok [] (mkst ret rs (w32 (s_sp s + (f_stack fn + 4)))
                                            (s_mem s) r None) in
                  if p_src0 i =? -1 then fin (s_reg s)
                  else match rg s (p_src0 i) with
                       | Some v => fin (rset (s_reg s) 0 v)
                       | None => UB end
                else UB
            | None => UB end
        | _, _ => UB end
    | o =>
        match rg s (p_src0 i) with
        | None => UB
        | Some a =>
            if dst_ok then
              match c_unop o (s32 a) with
              | Some v => def v
              | None =>
                  match rg s (p_src1 i) with
                  | Some b =>
                      let sl := c_spill C i a b in
                      if existsb (fun ov => touches_code L (s_sp s + fst ov) 4) sl then UB
                      else match c_binop o (s32 a) (s32 b) with
                           | Some v => Ok [] (mkst nxt (rset (s_reg s) (p_dest i) v) (s_sp s)
                                                (apply_spill (s_mem s) (s_sp s) sl) (s_stk s) None)
                           | None => UB end
                  | None => UB end
              end
            else UB
        end
    end.

  Definition step (s : st) : res :=
    match s_pt s with
    | PExit =>
        match rg s 0 with
        | Some v => Halt [(c_exit C, [v])]
        | None => UB end
    | PInit k =>
        match nth_error (g_insns p) k with
        | Some i =>
            match p_op i with
            | OP_call | OP_indirect | OP_return | OP_branch | OP_jump => UB
            | _ => exec s i (PInit (S k))
            end
        | None =>
            if (k =? length (g_insns p))%nat then
              (* argc and argv lie above the globals *)
              match find_block p (p_mainbb p) with
              | Some (f, O) =>
                  let r1 := rset (s_reg s) 0 (ldw (s_mem s) (gp + g_stack p)) in
                  let r2 := rset r1 1 (gp + g_stack p + 4) in
                  enter (mkst (s_pt s) r2 (s_sp s) (s_mem s) (s_stk s) None) (CFun f) PExit
              | _ => UB
              end
            else UB
        end
    | PFun f b k =>
        match nth_error (p_funcs p) f with
        | None => UB
        | Some fn =>
            match nth_error (f_blocks fn) b with
            | None => UB
            | Some bl =>
                match nth_error (b_insns bl) k with
                | Some i => exec s i (PFun f b (S k))
                | None =>
                    if (k =? length (b_insns bl))%nat then
                      (* fall through to the next block *)
                      match nth_error (f_blocks fn) (S b) with
                      | Some _ => Ok [] (mkst (PFun f (S b) 0) (s_reg s) (s_sp s) (s_mem s)
                                              (s_stk s) (s_latch s))
                      | None => UB end
                    else UB
                end
            end
        end
    end.

  (** n steps; the trace of system calls and where we are *)
  Fixpoint run (n : nat) (s : st) : res :=
    match n with
    | O => Ok [] s
    | S n' =>
        match step s with
        | Ok t s' => match run n' s' with
                     | Ok t' s'' => Ok (t ++ t') s''
                     | Halt t' => Halt (t ++ t')
                     | UB => UB end
        | Halt t => Halt t
        | UB => UB
        end
    end.
End Sem.

(** initial state: the loader gives sp0; globals live below it *)
Definition init_st (p : program) (sp0 : Z) (m : mem) : st :=
  mkst (PInit 0) (fun _ => None) (w32 (sp0 - g_stack p)) m [] None.
