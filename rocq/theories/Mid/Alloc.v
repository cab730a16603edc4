(** Model of the register allocator, src/reg-alloc.c:22-638, for one function.  Variables and blocks are numbers (they stand
    for pointers); a register is its index in REGS. *)
From Verif.Mid Require Export Insn.

(* src/defs.h:355-368 insn_t: the operands are in Insn.v; here sz and str (function names are numbers) *)
Record rinsn := mkr { r_insn : insn; r_sz : Z; r_str : Z }.
(* src/defs.h:185-211 var_t, type_t: what the allocator reads.  v_func: the name, if is_func; v_scalar: the type is one of
   "void", "int", "char", "_Bool"; v_tsize: the size of the type found by find_type *)
Record vars := mkvars { v_global : nat -> bool; v_func : nat -> option Z; v_init : nat -> Z; v_scalar : nat -> bool;
                        v_array : nat -> Z; v_ptr : nat -> bool; v_tsize : nat -> Z }.
(* REGS[i].var, REGS[i].polluted (src/globals.c, src/defs.h regfile_t), var->offset, func->stack_size, var->consumed,
   bb->ph2_ir_list, is_pushing_args, args *)
Record ra := mkra { a_var : nat -> option nat; a_pol : nat -> bool; a_off : nat -> Z; a_size : Z; a_cons : nat -> Z;
                    a_code : list ph2; a_push : bool; a_args : nat }.

Definition REG_CNT : nat := 8.                                        (* src/defs.h:52 *)
Definition regs : list nat := seq 0 REG_CNT.

Definition set_reg (i : nat) (v : option nat) (p : bool) (s : ra) : ra :=
  mkra (upd (a_var s) i v) (upd (a_pol s) i p) (a_off s) (a_size s) (a_cons s) (a_code s) (a_push s) (a_args s).
Definition emit (p : ph2) (s : ra) : ra :=
  mkra (a_var s) (a_pol s) (a_off s) (a_size s) (a_cons s) (a_code s ++ [p]) (a_push s) (a_args s).
Definition set_off (v : nat) (o : Z) (size : Z) (s : ra) : ra :=
  mkra (a_var s) (a_pol s) (upd (a_off s) v o) size (a_cons s) (a_code s) (a_push s) (a_args s).
Definition set_cons (v : nat) (k : Z) (s : ra) : ra :=
  mkra (a_var s) (a_pol s) (a_off s) (a_size s) (upd (a_cons s) v k) (a_code s) (a_push s) (a_args s).
Definition set_args (p : bool) (n : nat) (s : ra) : ra :=
  mkra (a_var s) (a_pol s) (a_off s) (a_size s) (a_cons s) (a_code s) p n.
(* an instruction with the fields that are set; the others are zero (arena memory is cleared) *)
Definition ir (o : opcode) (s0 s1 d : Z) : ph2 := mkph2 o s0 s1 d 0 0 0 0 false.
Definition zi (i : nat) : Z := Z.of_nat i.

(* src/reg-alloc.c:22-25 align_size *)
Definition align_size (i : Z) : Z := if i <=? 4 then 4 else Z.land (i + 3) (Z.lnot 3).

Section Alloc.
  Variable V : vars.
  Variable live_out : nat -> list nat.             (* bb->live_out *)
  Variable killed : nat -> nat -> bool.            (* var_check_killed(var, bb), src/ssa.c:452-459 *)
  Variable arity : Z -> Z.                         (* find_func(name)->num_params *)
  Variable next : nat -> option nat.               (* bb->next, then_, else_ *)
  Variables then_ else_ : nat -> option nat.

  (* src/reg-alloc.c:27-34 check_live_out *)
  Definition check_live_out (b v : nat) : bool := mem v (live_out b).
  (* src/reg-alloc.c:36-48 refresh *)
  Definition refresh_reg (b : nat) (idx : Z) (s : ra) (i : nat) : ra :=
    match a_var s i with
    | None => s
    | Some v => if check_live_out b v then s else if a_cons s v <? idx then set_reg i None false s else s
    end.
  Definition refresh (b : nat) (idx : Z) (s : ra) : ra := fold_left (refresh_reg b idx) regs s.

  (* src/reg-alloc.c:75-78, 351-354, 411-413: "if (!var->offset) ..." *)
  Definition give_slot (v : nat) (s : ra) : ra :=
    if a_off s v =? 0 then set_off v (a_size s) (a_size s + 4) s else s.
  (* src/reg-alloc.c:68-85 spill_var *)
  Definition spill_var (v i : nat) (s : ra) : ra :=
    if negb (a_pol s i) then set_reg i None false s
    else let s := give_slot v s in
         set_reg i None false
           (emit (ir (if v_global V v then OP_global_store else OP_store) (zi i) (a_off s v) 0) s).
  Definition holds (s : ra) (v i : nat) : bool := match a_var s i with Some u => Nat.eqb u v | None => false end.
  Definition is_free (s : ra) (i : nat) : bool := match a_var s i with None => true | Some _ => false end.
  (* src/reg-alloc.c:88-95 find_in_regs *)
  Definition find_in_regs (v : nat) (s : ra) : option nat := find (holds s v) regs.
  (* src/reg-alloc.c:113-118, 153-159: the first register without variable *)
  Definition find_free (s : ra) : option nat := find (is_free s) regs.
  (* src/reg-alloc.c:97-105 load_var *)
  Definition load_var (v i : nat) (s : ra) : ra :=
    set_reg i (Some v) false
      (emit (ir (if v_global V v then OP_global_load else OP_load) (a_off s v) 0 (zi i)) s).
  Definition is_op (o : option nat) (i : nat) : bool := match o with Some j => Nat.eqb i j | None => false end.
  (* src/reg-alloc.c:120-128, 161-172: the first register with a live-out variable, other than the operands *)
  Definition find_live (b : nat) (o0 o1 : option nat) (s : ra) : option nat :=
    find (fun i => negb (is_op o0 i) && negb (is_op o1 i) &&
                   match a_var s i with Some v => check_live_out b v | None => false end) regs.
  Definition last_use (s : ra) (i : nat) : Z := match a_var s i with Some v => a_cons s v | None => 0 end.
  (* src/reg-alloc.c:130-137 (no operand is skipped), 174-185 *)
  Definition farthest (o0 o1 : option nat) (s : ra) : nat :=
    fold_left (fun sp i => if is_op o0 i || is_op o1 i || is_free s i then sp
                           else if last_use s sp <? last_use s i then i else sp) regs 0%nat.
  Definition spill_reg (i : nat) (s : ra) : ra := match a_var s i with Some v => spill_var v i s | None => s end.
  (* src/reg-alloc.c:107-143 prepare_operand *)
  Definition prepare_operand (b v : nat) (o0 : option nat) (s : ra) : nat * ra :=
    match find_in_regs v s with
    | Some i => (i, s)
    | None =>
        match find_free s with
        | Some i => (i, load_var v i s)
        | None =>
            let i := match find_live b o0 None s with Some i => i | None => farthest None None s end in
            (i, load_var v i (spill_reg i s))
        end
    end.
  (* src/reg-alloc.c:145-192 prepare_dest *)
  Definition prepare_dest (b v : nat) (o0 o1 : option nat) (s : ra) : nat * ra :=
    match find_in_regs v s with
    | Some i => (i, set_reg i (Some v) true s)
    | None =>
        match find_free s with
        | Some i => (i, set_reg i (Some v) true s)
        | None =>
            let i := match find_live b o0 o1 s with Some i => i | None => farthest o0 o1 s end in
            (i, set_reg i (Some v) true (spill_reg i s))
        end
    end.
  (* src/reg-alloc.c:194-208 spill_alive *)
  Definition spill_alive_reg (b : nat) (idx : Z) (s : ra) (i : nat) : ra :=
    match a_var s i with
    | None => s
    | Some v => if check_live_out b v then spill_var v i s else if idx <? a_cons s v then spill_var v i s else s
    end.
  Definition spill_alive (b : nat) (idx : Z) (s : ra) : ra := fold_left (spill_alive_reg b idx) regs s.
  (* src/reg-alloc.c:210-227 spill_live_out *)
  Definition spill_out_reg (b : nat) (s : ra) (i : nat) : ra :=
    match a_var s i with
    | None => s
    | Some v => if negb (check_live_out b v) then set_reg i None false s
                else if negb (killed v b) then set_reg i None false s
                else spill_var v i s
    end.
  Definition spill_live_out (b : nat) (s : ra) : ra := fold_left (spill_out_reg b) regs s.
  (* src/reg-alloc.c:229-236 extend_liveness *)
  Definition extend_liveness (b : nat) (idx : Z) (v : nat) (sz : Z) (s : ra) : ra :=
    if check_live_out b v then s else if a_cons s v <? idx + sz then set_cons v (idx + sz) s else s.

  (* src/reg-alloc.c:361-366: the declarations that need no storage of their own *)
  Definition no_storage (v : nat) : bool := v_scalar V v && (v_array V v =? 0).
  (* src/reg-alloc.c:400-405, 451-456: "store global variable immediately after assignment" *)
  Definition store_global (v dest : nat) (s : ra) : ra :=
    if v_global V v then set_reg dest (a_var s dest) false (emit (ir OP_global_store (zi dest) (a_off s v) 0) s) else s.

  (* src/reg-alloc.c:347-597: one instruction, after the call to refresh; None: abort(), or an operand that is NULL *)
  Definition alloc_core (b : nat) (idx : Z) (i : rinsn) (s : ra) : option ra :=
    let n := r_insn i in
    match i_op n, i_rd n, i_rs1 n, i_rs2 n with
    | OP_unwound_phi, Some d, Some x, _ =>
        let '(r0, s) := prepare_operand b x None s in
        let s := give_slot d s in
        Some (emit (ir OP_store (zi r0) (a_off s d) 0) s)
    | OP_allocat, Some d, _, _ =>
        if no_storage d then Some s
        else
          let slot := a_size s in
          let sz := if v_ptr V d then 4 else v_tsize V d in
          let s := set_off d slot (slot + 4 + (if v_array V d =? 0 then align_size sz else align_size (v_array V d * sz))) s in
          let '(r, s) := prepare_dest b d None None s in
          Some (emit (ir OP_address_of (slot + 4) 0 (zi r)) s)
    | (OP_load_constant | OP_load_data_address) as o, Some d, _, _ =>
        if a_cons s d =? -1 then Some s
        else let '(r, s) := prepare_dest b d None None s in
             Some (store_global d r (emit (ir o (v_init V d) 0 (zi r)) s))
    | OP_address_of, Some d, Some x, _ =>
        let s := if a_off s x =? 0 then
                   let s := give_slot x s in
                   fold_left (fun s i => if holds s x i then emit (ir OP_store (zi i) (a_off s x) 0) s else s) regs s
                 else s in
        let '(r, s) := prepare_dest b d None None s in
        Some (emit (ir (if v_global V x then OP_global_address_of else OP_address_of) (a_off s x) 0 (zi r)) s)
    | OP_assign, Some d, Some x, _ =>
        if a_cons s d =? -1 then Some s
        else
          let '(r0, s0, clear) := match find_in_regs x s with
                                  | Some r => (r, s, false)
                                  | None => let '(r, s) := prepare_operand b x None s in (r, s, true)
                                  end in
          let '(r, s1) := prepare_dest b d (Some r0) None s0 in
          let s2 := store_global d r (emit (ir OP_assign (zi r0) 0 (zi r)) s1) in
          Some (if (clear : bool) then set_reg r0 None (a_pol s2 r0) s2 else s2)
    | OP_read, Some d, Some x, _ =>
        let '(r0, s) := prepare_operand b x None s in
        let '(r, s) := prepare_dest b d (Some r0) None s in
        Some (emit (ir OP_read (zi r0) (r_sz i) (zi r)) s)
    | OP_write, _, Some x, Some y =>
        match v_func V y with
        | Some f => let '(r0, s) := prepare_operand b x None s in
                    Some (emit (mkph2 OP_address_of_func (zi r0) 0 0 f 0 0 0 false) s)
        | None => let s := spill_alive b idx s in
                  let '(r0, s) := prepare_operand b x None s in
                  let '(r1, s) := prepare_operand b y (Some r0) s in
                  Some (emit (ir OP_write (zi r0) (zi r1) (r_sz i)) s)
        end
    | OP_branch, _, Some x, _ =>
        let '(r0, s) := prepare_operand b x None s in
        let s := spill_live_out b s in
        match then_ b, else_ b with
        | Some t, Some e => Some (emit (mkph2 OP_branch (zi r0) 0 0 0 0 (zi t) (zi e) false) s)
        | _, _ => None
        end
    | OP_push, _, Some x, _ =>
        let s := extend_liveness b idx x (r_sz i) s in
        let s := if a_push s then s else set_args true (a_args s) (spill_alive b idx s) in
        let '(r0, s) := prepare_operand b x None s in
        let d := a_args s in
        let s := set_args (a_push s) (S d) (emit (ir OP_assign (zi r0) 0 (zi d)) s) in
        if (d <? REG_CNT)%nat then Some (set_reg d (Some x) false s) else None
    | OP_call, _, _, _ =>
        let s := if arity (r_str i) =? 0 then spill_alive b idx s else s in
        let s := emit (mkph2 OP_call 0 0 0 (r_str i) 0 0 0 false) s in
        let s := set_args false 0 s in
        Some (fold_left (fun s i => set_reg i None (a_pol s i) s) regs s)
    | OP_indirect, _, Some x, _ =>
        let s := if Nat.eqb (a_args s) 0 then spill_alive b idx s else s in
        let '(r0, s) := prepare_operand b x None s in
        Some (set_args false 0 (emit (ir OP_indirect 0 0 0) (emit (ir OP_load_func (zi r0) 0 0) s)))
    | OP_func_ret, Some d, _, _ =>
        let '(r, s) := prepare_dest b d None None s in
        Some (emit (ir OP_assign 0 0 (zi r)) s)
    | OP_return, _, Some x, _ =>
        let '(r0, s) := prepare_operand b x None s in Some (emit (ir OP_return (zi r0) 0 0) s)
    | OP_return, _, None, _ => Some (emit (ir OP_return (-1) 0 0) s)
    | (OP_add | OP_sub | OP_mul | OP_div | OP_mod | OP_lshift | OP_rshift | OP_eq | OP_neq | OP_gt | OP_geq | OP_lt
      | OP_leq | OP_bit_and | OP_bit_or | OP_bit_xor) as o, Some d, Some x, Some y =>
        let '(r0, s) := prepare_operand b x None s in
        let '(r1, s) := prepare_operand b y (Some r0) s in
        let '(r, s) := prepare_dest b d (Some r0) (Some r1) s in
        Some (emit (ir o (zi r0) (zi r1) (zi r)) s)
    | (OP_negate | OP_bit_not | OP_log_not) as o, Some d, Some x, _ =>
        let '(r0, s) := prepare_operand b x None s in
        let '(r, s) := prepare_dest b d (Some r0) None s in
        Some (emit (ir o (zi r0) 0 (zi r)) s)
    | _, _, _, _ => None
    end.
  (* src/reg-alloc.c:345-597: one instruction *)
  Definition alloc_insn (b : nat) (idx : Z) (i : rinsn) (s : ra) : option ra := alloc_core b idx i (refresh b idx s).
  Fixpoint alloc_insns (b : nat) (idx : Z) (l : list rinsn) (s : ra) : option ra :=
    match l with
    | [] => Some s
    | i :: r => match alloc_insn b idx i s with None => None | Some s => alloc_insns b (idx + 1) r s end
    end.

  Variable rpo : nat -> Z.                         (* bb->rpo *)
  Variable exit : nat.                             (* fn->exit *)
  (* src/reg-alloc.c:600-618: the end of a block.  Simplified: next->visited == fn->visited is "already visited by this loop" *)
  Definition finish_block (done : list nat) (b : nat) (s : ra) : ra :=
    match next b with
    | None => s
    | Some c =>
        let s := spill_live_out b s in
        if Nat.eqb b exit then s else if Nat.eqb c exit then s
        else if mem c done || negb (rpo c =? rpo b + 1)
             then emit (mkph2 OP_jump 0 0 0 0 (zi c) 0 0 false) s else s
    end.
  Variable code : nat -> list rinsn.               (* bb->insn_list *)
  (* src/reg-alloc.c:335-619: one block, with the code already in bb->ph2_ir_list *)
  Definition alloc_block (done : list nat) (b : nat) (pre : list ph2) (s : ra) : option ra :=
    let s := mkra (a_var s) (a_pol s) (a_off s) (a_size s) (a_cons s) pre false 0 in
    match alloc_insns b 0 (code b) s with
    | None => None
    | Some s => Some (finish_block (b :: done) b s)
    end.
  (* src/reg-alloc.c:334: the loop along rpo_next *)
  Fixpoint alloc_blocks (done : list nat) (order : list nat) (pre : list ph2) (s : ra) : option (list (nat * list ph2) * ra) :=
    match order with
    | [] => Some ([], s)
    | b :: r => match alloc_block done b pre s with
                | None => None
                | Some s => match alloc_blocks (b :: done) r [] s with
                            | None => None
                            | Some (l, s') => Some ((b, a_code s) :: l, s')
                            end
                end
    end.

  Variable exit_prev : list nat.                   (* the non-NULL exit->prev[i].bb *)
  Variable void : bool.                            (* the function returns void *)
  Definition ends_in_return (b : nat) : bool :=
    match rev (code b) with i :: _ => op_is (r_insn i) OP_return | [] => false end.
  (* src/reg-alloc.c:621-636: implicit returns *)
  Definition add_return (l : list (nat * list ph2)) (b : nat) : list (nat * list ph2) :=
    if negb void || ends_in_return b then l
    else map (fun p => if Nat.eqb (fst p) b then (fst p, snd p ++ [ir OP_return (-1) 0 0]) else p) l.
  Variable params : list nat.                      (* param_defs[i].subscripts[0] *)
  (* src/reg-alloc.c:310-317: registers at the start of a function *)
  Definition start_regs (s : ra) : ra :=
    let s := fold_left (fun s i => set_reg i None (a_pol s i) s) regs s in
    fold_left (fun s p => set_reg (fst p) (Some (snd p)) true s) (combine (seq 0 (length params)) params) s.
  Variable va_args : bool.
  (* src/reg-alloc.c:319-332: variadic functions *)
  Definition store_params (s : ra) : ra :=
    if va_args then
      fold_left (fun s i =>
        let s := match nth_error params i with Some v => set_off v (a_size s) (a_size s) s | None => s end in
        let s := emit (ir OP_store (zi i) (a_size s) 0) s in
        mkra (a_var s) (a_pol s) (a_off s) (a_size s + 4) (a_cons s) (a_code s) (a_push s) (a_args s)) regs s
    else s.
  (* src/reg-alloc.c:304-637: one function; [order] is the rpo_next chain from fn->bbs *)
  Definition alloc_func (order : list nat) (s : ra) : option (list (nat * list ph2) * ra) :=
    let s := store_params (start_regs (mkra (a_var s) (a_pol s) (a_off s) (a_size s) (a_cons s) [] false 0)) in
    match alloc_blocks [] order (a_code s) s with
    | None => None
    | Some (l, s) => Some (fold_left add_return exit_prev l, s)
    end.
End Alloc.
