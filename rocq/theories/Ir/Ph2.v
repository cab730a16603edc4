(** Syntax of the low-level IR ("phase 2") and the layout pass shared by both
    back ends: src/defs.h, src/globals.c (add_ph2_ir, add_existed_ph2_ir),
    cfg_flatten and code_generate of src/{riscv,arm}-codegen.c. *)
From Verif.Base Require Export Int32 Mem.

(* src/defs.h:91-157 opcode_t *)
Inductive opcode :=
| OP_generic | OP_phi | OP_unwound_phi | OP_define | OP_push | OP_call
| OP_indirect | OP_return | OP_allocat | OP_assign | OP_load_constant
| OP_load_data_address | OP_label | OP_branch | OP_jump | OP_func_ret
| OP_block_start | OP_block_end | OP_address_of_func | OP_load_func
| OP_global_load_func | OP_address_of | OP_global_address_of | OP_load
| OP_global_load | OP_store | OP_global_store | OP_read | OP_write
| OP_add | OP_sub | OP_mul | OP_div | OP_mod | OP_ternary | OP_lshift
| OP_rshift | OP_log_and | OP_log_or | OP_log_not | OP_eq | OP_neq | OP_lt
| OP_leq | OP_gt | OP_geq | OP_bit_or | OP_bit_and | OP_bit_xor | OP_bit_not
| OP_negate | OP_start.

Scheme Equality for opcode.

(* src/defs.h: struct ph2_ir.  Function names and basic blocks are represented
   by numbers (pointer identity / string identity); the list link [next] is
   represented by list position. *)
Record ph2 := mkph2 {
  p_op : opcode; p_src0 : Z; p_src1 : Z; p_dest : Z;
  p_func : Z; p_next : Z; p_then : Z; p_else : Z; p_det : bool }.

(* src/defs.h: struct basic_block, the part the back end reads *)
Record block := mkblock { b_id : Z; b_insns : list ph2 }.
(* src/defs.h: func_t/fn_t, the part the back end reads; [f_blocks] is the
   rpo_next chain starting at fn->bbs *)
Record func := mkfunc { f_name : Z; f_stack : Z; f_blocks : list block }.
(* src/globals.c: GLOBAL_FUNC, FUNC_LIST, MAIN_BB; src/parser.c:3367-3377
   creates __syscall's block and GLOBAL_FUNC's block *)
Record program := mkprog {
  g_insns : list ph2; g_stack : Z; g_bb : Z;
  p_funcs : list func; p_mainbb : Z; p_sysname : Z; p_sysbb : Z }.

(* what emit_ph2_ir reads from global state *)
Record env := mkenv {
  e_bb : Z -> Z;             (* bb->elf_offset *)
  e_fn : Z -> option Z;      (* find_func(name)->fn->bbs->elf_offset *)
  e_code : Z;                (* elf_code_start *)
  e_data : Z;                (* elf_data_start *)
  e_hard : bool }.           (* hard_mul_div *)

(** A back end: the functions that differ between riscv-codegen.c and
    arm-codegen.c. *)
Record target := mktarget {
  t_size : bool -> ph2 -> option Z;             (* update_elf_offset; None = abort *)
  t_emit : env -> Z -> ph2 -> option (list Z);  (* emit_ph2_ir at elf_code_idx *)
  t_stubs : env -> Z -> Z -> option (list Z);   (* start/exit/syscall: gstack, global offset *)
  t_prelude : env -> Z -> Z -> Z -> option (list Z); (* elf_code_idx, gstack, main offset *)
  t_sysofs : Z; t_globofs : Z;
  t_detach : bool }.          (* arm-codegen.c:166-170 marks detached branches *)

Definition upd (f : Z -> Z) (k v : Z) : Z -> Z := fun x => if x =? k then v else f x.

Definition define_ir (stk : Z) : ph2 := mkph2 OP_define stk 0 0 0 0 0 0 false.

(* src/riscv-codegen.c:132-135, src/arm-codegen.c:161-170: adjustments made
   while flattening; [nxt] is bb->rpo_next *)
Definition fl_adjust (det : bool) (stk : Z) (nxt : option Z) (i : ph2) : ph2 :=
  let i := match p_op i with
           | OP_return => mkph2 OP_return (p_src0 i) stk (p_dest i) (p_func i)
                                (p_next i) (p_then i) (p_else i) (p_det i)
           | _ => i end in
  match p_op i with
  | OP_branch =>
      if det then
        let same := match nxt with Some b => p_else i =? b | None => false end in
        if same then i
        else mkph2 OP_branch (p_src0 i) (p_src1 i) (p_dest i) (p_func i)
                   (p_next i) (p_then i) (p_else i) true
      else i
  | _ => i
  end.

Section Flatten.
  Variable T : target.
  Variable hard : bool.

  (* src/riscv-codegen.c:128-139 / src/arm-codegen.c:157-173: the loop over insns *)
  Fixpoint fl_insns (stk : Z) (nxt : option Z) (is : list ph2) (off : Z)
    : option (Z * list ph2) :=
    match is with
    | [] => Some (off, [])
    | i :: r =>
        let i' := fl_adjust (t_detach T) stk nxt i in
        match t_size T hard i' with
        | None => None
        | Some n =>
            match fl_insns stk nxt r (off + n) with
            | None => None
            | Some (off', l) => Some (off', i' :: l)
            end
        end
    end.

  (* src/riscv-codegen.c:121-140 / src/arm-codegen.c:149-174: the loop over blocks *)
  Fixpoint fl_blocks (first : bool) (stk : Z) (bs : list block) (off : Z) (ofs : Z -> Z)
    : option (Z * (Z -> Z) * list ph2) :=
    match bs with
    | [] => Some (off, ofs, [])
    | b :: r =>
        let ofs1 := upd ofs (b_id b) off in
        let off1 := if first then off + 16 else off in
        let nxt := match r with [] => None | b' :: _ => Some (b_id b') end in
        match fl_insns stk nxt (b_insns b) off1 with
        | None => None
        | Some (off2, l) =>
            match fl_blocks false stk r off2 ofs1 with
            | None => None
            | Some (off3, ofs3, l') => Some (off3, ofs3, l ++ l')
            end
        end
    end.

  (* src/riscv-codegen.c:116-141 / src/arm-codegen.c:142-175: the loop over functions *)
  Fixpoint fl_funcs (fs : list func) (off : Z) (ofs : Z -> Z)
    : option (Z * (Z -> Z) * list ph2) :=
    match fs with
    | [] => Some (off, ofs, [])
    | f :: r =>
        match fl_blocks true (f_stack f) (f_blocks f) off ofs with
        | None => None
        | Some (off1, ofs1, l) =>
            match fl_funcs r off1 ofs1 with
            | None => None
            | Some (off2, ofs2, l') => Some (off2, ofs2, define_ir (f_stack f) :: l ++ l')
            end
        end
    end.

  Fixpoint sizes (is : list ph2) (off : Z) : option Z :=
    match is with
    | [] => Some off
    | i :: r => match t_size T hard i with None => None | Some n => sizes r (off + n) end
    end.

  (* src/riscv-codegen.c:100-142 / src/arm-codegen.c:126-176 cfg_flatten *)
  Definition cfg_flatten (p : program) : option (Z * (Z -> Z) * list ph2) :=
    let ofs0 := upd (upd (fun _ => 0) (p_sysbb p) (t_sysofs T)) (g_bb p) (t_globofs T) in
    match sizes (g_insns p) (t_globofs T) with
    | None => None
    | Some off => fl_funcs (p_funcs p) (off + 24) ofs0
    end.

  (* src/globals.c find_func followed by ->fn->bbs *)
  Definition find_entry (p : program) (name : Z) : option Z :=
    if name =? p_sysname p then Some (p_sysbb p)
    else match find (fun f => f_name f =? name) (p_funcs p) with
         | Some f => match f_blocks f with b :: _ => Some (b_id b) | [] => None end
         | None => None
         end.

  Fixpoint emit_list (e : env) (pos : Z) (is : list ph2) : option (list Z) :=
    match is with
    | [] => Some []
    | i :: r =>
        match t_emit T e pos i with
        | None => None
        | Some ws =>
            match emit_list e (pos + 4 * Z.of_nat (length ws)) r with
            | None => None
            | Some l => Some (ws ++ l)
            end
        end
    end.

  Definition mkenv_of (p : program) (code_start off : Z) (ofs : Z -> Z) : env :=
    mkenv ofs (fun n => match find_entry p n with Some b => Some (ofs b) | None => None end)
          code_start (code_start + off) hard.

  (* src/riscv-codegen.c:403-451 / src/arm-codegen.c:428-475 code_generate *)
  Definition code_generate (p : program) (code_start : Z) : option (env * list Z) :=
    match cfg_flatten p with
    | None => None
    | Some (off, ofs, flat) =>
        let e := mkenv_of p code_start off ofs in
        match t_stubs T e (g_stack p) (ofs (g_bb p)) with
        | None => None
        | Some w0 =>
            let pos1 := 4 * Z.of_nat (length w0) in
            match emit_list e pos1 (g_insns p) with
            | None => None
            | Some w1 =>
                let pos2 := pos1 + 4 * Z.of_nat (length w1) in
                match t_prelude T e pos2 (g_stack p) (ofs (p_mainbb p)) with
                | None => None
                | Some w2 =>
                    let pos3 := pos2 + 4 * Z.of_nat (length w2) in
                    match emit_list e pos3 flat with
                    | None => None
                    | Some w3 => Some (e, w0 ++ w1 ++ w2 ++ w3)
                    end
                end
            end
        end
    end.
End Flatten.

(** [emit(x); emit(y); ...]: each word may read elf_code_idx. *)
Fixpoint emits (pos : Z) (l : list (Z -> option Z)) : option (list Z) :=
  match l with
  | [] => Some []
  | f :: r => match f pos with
              | None => None
              | Some w => match emits (pos + 4) r with
                          | None => None | Some ws => Some (w :: ws) end
              end
  end.
