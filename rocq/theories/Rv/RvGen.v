(** Model of src/riscv-codegen.c. *)
From Verif.Base Require Import Int32.
From Verif.Ir Require Import Ph2.
From Verif.Rv Require Import RvEnc.

Definition out12 (v : Z) : bool := (v <? -2048) || (v >? 2047).

(* src/riscv-codegen.c:12-98 update_elf_offset *)
Definition rv_size (hard : bool) (i : ph2) : option Z :=
  match p_op i with
  | OP_load_constant => Some (if out12 (p_src0 i) then 8 else 4)
  | OP_address_of | OP_global_address_of => Some (if out12 (p_src0 i) then 12 else 4)
  | OP_assign => Some 4
  | OP_load | OP_global_load => Some (if out12 (p_src0 i) then 16 else 4)
  | OP_store | OP_global_store => Some (if out12 (p_src1 i) then 16 else 4)
  | OP_read | OP_write | OP_jump | OP_call | OP_load_func | OP_indirect
  | OP_add | OP_sub | OP_lshift | OP_rshift | OP_gt | OP_lt | OP_bit_and
  | OP_bit_or | OP_bit_xor | OP_negate | OP_bit_not => Some 4
  | OP_mul => Some (if hard then 4 else 52)
  | OP_div | OP_mod => Some (if hard then 4 else 108)
  | OP_load_data_address | OP_neq | OP_geq | OP_leq | OP_log_not => Some 8
  | OP_address_of_func | OP_eq => Some 12
  | OP_branch => Some 20
  | OP_return => Some 24
  | _ => None
  end.

Definition k (w : option Z) : Z -> option Z := fun _ => w.

(* src/riscv-codegen.c:284-296 the emulated multiplication *)
Definition rv_soft_mul (rd rs1 rs2 : Z) : list (Z -> option Z) :=
  [ k (e_addi r_t0 r_zero 0); k (e_addi r_t1 r_zero 0);
    k (e_addi r_t3 rs1 0); k (e_addi r_t4 rs2 0);
    k (e_beq r_t3 r_zero 32); k (e_beq r_t4 r_zero 28);
    k (e_andi r_t1 r_t4 1); k (e_beq r_t1 r_zero 8);
    k (e_add r_t0 r_t0 r_t3); k (e_slli r_t3 r_t3 1);
    k (e_srli r_t4 r_t4 1); k (e_jal r_zero (-28));
    k (e_addi rd r_t0 0) ].

(* src/riscv-codegen.c:308-347 the emulated division and modulo *)
Definition rv_soft_div (is_mod : bool) (rd rs1 rs2 : Z) : list (Z -> option Z) :=
  let interm := if is_mod then r_t2 else r_t0 in
  let divisor_mask := if is_mod then r_zero else r_t1 in
  [ k (e_addi r_t2 rs1 0); k (e_addi r_t3 rs2 0);
    k (e_srai r_t0 r_t2 31); k (e_add r_t2 r_t2 r_t0); k (e_xor r_t2 r_t2 r_t0);
    k (e_srai r_t1 r_t3 31); k (e_add r_t3 r_t3 r_t1); k (e_xor r_t3 r_t3 r_t1);
    k (e_xor r_t5 r_t0 divisor_mask);
    k (e_addi r_t0 r_zero 0); k (e_addi r_t1 r_zero 1);
    k (e_beq r_t3 r_zero 52); k (e_beq r_t2 r_zero 48);
    k (e_beq r_t2 r_t3 20); k (e_bltu r_t2 r_t3 16);
    k (e_slli r_t3 r_t3 1); k (e_slli r_t1 r_t1 1); k (e_jal r_zero (-16));
    k (e_bltu r_t2 r_t3 12); k (e_sub r_t2 r_t2 r_t3); k (e_add r_t0 r_t0 r_t1);
    k (e_srli r_t1 r_t1 1); k (e_srli r_t3 r_t3 1); k (e_bne r_t1 r_zero (-20));
    k (e_addi rd interm 0); k (e_beq r_t5 r_zero 8); k (e_sub rd r_zero rd) ].

(* src/riscv-codegen.c:149-401 emit_ph2_ir; None = error()/abort() or a call of an
   undefined function *)
Definition rv_emit (e : env) (pos : Z) (i : ph2) : option (list Z) :=
  let rd := p_dest i + 10 in
  let rs1 := p_src0 i + 10 in
  let rs2 := p_src1 i + 10 in
  match p_op i with
  | OP_define =>
      emits pos [ k (e_lui r_t0 (rv_hi (iadd (p_src0 i) 4)));
                  k (e_addi r_t0 r_t0 (rv_lo (iadd (p_src0 i) 4)));
                  k (e_sub r_sp r_sp r_t0); k (e_sw r_ra r_sp 0) ]
  | OP_load_constant =>
      if out12 (p_src0 i) then
        emits pos [ k (e_lui rd (rv_hi (p_src0 i))); k (e_addi rd rd (rv_lo (p_src0 i))) ]
      else emits pos [ k (e_addi rd r_zero (p_src0 i)) ]
  | OP_address_of | OP_global_address_of =>
      let interm := match p_op i with OP_address_of => r_sp | _ => r_gp end in
      if out12 (p_src0 i) then
        emits pos [ k (e_lui r_t0 (rv_hi (p_src0 i)));
                    k (e_addi r_t0 r_t0 (rv_lo (p_src0 i)));
                    k (e_add rd interm r_t0) ]
      else emits pos [ k (e_addi rd interm (p_src0 i)) ]
  | OP_assign => emits pos [ k (e_addi rd rs1 0) ]
  | OP_load | OP_global_load =>
      let interm := match p_op i with OP_load => r_sp | _ => r_gp end in
      if out12 (p_src0 i) then
        emits pos [ k (e_lui r_t0 (rv_hi (p_src0 i)));
                    k (e_addi r_t0 r_t0 (rv_lo (p_src0 i)));
                    k (e_add r_t0 interm r_t0); k (e_lw rd r_t0 0) ]
      else emits pos [ k (e_lw rd interm (p_src0 i)) ]
  | OP_store | OP_global_store =>
      let interm := match p_op i with OP_store => r_sp | _ => r_gp end in
      if out12 (p_src1 i) then
        emits pos [ k (e_lui r_t0 (rv_hi (p_src1 i)));
                    k (e_addi r_t0 r_t0 (rv_lo (p_src1 i)));
                    k (e_add r_t0 interm r_t0); k (e_sw rs1 r_t0 0) ]
      else emits pos [ k (e_sw rs1 interm (p_src1 i)) ]
  | OP_read =>
      if p_src1 i =? 1 then emits pos [ k (e_lb rd rs1 0) ]
      else if p_src1 i =? 4 then emits pos [ k (e_lw rd rs1 0) ]
      else None
  | OP_write =>
      if p_dest i =? 1 then emits pos [ k (e_sb rs2 rs1 0) ]
      else if p_dest i =? 4 then emits pos [ k (e_sw rs2 rs1 0) ]
      else None
  | OP_branch =>
      let ofs := iadd (e_code e) (e_bb e (p_then i)) in
      emits pos [ k (e_lui r_t0 (rv_hi ofs)); k (e_addi r_t0 r_t0 (rv_lo ofs));
                  k (e_beq rs1 r_zero 8); k (e_jalr r_zero r_t0 0);
                  (fun idx => e_jal r_zero (e_bb e (p_else i) - idx)) ]
  | OP_jump => emits pos [ (fun idx => e_jal r_zero (e_bb e (p_next i) - idx)) ]
  | OP_call =>
      match e_fn e (p_func i) with
      | Some o => emits pos [ (fun idx => e_jal r_ra (o - idx)) ]
      | None => None
      end
  | OP_load_data_address =>
      emits pos [ k (e_lui rd (rv_hi (iadd (e_data e) (p_src0 i))));
                  k (e_addi rd rd (rv_lo (iadd (e_data e) (p_src0 i)))) ]
  | OP_address_of_func =>
      match e_fn e (p_func i) with
      | Some o =>
          let ofs := iadd (e_code e) o in
          emits pos [ k (e_lui r_t0 (rv_hi ofs)); k (e_addi r_t0 r_t0 (rv_lo ofs));
                      k (e_sw r_t0 rs1 0) ]
      | None => None
      end
  | OP_load_func => emits pos [ k (e_addi r_t0 rs1 0) ]
  | OP_indirect => emits pos [ k (e_jalr r_ra r_t0 0) ]
  | OP_return =>
      emits pos [ k (if p_src0 i =? -1 then e_addi r_zero r_zero 0 else e_addi r_a0 rs1 0);
                  k (e_lw r_ra r_sp 0);
                  k (e_lui r_t0 (rv_hi (iadd (p_src1 i) 4)));
                  k (e_addi r_t0 r_t0 (rv_lo (iadd (p_src1 i) 4)));
                  k (e_add r_sp r_sp r_t0); k (e_jalr r_zero r_ra 0) ]
  | OP_add => emits pos [ k (e_add rd rs1 rs2) ]
  | OP_sub => emits pos [ k (e_sub rd rs1 rs2) ]
  | OP_mul => if e_hard e then emits pos [ k (e_mul rd rs1 rs2) ]
              else emits pos (rv_soft_mul rd rs1 rs2)
  | OP_div => if e_hard e then emits pos [ k (e_div rd rs1 rs2) ]
              else emits pos (rv_soft_div false rd rs1 rs2)
  | OP_mod => if e_hard e then emits pos [ k (e_mod rd rs1 rs2) ]
              else emits pos (rv_soft_div true rd rs1 rs2)
  | OP_lshift => emits pos [ k (e_sll rd rs1 rs2) ]
  | OP_rshift => emits pos [ k (e_sra rd rs1 rs2) ]
  | OP_eq => emits pos [ k (e_sub rd rs1 rs2); k (e_sltu rd r_zero rd); k (e_xori rd rd 1) ]
  | OP_neq => emits pos [ k (e_sub rd rs1 rs2); k (e_sltu rd r_zero rd) ]
  | OP_gt => emits pos [ k (e_slt rd rs2 rs1) ]
  | OP_geq => emits pos [ k (e_slt rd rs1 rs2); k (e_xori rd rd 1) ]
  | OP_lt => emits pos [ k (e_slt rd rs1 rs2) ]
  | OP_leq => emits pos [ k (e_slt rd rs2 rs1); k (e_xori rd rd 1) ]
  | OP_negate => emits pos [ k (e_sub rd r_zero rs1) ]
  | OP_bit_not => emits pos [ k (e_xori rd rs1 (-1)) ]
  | OP_bit_and => emits pos [ k (e_and rd rs1 rs2) ]
  | OP_bit_or => emits pos [ k (e_or rd rs1 rs2) ]
  | OP_bit_xor => emits pos [ k (e_xor rd rs1 rs2) ]
  | OP_log_not => emits pos [ k (e_sltu rd r_zero rs1); k (e_xori rd rd 1) ]
  | _ => None
  end.

(* src/riscv-codegen.c:407-432 start, exit, syscall *)
Definition rv_stubs (e : env) (gstack gofs : Z) : option (list Z) :=
  emits 0
    [ k (e_lui r_t0 (rv_hi gstack)); k (e_addi r_t0 r_t0 (rv_lo gstack));
      k (e_sub r_sp r_sp r_t0); k (e_addi r_gp r_sp 0);
      (fun idx => e_jal r_ra (gofs - idx));
      k (e_lui r_t0 (rv_hi gstack)); k (e_addi r_t0 r_t0 (rv_lo gstack));
      k (e_add r_gp r_gp r_t0); k (e_addi r_sp r_gp 0); k (e_addi r_a0 r_a0 0);
      k (e_addi r_a7 r_zero 93); k e_ecall;
      k (e_addi r_a7 r_a0 0); k (e_addi r_a0 r_a1 0); k (e_addi r_a1 r_a2 0);
      k (e_addi r_a2 r_a3 0); k (e_addi r_a3 r_a4 0); k (e_addi r_a4 r_a5 0);
      k (e_addi r_a5 r_a6 0); k e_ecall; k (e_jalr r_zero r_ra 0) ].

(* src/riscv-codegen.c:439-445 argc, argv, jump to main *)
Definition rv_prelude (e : env) (pos gstack mofs : Z) : option (list Z) :=
  emits pos
    [ k (e_lui r_t0 (rv_hi gstack)); k (e_addi r_t0 r_t0 (rv_lo gstack));
      k (e_add r_t0 r_gp r_t0); k (e_lw r_a0 r_t0 0); k (e_addi r_a1 r_t0 4);
      (fun idx => e_jal r_zero (mofs - idx)) ].

(* src/riscv-codegen.c:103,105 *)
Definition rv_target : target :=
  mktarget rv_size rv_emit rv_stubs rv_prelude 48 84 false.
