(** Model of src/arm-codegen.c. *)
From Verif.Base Require Import Int32.
From Verif.Ir Require Import Ph2.
From Verif.Arm Require Import ArmEnc.

(* src/arm-codegen.c:12-124 update_elf_offset; None = abort() *)
Definition arm_size (hard : bool) (i : ph2) : option Z :=
  match p_op i with
  | OP_load_constant =>
      Some (if p_src0 i <? 0 then 12 else if p_src0 i >? 255 then 8 else 4)
  | OP_address_of | OP_global_address_of =>
      if p_src0 i >? 255 then Some 12 else if p_src0 i >=? 0 then Some 4 else None
  | OP_assign => Some (if p_dest i =? p_src0 i then 0 else 4)
  | OP_load | OP_global_load =>
      if p_src0 i >? 4095 then Some 16 else if p_src0 i >=? 0 then Some 4 else None
  | OP_store | OP_global_store =>
      if p_src1 i >? 4095 then Some 16 else if p_src1 i >=? 0 then Some 4 else None
  | OP_read | OP_write | OP_jump | OP_call | OP_load_func | OP_indirect
  | OP_add | OP_sub | OP_mul | OP_lshift | OP_rshift | OP_bit_and
  | OP_bit_or | OP_bit_xor | OP_negate | OP_bit_not => Some 4
  | OP_div => Some (if hard then 4 else 116)
  | OP_mod => Some (if hard then 12 else 116)
  | OP_load_data_address => Some 8
  | OP_address_of_func | OP_eq | OP_neq | OP_gt | OP_lt | OP_geq | OP_leq
  | OP_log_not => Some 12
  | OP_branch => Some (if p_det i then 12 else 8)
  | OP_return => Some 24
  | _ => None
  end.

Definition k (w : option Z) : Z -> option Z := fun _ => w.

(* the pair [emit(__movw(AL, rd, v)); emit(__movt(AL, rd, v))] *)
Definition mov32 (rd v : Z) : list (Z -> option Z) := [k (e_movw c_AL rd v); k (e_movt c_AL rd v)].

(* src/arm-codegen.c:325-384 the emulated division and modulo *)
Definition arm_soft_div (is_mod : bool) (rd rn rm : Z) : list (Z -> option Z) :=
  let interm := if is_mod then a_r9 else a_r8 in
  [ k (e_stmdb c_AL 1 a_sp (ior (ishl 1 rn) (ishl 1 rm)));
    k (e_srl_amt c_AL 0 arith_rs a_r8 rn 31);
    k (e_add_r c_AL rn rn a_r8); k (e_eor_r c_AL rn rn a_r8);
    k (e_srl_amt c_AL 0 arith_rs a_r9 rm 31);
    k (e_add_r c_AL rm rm a_r9); k (e_eor_r c_AL rm rm a_r9);
    k (if is_mod then e_mov_r c_AL a_r10 a_r8 else e_eor_r c_AL a_r10 a_r8 a_r9);
    k (e_zero a_r8); k (e_mov_i c_AL a_r9 1);
    k (e_cmp_i c_AL rm 0); k (e_b c_EQ 52);
    k (e_cmp_i c_AL rn 0); k (e_b c_EQ 44);
    k (e_cmp_r c_AL rm rn);
    k (e_sll_amt c_CC 0 logic_ls rm rm 1); k (e_sll_amt c_CC 0 logic_ls a_r9 a_r9 1);
    k (e_b c_CC (-12));
    k (e_cmp_r c_AL rn rm);
    k (e_sub_r c_CS rn rn rm); k (e_add_r c_CS a_r8 a_r8 a_r9);
    k (e_srl_amt c_AL 1 logic_rs a_r9 a_r9 1); k (e_srl_amt c_CC 0 logic_rs rm rm 1);
    k (e_b c_CC (-20));
    k (e_mov_r c_AL a_r9 rn);
    k (e_ldm c_AL 1 a_sp (ior (ishl 1 rn) (ishl 1 rm)));
    k (e_mov_r c_AL rd interm);
    k (e_cmp_i c_AL a_r10 0); k (e_rsb_i c_NE rd 0 rd) ].

(* src/arm-codegen.c:183-426 emit_ph2_ir *)
Definition arm_emit (e : env) (pos : Z) (i : ph2) : option (list Z) :=
  let rd := p_dest i in
  let rn := p_src0 i in
  let rm := p_src1 i in
  match p_op i with
  | OP_define =>
      emits pos ([ k (e_sw c_AL a_lr a_sp (-4)) ] ++ mov32 a_r8 (iadd (p_src0 i) 4)
                 ++ [ k (e_sub_r c_AL a_sp a_sp a_r8) ])
  | OP_load_constant =>
      if p_src0 i <? 0 then
        emits pos (mov32 a_r8 (ineg (p_src0 i)) ++ [ k (e_rsb_i c_AL rd 0 a_r8) ])
      else if p_src0 i >? 255 then emits pos (mov32 rd (p_src0 i))
      else emits pos [ k (e_mov_i c_AL rd (p_src0 i)) ]
  | OP_address_of | OP_global_address_of =>
      let interm := match p_op i with OP_address_of => a_sp | _ => a_r12 end in
      if p_src0 i >? 255 then
        emits pos (mov32 a_r8 (p_src0 i) ++ [ k (e_add_r c_AL rd interm a_r8) ])
      else emits pos [ k (e_add_i c_AL rd interm (p_src0 i)) ]
  | OP_assign => emits pos [ k (e_mov_r c_AL rd rn) ]
  | OP_load | OP_global_load =>
      let interm := match p_op i with OP_load => a_sp | _ => a_r12 end in
      if p_src0 i >? 4095 then
        emits pos (mov32 a_r8 (p_src0 i)
                   ++ [ k (e_add_r c_AL a_r8 interm a_r8); k (e_lw c_AL rd a_r8 0) ])
      else emits pos [ k (e_lw c_AL rd interm (p_src0 i)) ]
  | OP_store | OP_global_store =>
      let interm := match p_op i with OP_store => a_sp | _ => a_r12 end in
      if p_src1 i >? 4095 then
        emits pos (mov32 a_r8 (p_src1 i)
                   ++ [ k (e_add_r c_AL a_r8 interm a_r8); k (e_sw c_AL rn a_r8 0) ])
      else emits pos [ k (e_sw c_AL rn interm (p_src1 i)) ]
  | OP_read =>
      if p_src1 i =? 1 then emits pos [ k (e_lb c_AL rd rn 0) ]
      else if p_src1 i =? 4 then emits pos [ k (e_lw c_AL rd rn 0) ]
      else None
  | OP_write =>
      if p_dest i =? 1 then emits pos [ k (e_sb c_AL rm rn 0) ]
      else if p_dest i =? 4 then emits pos [ k (e_sw c_AL rm rn 0) ]
      else None
  | OP_branch =>
      if p_det i then
        emits pos [ k (e_teq rn); k (e_b c_NE 8);
                    (fun idx => e_b c_AL (e_bb e (p_else i) - idx)) ]
      else emits pos [ k (e_teq rn); (fun idx => e_b c_NE (e_bb e (p_then i) - idx)) ]
  | OP_jump => emits pos [ (fun idx => e_b c_AL (e_bb e (p_next i) - idx)) ]
  | OP_call =>
      match e_fn e (p_func i) with
      | Some o => emits pos [ (fun idx => e_bl c_AL (o - idx)) ]
      | None => None
      end
  | OP_load_data_address => emits pos (mov32 rd (iadd (p_src0 i) (e_data e)))
  | OP_address_of_func =>
      match e_fn e (p_func i) with
      | Some o => emits pos (mov32 a_r8 (iadd (e_code e) o) ++ [ k (e_sw c_AL a_r8 rn 0) ])
      | None => None
      end
  | OP_load_func => emits pos [ k (e_mov_r c_AL a_r8 rn) ]
  | OP_indirect => emits pos [ k (e_blx c_AL a_r8) ]
  | OP_return =>
      emits pos ([ k (if p_src0 i =? -1 then e_mov_r c_AL a_r0 a_r0 else e_mov_r c_AL a_r0 rn) ]
                 ++ mov32 a_r8 (iadd (p_src1 i) 4)
                 ++ [ k (e_add_r c_AL a_sp a_sp a_r8); k (e_lw c_AL a_lr a_sp (-4));
                      k (e_blx c_AL a_lr) ])
  | OP_add => emits pos [ k (e_add_r c_AL rd rn rm) ]
  | OP_sub => emits pos [ k (e_sub_r c_AL rd rn rm) ]
  | OP_mul => emits pos [ k (e_mul c_AL rd rn rm) ]
  | OP_div => if e_hard e then emits pos [ k (e_div c_AL rd rm rn) ]
              else emits pos (arm_soft_div false rd rn rm)
  | OP_mod => if e_hard e then
                emits pos [ k (e_div c_AL a_r8 rm rn); k (e_mul c_AL a_r8 rm a_r8);
                            k (e_sub_r c_AL rd rn a_r8) ]
              else emits pos (arm_soft_div true rd rn rm)
  | OP_lshift => emits pos [ k (e_sll c_AL rd rn rm) ]
  | OP_rshift => emits pos [ k (e_sra c_AL rd rn rm) ]
  | OP_eq | OP_neq | OP_gt | OP_lt | OP_geq | OP_leq =>
      emits pos [ k (e_cmp_r c_AL rn rm); k (e_zero rd);
                  k (match arm_get_cond (p_op i) with Some c => e_mov_i c rd 1 | None => None end) ]
  | OP_negate => emits pos [ k (e_rsb_i c_AL rd 0 rn) ]
  | OP_bit_not => emits pos [ k (e_mvn_r c_AL rd rn) ]
  | OP_bit_and => emits pos [ k (e_and_r c_AL rd rn rm) ]
  | OP_bit_or => emits pos [ k (e_or_r c_AL rd rn rm) ]
  | OP_bit_xor => emits pos [ k (e_eor_r c_AL rd rn rm) ]
  | OP_log_not => emits pos [ k (e_teq rn); k (e_mov_i c_NE rd 0); k (e_mov_i c_EQ rd 1) ]
  | _ => None
  end.

(* src/arm-codegen.c:432-456 start, exit, syscall *)
Definition arm_stubs (e : env) (gstack gofs : Z) : option (list Z) :=
  emits 0
    (mov32 a_r8 gstack ++
     [ k (e_sub_r c_AL a_sp a_sp a_r8); k (e_mov_r c_AL a_r12 a_sp);
       (fun idx => e_bl c_AL (gofs - idx)) ] ++
     mov32 a_r8 gstack ++
     [ k (e_add_r c_AL a_sp a_sp a_r8); k (e_mov_r c_AL a_r0 a_r0);
       k (e_mov_i c_AL a_r7 1); k e_svc;
       k (e_mov_r c_AL a_r7 a_r0); k (e_mov_r c_AL a_r0 a_r1); k (e_mov_r c_AL a_r1 a_r2);
       k (e_mov_r c_AL a_r2 a_r3); k (e_mov_r c_AL a_r3 a_r4); k (e_mov_r c_AL a_r4 a_r5);
       k (e_mov_r c_AL a_r5 a_r6); k e_svc; k (e_mov_r c_AL a_pc a_lr) ]).

(* src/arm-codegen.c:463-469 argc, argv, jump to main *)
Definition arm_prelude (e : env) (pos gstack mofs : Z) : option (list Z) :=
  emits pos
    (mov32 a_r8 gstack ++
     [ k (e_add_r c_AL a_r8 a_r12 a_r8); k (e_lw c_AL a_r0 a_r8 0);
       k (e_add_i c_AL a_r1 a_r8 4); (fun idx => e_b c_AL (mofs - idx)) ]).

(* src/arm-codegen.c:129,131,166-170 *)
Definition arm_target : target :=
  mktarget arm_size arm_emit arm_stubs arm_prelude 44 80 true.
