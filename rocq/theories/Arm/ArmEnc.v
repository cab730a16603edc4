(** Model of src/arm.c (ARMv7-A instruction encoding).

    [int] arithmetic wraps (Int32.v); [error()] is [None].  The shift counts in
    this file are all in 0..31. *)
From Verif.Base Require Export Int32.
From Verif.Ir Require Import Ph2.

(* src/arm.c:30-43 typedef enum arm_op_t *)
Definition arm_and := 0.   Definition arm_eor := 1.   Definition arm_sub := 2.
Definition arm_rsb := 3.   Definition arm_add := 4.   Definition arm_ldm := 9.
Definition arm_teq := 9.   Definition arm_cmp := 10.  Definition arm_orr := 12.
Definition arm_mov := 13.  Definition arm_mvn := 15.  Definition arm_stmdb := 16.

(* src/arm.c:49-60 typedef enum arm_cond_t *)
Definition c_EQ := 0.   Definition c_NE := 1.   Definition c_CS := 2.
Definition c_CC := 3.   Definition c_LS := 9.   Definition c_GE := 10.
Definition c_LT := 11.  Definition c_GT := 12.  Definition c_LE := 13.
Definition c_AL := 14.

(* src/arm.c:63-80 typedef enum arm_reg *)
Definition a_r0 := 0.   Definition a_r1 := 1.   Definition a_r2 := 2.
Definition a_r3 := 3.   Definition a_r4 := 4.   Definition a_r5 := 5.
Definition a_r6 := 6.   Definition a_r7 := 7.   Definition a_r8 := 8.
Definition a_r9 := 9.   Definition a_r10 := 10. Definition a_r12 := 12.
Definition a_sp := 13.  Definition a_lr := 14.  Definition a_pc := 15.

(* src/arm.c:82-87 typedef enum shift_type *)
Definition logic_ls := 0. Definition logic_rs := 1. Definition arith_rs := 2.

(* src/arm.c:89-108 arm_get_cond *)
Definition arm_get_cond (o : opcode) : option Z :=
  match o with
  | OP_eq => Some c_EQ | OP_neq => Some c_NE | OP_lt => Some c_LT
  | OP_geq => Some c_GE | OP_gt => Some c_GT | OP_leq => Some c_LE
  | _ => None
  end.

(* src/arm.c:110-120 arm_extract_bits *)
Definition arm_extract_bits (imm i_start i_end d_start d_end : Z) : option Z :=
  if negb (d_end - d_start =? i_end - i_start) || (i_start >? i_end) || (d_start >? d_end)
  then None
  else
    let v := ishr imm i_start in
    let v := iand v (ishl 2 (i_end - i_start) - 1) in
    Some (ishl v d_start).

(* src/arm.c:122-125 arm_encode *)
Definition arm_encode (cond opcode rn rd op2 : Z) : Z :=
  iadd (iadd (iadd (iadd (ishl cond 28) (ishl opcode 20)) (ishl rn 16)) (ishl rd 12)) op2.

(* src/arm.c:127-130 __svc *)
Definition e_svc : option Z := Some (arm_encode c_AL 240 0 0 0).

(* src/arm.c:137-141 the loop [while ((op2 & 3) == 0)] of __mov; it is entered with
   op2 > 255, so 16 rounds exhaust any int (the fuel never runs out there) *)
Fixpoint mov_rot (fuel : nat) (op2 shift : Z) : Z * Z :=
  match fuel with
  | O => (op2, shift)
  | S n => if iand op2 3 =? 0 then mov_rot n (ishr op2 2) (isub shift 1) else (op2, shift)
  end.

(* src/arm.c:132-148 __mov *)
Definition e_movx (cond io opcode s rn rd op2 : Z) : option Z :=
  let fin op2 shift :=
    Some (arm_encode cond (iadd (iadd s (ishl opcode 1)) (ishl io 5)) rn rd
                     (iadd (ishl shift 8) (iand op2 255))) in
  if op2 >? 255 then
    let (op2', shift) := mov_rot 16 op2 16 in
    if op2' >? 255 then None else fin op2' shift
  else fin op2 0.

(* src/arm.c:150-153 __and_r *)
Definition e_and_r cond rd rs rm := e_movx cond 0 arm_and 0 rs rd rm.
(* src/arm.c:155-158 __or_r *)
Definition e_or_r cond rd rs rm := e_movx cond 0 arm_orr 0 rs rd rm.
(* src/arm.c:160-163 __eor_r *)
Definition e_eor_r cond rd rs rm := e_movx cond 0 arm_eor 0 rs rd rm.
(* src/arm.c:165-168 __mvn_r *)
Definition e_mvn_r cond rd rm := e_movx cond 0 arm_mvn 0 0 rd rm.

(* the two extracts shared by __movw and __movt *)
Definition mov16 (cond opc rd imm : Z) : option Z :=
  match arm_extract_bits imm 0 11 0 11, arm_extract_bits imm 12 15 16 19 with
  | Some a, Some b => Some (iadd (iadd (arm_encode cond opc 0 rd 0) a) b)
  | _, _ => None
  end.
(* src/arm.c:170-175 __movw *)
Definition e_movw cond rd imm := mov16 cond 48 rd imm.
(* src/arm.c:177-183 __movt *)
Definition e_movt cond rd imm := mov16 cond 52 rd (ishr imm 16).
(* src/arm.c:185-188 __mov_i *)
Definition e_mov_i cond rd imm := e_movx cond 1 arm_mov 0 0 rd imm.
(* src/arm.c:190-193 __mov_r *)
Definition e_mov_r cond rd rs := e_movx cond 0 arm_mov 0 0 rd rs.

(* src/arm.c:195-199 __srl *)
Definition e_srl cond rd rm rs : option Z :=
  Some (arm_encode cond (0 + ishl arm_mov 1 + 0) 0 rd
         (iadd (iadd (iadd rm (ishl 1 4)) (ishl 1 5)) (ishl rs 8))).
(* src/arm.c:201-210 __srl_amt *)
Definition e_srl_amt cond s shift rd rm amt : option Z :=
  Some (arm_encode cond (iadd s (ishl arm_mov 1) + 0) 0 rd
         (iadd (iadd rm (ishl shift 5)) (ishl amt 7))).
(* src/arm.c:212-216 __sll *)
Definition e_sll cond rd rm rs : option Z :=
  Some (arm_encode cond (0 + ishl arm_mov 1 + 0) 0 rd
         (iadd (iadd rm (ishl 1 4)) (ishl rs 8))).
(* src/arm.c:218-227 __sll_amt *)
Definition e_sll_amt cond s shift rd rm amt : option Z :=
  Some (arm_encode cond (iadd s (ishl arm_mov 1) + 0) 0 rd
         (iadd (iadd rm (ishl shift 5)) (ishl amt 7))).
(* src/arm.c:229-233 __sra *)
Definition e_sra cond rd rm rs : option Z :=
  Some (arm_encode cond (0 + ishl arm_mov 1 + 0) 0 rd
         (iadd (iadd rm (ishl 5 4)) (ishl rs 8))).

(* src/arm.c:235-240 __add_i *)
Definition e_add_i cond rd rs imm :=
  if imm >=? 0 then e_movx cond 1 arm_add 0 rs rd imm
  else e_movx cond 1 arm_sub 0 rs rd (ineg imm).
(* src/arm.c:242-245 __add_r *)
Definition e_add_r cond rd rs ro := e_movx cond 0 arm_add 0 rs rd ro.
(* src/arm.c:247-250 __sub_r *)
Definition e_sub_r cond rd rs ro := e_movx cond 0 arm_sub 0 rs rd ro.
(* src/arm.c:252-255 __zero *)
Definition e_zero rd := e_mov_i c_AL rd 0.

(* src/arm.c:257-272 arm_transfer *)
Definition arm_transfer (cond l size rn rd ofs : Z) : option Z :=
  let opcode := 64 + 16 + 8 + l in
  let opcode := if size =? 1 then opcode + 4 else opcode in
  let opcode := if ofs <? 0 then opcode - 8 else opcode in
  let ofs := if ofs <? 0 then ineg ofs else ofs in
  Some (arm_encode cond opcode rn rd (iand ofs 4095)).

(* src/arm.c:274-277 __lw *)
Definition e_lw cond rd rn ofs := arm_transfer cond 1 4 rn rd ofs.
(* src/arm.c:279-282 __lb *)
Definition e_lb cond rd rn ofs := arm_transfer cond 1 1 rn rd ofs.
(* src/arm.c:284-287 __sw *)
Definition e_sw cond rd rn ofs := arm_transfer cond 0 4 rn rd ofs.
(* src/arm.c:289-292 __sb *)
Definition e_sb cond rd rn ofs := arm_transfer cond 0 1 rn rd ofs.

(* src/arm.c:294-297 __stmdb *)
Definition e_stmdb cond w rn reg_list : option Z :=
  Some (arm_encode cond (arm_stmdb + ishl 2 6 + ishl w 1) rn 0 reg_list).
(* src/arm.c:299-302 __ldm *)
Definition e_ldm cond w rn reg_list : option Z :=
  Some (arm_encode cond (arm_ldm + ishl 2 6 + ishl w 1) rn 0 reg_list).

(* src/arm.c:304-308 __b *)
Definition e_b cond ofs : option Z :=
  let o := ishr (isub ofs 8) 2 in
  Some (iadd (arm_encode cond 160 0 0 0) (iand o 16777215)).
(* src/arm.c:310-314 __bl *)
Definition e_bl cond ofs : option Z :=
  let o := ishr (isub ofs 8) 2 in
  Some (iadd (arm_encode cond 176 0 0 0) (iand o 16777215)).
(* src/arm.c:316-319 __blx *)
Definition e_blx cond rd : option Z := Some (arm_encode cond 18 15 15 (iadd rd 3888)).

(* src/arm.c:321-324 __mul *)
Definition e_mul cond rd r1 r2 : option Z :=
  Some (arm_encode cond 0 rd 0 (iadd (iadd (ishl r1 8) 144) r2)).
(* src/arm.c:326-329 __div *)
Definition e_div cond rd r1 r2 : option Z :=
  Some (arm_encode cond 113 rd 15 (iadd (iadd (ishl r1 8) 16) r2)).
(* src/arm.c:331-334 __rsb_i *)
Definition e_rsb_i cond rd imm rn := e_movx cond 1 arm_rsb 0 rn rd imm.
(* src/arm.c:336-339 __cmp_r *)
Definition e_cmp_r cond r1 r2 := e_movx cond 0 arm_cmp 1 r1 0 r2.
(* src/arm.c:341-344 __cmp_i *)
Definition e_cmp_i cond rn imm := e_movx cond 1 arm_cmp 1 rn 0 imm.
(* src/arm.c:346-349 __teq *)
Definition e_teq rd := e_movx c_AL 1 arm_teq 1 rd 0 0.
