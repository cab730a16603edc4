(** Model of src/riscv.c: RISC-V instruction encoding.
    [None] models a call of error() (globals.c:992), which aborts. *)
From Verif.Base Require Import Int32.

(* src/riscv.c:11-61  typedef enum rv_op *)
Definition rv_add := 51.        Definition rv_sub := 1073741875.
Definition rv_xor := 16435.     Definition rv_or := 24627.
Definition rv_and := 28723.     Definition rv_sll := 4147.
Definition rv_srl := 20531.     Definition rv_sra := 1073762355.
Definition rv_slt := 8243.      Definition rv_sltu := 12339.
Definition rv_addi := 19.       Definition rv_xori := 16403.
Definition rv_ori := 24595.     Definition rv_andi := 28691.
Definition rv_slli := 4115.     Definition rv_srli := 20499.
Definition rv_srai := 1073762323. Definition rv_slti := 8211.
Definition rv_sltiu := 12307.
Definition rv_lb := 3.          Definition rv_lh := 4099.
Definition rv_lw := 8195.       Definition rv_lbu := 16387.
Definition rv_lhu := 20483.     Definition rv_sb := 35.
Definition rv_sh := 4131.       Definition rv_sw := 8227.
Definition rv_beq := 99.        Definition rv_bne := 4195.
Definition rv_blt := 16483.     Definition rv_bge := 20579.
Definition rv_bltu := 24675.    Definition rv_bgeu := 28771.
Definition rv_jal := 111.       Definition rv_jalr := 103.
Definition rv_lui := 55.        Definition rv_auipc := 23.
Definition rv_ecall := 115.     Definition rv_ebreak := 1048691.
Definition rv_mul := 33554483.  Definition rv_div := 33570867.
Definition rv_mod := 33579059.

(* src/riscv.c:64-97  typedef enum rv_reg *)
Definition r_zero := 0.  Definition r_ra := 1.  Definition r_sp := 2.
Definition r_gp := 3.    Definition r_t0 := 5.  Definition r_t1 := 6.
Definition r_t2 := 7.    Definition r_a0 := 10. Definition r_a1 := 11.
Definition r_a2 := 12.   Definition r_a3 := 13. Definition r_a4 := 14.
Definition r_a5 := 15.   Definition r_a6 := 16. Definition r_a7 := 17.
Definition r_t3 := 28.   Definition r_t4 := 29. Definition r_t5 := 30.

(* src/riscv.c:99-111 rv_extract_bits *)
Definition rv_extract_bits (imm i_start i_end d_start d_end : Z) : option Z :=
  if negb (d_end - d_start =? i_end - i_start) || (i_start >? i_end)
     || (d_start >? d_end)
  then None
  else
    let v := ishr imm i_start in
    let v := iand v (ishl 2 (i_end - i_start) - 1) in
    Some (ishl v d_start).

(* src/riscv.c:113-116 rv_hi *)
Definition rv_hi (val : Z) : Z := iadd val (ishl (iand val (ishl 1 11)) 1).

(* src/riscv.c:118-121 rv_lo *)
Definition rv_lo (val : Z) : Z := isub (iand val 4095) (ishl (iand val (ishl 1 11)) 1).

(* src/riscv.c:123-126 rv_encode_R *)
Definition rv_encode_R (op rd rs1 rs2 : Z) : option Z :=
  Some (iadd (iadd (iadd op (ishl rd 7)) (ishl rs1 15)) (ishl rs2 20)).

(* src/riscv.c:128-138 rv_encode_I *)
Definition rv_encode_I (op rd rs1 imm : Z) : option Z :=
  if (imm >? 2047) || (imm <? -2048) then None
  else
    let imm := if imm <? 0 then iand (iadd imm 4096) (ishl 1 13 - 1) else imm in
    Some (iadd (iadd (iadd op (ishl rd 7)) (ishl rs1 15)) (ishl imm 20)).

(* src/riscv.c:140-151 rv_encode_S *)
Definition rv_encode_S (op rs1 rs2 imm : Z) : option Z :=
  if (imm >? 2047) || (imm <? -2048) then None
  else
    let imm := if imm <? 0 then iand (iadd imm 4096) (ishl 1 13 - 1) else imm in
    match rv_extract_bits imm 0 4 7 11, rv_extract_bits imm 5 11 25 31 with
    | Some a, Some b =>
        Some (iadd (iadd (iadd (iadd op (ishl rs1 15)) (ishl rs2 20)) a) b)
    | _, _ => None
    end.

(* src/riscv.c:153-167 rv_encode_B *)
Definition rv_encode_B (op rs1 rs2 imm : Z) : option Z :=
  if (imm >? 4095) || (imm <? -4096) then None
  else
    let sign := if imm <? 0 then 1 else 0 in
    match rv_extract_bits imm 11 11 7 7, rv_extract_bits imm 1 4 8 11,
          rv_extract_bits imm 5 10 25 30 with
    | Some a, Some b, Some c =>
        Some (iadd (iadd (iadd (iadd (iadd (iadd op (ishl rs1 15)) (ishl rs2 20)) a) b) c)
                   (ishl sign 31))
    | _, _, _ => None
    end.

(* src/riscv.c:169-181 rv_encode_J  (no range check in the code) *)
Definition rv_encode_J (op rd imm : Z) : option Z :=
  let sign := if imm <? 0 then 1 else 0 in
  let imm := if imm <? 0 then isub (ishl 1 21) (ineg imm) else imm in
  match rv_extract_bits imm 1 10 21 30, rv_extract_bits imm 11 11 20 20,
        rv_extract_bits imm 12 19 12 19 with
  | Some a, Some b, Some c =>
      Some (iadd (iadd (iadd (iadd (iadd op (ishl rd 7)) a) b) c) (ishl sign 31))
  | _, _, _ => None
  end.

(* src/riscv.c:183-186 rv_encode_U *)
Definition rv_encode_U (op rd imm : Z) : option Z :=
  match rv_extract_bits imm 12 31 12 31 with
  | Some a => Some (iadd (iadd op (ishl rd 7)) a)
  | None => None
  end.

(* src/riscv.c:188-401: the mnemonics *)
(* src/riscv.c:188-191 __add *)
Definition e_add rd rs1 rs2 := rv_encode_R rv_add rd rs1 rs2.
(* src/riscv.c:193-196 __sub *)
Definition e_sub rd rs1 rs2 := rv_encode_R rv_sub rd rs1 rs2.
(* src/riscv.c:198-201 __xor *)
Definition e_xor rd rs1 rs2 := rv_encode_R rv_xor rd rs1 rs2.
(* src/riscv.c:203-206 __or *)
Definition e_or rd rs1 rs2 := rv_encode_R rv_or rd rs1 rs2.
(* src/riscv.c:208-211 __and *)
Definition e_and rd rs1 rs2 := rv_encode_R rv_and rd rs1 rs2.
(* src/riscv.c:213-216 __sll *)
Definition e_sll rd rs1 rs2 := rv_encode_R rv_sll rd rs1 rs2.
(* src/riscv.c:218-221 __srl *)
Definition e_srl rd rs1 rs2 := rv_encode_R rv_srl rd rs1 rs2.
(* src/riscv.c:223-226 __sra *)
Definition e_sra rd rs1 rs2 := rv_encode_R rv_sra rd rs1 rs2.
(* src/riscv.c:228-231 __slt *)
Definition e_slt rd rs1 rs2 := rv_encode_R rv_slt rd rs1 rs2.
(* src/riscv.c:233-236 __sltu *)
Definition e_sltu rd rs1 rs2 := rv_encode_R rv_sltu rd rs1 rs2.
(* src/riscv.c:238-241 __addi *)
Definition e_addi rd rs1 imm := rv_encode_I rv_addi rd rs1 imm.
(* src/riscv.c:243-246 __xori *)
Definition e_xori rd rs1 imm := rv_encode_I rv_xori rd rs1 imm.
(* src/riscv.c:248-251 __ori *)
Definition e_ori rd rs1 imm := rv_encode_I rv_ori rd rs1 imm.
(* src/riscv.c:253-256 __andi *)
Definition e_andi rd rs1 imm := rv_encode_I rv_andi rd rs1 imm.
(* src/riscv.c:258-261 __slli *)
Definition e_slli rd rs1 imm := rv_encode_I rv_slli rd rs1 imm.
(* src/riscv.c:263-266 __srli *)
Definition e_srli rd rs1 imm := rv_encode_I rv_srli rd rs1 imm.
(* src/riscv.c:268-271 __srai *)
Definition e_srai rd rs1 imm := rv_encode_I rv_srai rd rs1 imm.
(* src/riscv.c:273-276 __slti *)
Definition e_slti rd rs1 imm := rv_encode_I rv_slti rd rs1 imm.
(* src/riscv.c:278-281 __sltiu *)
Definition e_sltiu rd rs1 imm := rv_encode_I rv_sltiu rd rs1 imm.
(* src/riscv.c:283-286 __lb *)
Definition e_lb rd rs1 imm := rv_encode_I rv_lb rd rs1 imm.
(* src/riscv.c:288-291 __lh *)
Definition e_lh rd rs1 imm := rv_encode_I rv_lh rd rs1 imm.
(* src/riscv.c:293-296 __lw *)
Definition e_lw rd rs1 imm := rv_encode_I rv_lw rd rs1 imm.
(* src/riscv.c:298-301 __lbu *)
Definition e_lbu rd rs1 imm := rv_encode_I rv_lbu rd rs1 imm.
(* src/riscv.c:303-306 __lhu *)
Definition e_lhu rd rs1 imm := rv_encode_I rv_lhu rd rs1 imm.
(* src/riscv.c:308-321: rd is the register stored, rs1 the base *)
(* src/riscv.c:308-311 __sb *)
Definition e_sb rd rs1 imm := rv_encode_S rv_sb rs1 rd imm.
(* src/riscv.c:313-316 __sh *)
Definition e_sh rd rs1 imm := rv_encode_S rv_sh rs1 rd imm.
(* src/riscv.c:318-321 __sw *)
Definition e_sw rd rs1 imm := rv_encode_S rv_sw rs1 rd imm.
(* src/riscv.c:323-326 __beq *)
Definition e_beq rs1 rs2 imm := rv_encode_B rv_beq rs1 rs2 imm.
(* src/riscv.c:328-331 __bne *)
Definition e_bne rs1 rs2 imm := rv_encode_B rv_bne rs1 rs2 imm.
(* src/riscv.c:333-336 __blt *)
Definition e_blt rs1 rs2 imm := rv_encode_B rv_blt rs1 rs2 imm.
(* src/riscv.c:338-341 __bge *)
Definition e_bge rs1 rs2 imm := rv_encode_B rv_bge rs1 rs2 imm.
(* src/riscv.c:343-346 __bltu *)
Definition e_bltu rs1 rs2 imm := rv_encode_B rv_bltu rs1 rs2 imm.
(* src/riscv.c:348-351 __bgeu *)
Definition e_bgeu rs1 rs2 imm := rv_encode_B rv_bgeu rs1 rs2 imm.
(* src/riscv.c:353-356 __jal *)
Definition e_jal rd imm := rv_encode_J rv_jal rd imm.
(* src/riscv.c:358-361 __jalr *)
Definition e_jalr rd rs1 imm := rv_encode_I rv_jalr rd rs1 imm.
(* src/riscv.c:363-366 __lui *)
Definition e_lui rd imm := rv_encode_U rv_lui rd imm.
(* src/riscv.c:368-371 __auipc *)
Definition e_auipc rd imm := rv_encode_U rv_auipc rd imm.
(* src/riscv.c:373-376 __ecall *)
Definition e_ecall := rv_encode_I rv_ecall r_zero r_zero 0.
(* src/riscv.c:378-381 __ebreak *)
Definition e_ebreak := rv_encode_I rv_ebreak r_zero r_zero 1.
(* src/riscv.c:383-386 __nop *)
Definition e_nop := e_addi r_zero r_zero 0.
(* src/riscv.c:388-391 __mul *)
Definition e_mul rd rs1 rs2 := rv_encode_R rv_mul rd rs1 rs2.
(* src/riscv.c:393-396 __div *)
Definition e_div rd rs1 rs2 := rv_encode_R rv_div rd rs1 rs2.
(* src/riscv.c:398-401 __mod *)
Definition e_mod rd rs1 rs2 := rv_encode_R rv_mod rd rs1 rs2.
