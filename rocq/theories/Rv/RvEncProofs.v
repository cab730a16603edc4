(** Correctness of the RISC-V encoder model [RvEnc] against the decoder of
    [RvISA]. *)
From Verif.Base Require Import Int32 Mem.
From Verif.Rv Require Import RvISA RvEnc.

Definition reg5 (r : Z) : Prop := 0 <= r < 32.

(** The mnemonics of src/riscv.c listed by the instruction they stand for. *)
Definition rv_asm (i : rvinstr) : option Z :=
  match i with
  | IR ADD d a b => e_add d a b   | IR SUB d a b => e_sub d a b
  | IR SLL d a b => e_sll d a b   | IR SLT d a b => e_slt d a b
  | IR SLTU d a b => e_sltu d a b | IR XOR d a b => e_xor d a b
  | IR SRL d a b => e_srl d a b   | IR SRA d a b => e_sra d a b
  | IR OR d a b => e_or d a b     | IR AND d a b => e_and d a b
  | IR MUL d a b => e_mul d a b   | IR DIV d a b => e_div d a b
  | IR REM d a b => e_mod d a b
  | II ADDI d a i => e_addi d a i | II SLTI d a i => e_slti d a i
  | II SLTIU d a i => e_sltiu d a i | II XORI d a i => e_xori d a i
  | II ORI d a i => e_ori d a i   | II ANDI d a i => e_andi d a i
  | II SLLI d a i => e_slli d a i | II SRLI d a i => e_srli d a i
  | II SRAI d a i => e_srai d a i
  | IL LB d a i => e_lb d a i | IL LH d a i => e_lh d a i
  | IL LW d a i => e_lw d a i | IL LBU d a i => e_lbu d a i
  | IL LHU d a i => e_lhu d a i
  | IS SB a b i => e_sb b a i | IS SH a b i => e_sh b a i
  | IS SW a b i => e_sw b a i
  | IB BEQ a b i => e_beq a b i | IB BNE a b i => e_bne a b i
  | IB BLT a b i => e_blt a b i | IB BGE a b i => e_bge a b i
  | IB BLTU a b i => e_bltu a b i | IB BGEU a b i => e_bgeu a b i
  | IJAL d i => e_jal d i
  | IJALR d a i => e_jalr d a i
  | ILUI d i => e_lui d i
  | IAUIPC d i => e_auipc d i
  | IECALL => e_ecall
  | IEBREAK => e_ebreak
  end.

(** Operand ranges of the ISA manual. *)
Definition rv_operands_ok (i : rvinstr) : Prop :=
  match i with
  | IR _ d a b => reg5 d /\ reg5 a /\ reg5 b
  | II (SLLI | SRLI | SRAI) d a i => reg5 d /\ reg5 a /\ 0 <= i < 32
  | II _ d a i | IL _ d a i | IJALR d a i => reg5 d /\ reg5 a /\ -2048 <= i <= 2047
  | IS _ a b i => reg5 a /\ reg5 b /\ -2048 <= i <= 2047
  | IB _ a b i => reg5 a /\ reg5 b /\ -4096 <= i <= 4095 /\ i mod 2 = 0
  | IJAL d i => reg5 d /\ -1048576 <= i < 1048576 /\ i mod 2 = 0
  | ILUI d i | IAUIPC d i => reg5 d /\ 0 <= i < 4294967296 /\ i mod 4096 = 0
  | IECALL => True
  | IEBREAK => False
  end.

(** The six-field word. *)
Definition rvw (opc rd f3 rs1 rs2 f7 : Z) : Z :=
  opc + 128 * rd + 4096 * f3 + 32768 * rs1 + 1048576 * rs2 + 33554432 * f7.

Definition rvw_ok (opc rd f3 rs1 rs2 f7 : Z) : Prop :=
  0 <= opc < 128 /\ 0 <= rd < 32 /\ 0 <= f3 < 8 /\ 0 <= rs1 < 32 /\
  0 <= rs2 < 32 /\ 0 <= f7 < 128.

Ltac solve_field :=
  intros; unfold rvw, rvw_ok, bits in *;
  change (2 ^ 0) with 1; change (2 ^ 1) with 2; change (2 ^ 3) with 8;
  change (2 ^ 4) with 16; change (2 ^ 5) with 32; change (2 ^ 6) with 64;
  change (2 ^ 7) with 128; change (2 ^ 8) with 256; change (2 ^ 10) with 1024;
  change (2 ^ 12) with 4096; change (2 ^ 15) with 32768;
  change (2 ^ 20) with 1048576; change (2 ^ 21) with 2097152;
  change (2 ^ 25) with 33554432; change (2 ^ 31) with 2147483648; lia.

Section Fields.
  Variables opc rd f3 rs1 rs2 f7 : Z.
  Hypothesis H : rvw_ok opc rd f3 rs1 rs2 f7.
  Let w := rvw opc rd f3 rs1 rs2 f7.

  Lemma fld_range : 0 <= w < 4294967296.
  Proof. unfold w, rvw, rvw_ok in *; lia. Qed.
  Lemma fld_opc : bits w 0 7 = opc. Proof. subst w; solve_field. Qed.
  Lemma fld_rd : bits w 7 5 = rd. Proof. subst w; solve_field. Qed.
  Lemma fld_f3 : bits w 12 3 = f3. Proof. subst w; solve_field. Qed.
  Lemma fld_rs1 : bits w 15 5 = rs1. Proof. subst w; solve_field. Qed.
  Lemma fld_rs2 : bits w 20 5 = rs2. Proof. subst w; solve_field. Qed.
  Lemma fld_f7 : bits w 25 7 = f7. Proof. subst w; solve_field. Qed.
  Lemma fld_i12 : bits w 20 12 = rs2 + 32 * f7. Proof. subst w; solve_field. Qed.
  Lemma fld_b31 : bits w 31 1 = f7 / 64. Proof. subst w; solve_field. Qed.
  Lemma fld_b7 : bits w 7 1 = rd mod 2. Proof. subst w; solve_field. Qed.
  Lemma fld_b25_6 : bits w 25 6 = f7 mod 64. Proof. subst w; solve_field. Qed.
  Lemma fld_b8_4 : bits w 8 4 = rd / 2. Proof. subst w; solve_field. Qed.
  Lemma fld_u20 : bits w 12 20 = f3 + 8 * rs1 + 256 * rs2 + 8192 * f7.
  Proof. subst w; solve_field. Qed.
  Lemma fld_b12_8 : bits w 12 8 = f3 + 8 * rs1. Proof. subst w; solve_field. Qed.
  Lemma fld_b20 : bits w 20 1 = rs2 mod 2. Proof. subst w; solve_field. Qed.
  Lemma fld_b21_10 : bits w 21 10 = (rs2 + 32 * f7) / 2 mod 1024.
  Proof. subst w; solve_field. Qed.
End Fields.

Lemma rvw_decode opc rd f3 rs1 rs2 f7 :
  rvw_ok opc rd f3 rs1 rs2 f7 -> opc <> 115 ->
  rv_decode (rvw opc rd f3 rs1 rs2 f7) =
  let immI := sext 12 (rs2 + 32 * f7) in
  let immS := sext 12 (f7 * 32 + rd) in
  let immB := sext 13 (f7 / 64 * 4096 + rd mod 2 * 2048 + f7 mod 64 * 32 + rd / 2 * 2) in
  let immU := (f3 + 8 * rs1 + 256 * rs2 + 8192 * f7) * 4096 in
  let immJ := sext 21 (f7 / 64 * 1048576 + (f3 + 8 * rs1) * 4096 + rs2 mod 2 * 2048
                       + (rs2 + 32 * f7) / 2 mod 1024 * 2) in
  match opc with
  | 51 =>
      match f7, f3 with
      | 0, 0 => Some (IR ADD rd rs1 rs2)
      | 32, 0 => Some (IR SUB rd rs1 rs2)
      | 0, 1 => Some (IR SLL rd rs1 rs2)
      | 0, 2 => Some (IR SLT rd rs1 rs2)
      | 0, 3 => Some (IR SLTU rd rs1 rs2)
      | 0, 4 => Some (IR XOR rd rs1 rs2)
      | 0, 5 => Some (IR SRL rd rs1 rs2)
      | 32, 5 => Some (IR SRA rd rs1 rs2)
      | 0, 6 => Some (IR OR rd rs1 rs2)
      | 0, 7 => Some (IR AND rd rs1 rs2)
      | 1, 0 => Some (IR MUL rd rs1 rs2)
      | 1, 4 => Some (IR DIV rd rs1 rs2)
      | 1, 6 => Some (IR REM rd rs1 rs2)
      | _, _ => None
      end
  | 19 =>
      match f3 with
      | 0 => Some (II ADDI rd rs1 immI)
      | 2 => Some (II SLTI rd rs1 immI)
      | 3 => Some (II SLTIU rd rs1 immI)
      | 4 => Some (II XORI rd rs1 immI)
      | 6 => Some (II ORI rd rs1 immI)
      | 7 => Some (II ANDI rd rs1 immI)
      | 1 => if f7 =? 0 then Some (II SLLI rd rs1 rs2) else None
      | 5 => if f7 =? 0 then Some (II SRLI rd rs1 rs2)
             else if f7 =? 32 then Some (II SRAI rd rs1 rs2) else None
      | _ => None
      end
  | 3 =>
      match f3 with
      | 0 => Some (IL LB rd rs1 immI)
      | 1 => Some (IL LH rd rs1 immI)
      | 2 => Some (IL LW rd rs1 immI)
      | 4 => Some (IL LBU rd rs1 immI)
      | 5 => Some (IL LHU rd rs1 immI)
      | _ => None
      end
  | 35 =>
      match f3 with
      | 0 => Some (IS SB rs1 rs2 immS)
      | 1 => Some (IS SH rs1 rs2 immS)
      | 2 => Some (IS SW rs1 rs2 immS)
      | _ => None
      end
  | 99 =>
      match f3 with
      | 0 => Some (IB BEQ rs1 rs2 immB)
      | 1 => Some (IB BNE rs1 rs2 immB)
      | 4 => Some (IB BLT rs1 rs2 immB)
      | 5 => Some (IB BGE rs1 rs2 immB)
      | 6 => Some (IB BLTU rs1 rs2 immB)
      | 7 => Some (IB BGEU rs1 rs2 immB)
      | _ => None
      end
  | 111 => Some (IJAL rd immJ)
  | 103 => if f3 =? 0 then Some (IJALR rd rs1 immI) else None
  | 55 => Some (ILUI rd immU)
  | 23 => Some (IAUIPC rd immU)
  | _ => None
  end.
Proof.
  intros H Hn. unfold rv_decode.
  rewrite (fld_opc _ _ _ _ _ _ H), (fld_rd _ _ _ _ _ _ H), (fld_f3 _ _ _ _ _ _ H),
    (fld_rs1 _ _ _ _ _ _ H), (fld_rs2 _ _ _ _ _ _ H), (fld_f7 _ _ _ _ _ _ H),
    (fld_i12 _ _ _ _ _ _ H), (fld_b31 _ _ _ _ _ _ H), (fld_b7 _ _ _ _ _ _ H),
    (fld_b25_6 _ _ _ _ _ _ H), (fld_b8_4 _ _ _ _ _ _ H), (fld_u20 _ _ _ _ _ _ H),
    (fld_b12_8 _ _ _ _ _ _ H), (fld_b20 _ _ _ _ _ _ H), (fld_b21_10 _ _ _ _ _ _ H).
  cbv zeta.
  destruct H as [Ho _].
  destruct opc as [|p|p]; try reflexivity.
  do 7 (try (destruct p as [p|p|]; try reflexivity; try lia)).
Qed.

(** ** Emitted words in six-field form *)
Lemma w32_ishl_r a b n : w32 (a + ishl b n) = w32 (a + b * 2 ^ n).
Proof. rewrite <- w32_add_r, w32_ishl, w32_add_r. reflexivity. Qed.
Lemma w32_iadd_l a b c : w32 (iadd a b + c) = w32 (a + b + c).
Proof. rewrite <- w32_add_l, w32_iadd, w32_add, w32_add_l. reflexivity. Qed.
Lemma w32_iadd' a b : w32 (iadd a b) = w32 (a + b).
Proof. rewrite w32_iadd, w32_add. reflexivity. Qed.
Lemma w32_ishl_m a b n c : w32 (a + ishl b n + c) = w32 (a + b * 2 ^ n + c).
Proof. rewrite <- w32_add_l, w32_ishl_r, w32_add_l. reflexivity. Qed.

Lemma w32_ishl_l b n c : w32 (ishl b n + c) = w32 (b * 2 ^ n + c).
Proof. rewrite <- w32_add_l, w32_ishl, w32_add_l. reflexivity. Qed.

(** flatten [w32] of a left-nested sum of shifts, by congruence *)
Lemma w32_step_sh a b n x : w32 a = w32 x -> w32 (iadd a (ishl b n)) = w32 (x + b * 2 ^ n).
Proof.
  intros H. rewrite w32_iadd', <- w32_add_l, H, w32_add_l, w32_ishl_r. reflexivity.
Qed.

Lemma enc_R opc f3 f7 rd rs1 rs2 :
  rvw_ok opc rd f3 rs1 rs2 f7 ->
  exists w, rv_encode_R (rvw opc 0 f3 0 0 f7) rd rs1 rs2 = Some w
       /\ w32 w = rvw opc rd f3 rs1 rs2 f7.
Proof.
  intros H. eexists; split; [reflexivity|].
  erewrite w32_step_sh; [|do 2 apply w32_step_sh; reflexivity].
  pose proof (fld_range _ _ _ _ _ _ H).
  unfold rvw in *. change (2^7) with 128. change (2^15) with 32768.
  change (2^20) with 1048576. unfold w32. unfold rvw_ok in H. lia.
Qed.

Lemma land_pow2m1 x k m : 0 <= k -> m = 2 ^ k - 1 -> Z.land x m = x mod 2 ^ k.
Proof. intros H ->. apply land_ones_mod; lia. Qed.

Lemma enc_imm12 imm : -2048 <= imm <= 2047 ->
  (if imm <? 0 then iand (iadd imm 4096) (ishl 1 13 - 1) else imm) = imm mod 4096.
Proof.
  intros. destruct (Z.ltb_spec imm 0).
  - unfold iand. change (ishl 1 13 - 1) with (2 ^ 13 - 1). rewrite land_ones_mod by lia.
    unfold iadd. rewrite wrap_id by (unfold is_i32; lia).
    change (2 ^ 13) with 8192. lia.
  - rewrite Z.mod_small; lia.
Qed.

Lemma sext12_mod imm : -2048 <= imm <= 2047 -> sext 12 (imm mod 4096) = imm.
Proof.
  intros. unfold sext. change (2 ^ (12 - 1)) with 2048. change (2 ^ 12) with 4096.
  destruct (Z.ltb_spec (imm mod 4096) 2048); lia.
Qed.

(* I format: the opcode constant may carry f7 (srai) when imm is a shift amount *)
Lemma enc_I opc f3 rd rs1 imm :
  rvw_ok opc rd f3 rs1 0 0 -> -2048 <= imm <= 2047 ->
  exists w, rv_encode_I (rvw opc 0 f3 0 0 0) rd rs1 imm = Some w
       /\ w32 w = rvw opc rd f3 rs1 (imm mod 32) (imm mod 4096 / 32).
Proof.
  intros H Hi. unfold rv_encode_I.
  replace ((imm >? 2047) || (imm <? -2048)) with false by lia.
  eexists; split; [reflexivity|].
  rewrite enc_imm12 by lia.
  erewrite w32_step_sh; [|do 2 apply w32_step_sh; reflexivity]. unfold rvw, rvw_ok in *.
  change (2^7) with 128. change (2^15) with 32768. change (2^20) with 1048576.
  unfold w32. lia.
Qed.

Lemma enc_I_sh opc f3 f7 rd rs1 imm :
  rvw_ok opc rd f3 rs1 0 f7 -> 0 <= imm < 32 ->
  exists w, rv_encode_I (rvw opc 0 f3 0 0 f7) rd rs1 imm = Some w
       /\ w32 w = rvw opc rd f3 rs1 imm f7.
Proof.
  intros H Hi. unfold rv_encode_I.
  replace ((imm >? 2047) || (imm <? -2048)) with false by lia.
  eexists; split; [reflexivity|].
  rewrite enc_imm12 by lia.
  erewrite w32_step_sh; [|do 2 apply w32_step_sh; reflexivity]. unfold rvw, rvw_ok in *.
  change (2^7) with 128. change (2^15) with 32768. change (2^20) with 1048576.
  unfold w32. lia.
Qed.

Lemma extract_ok imm i n d : 0 <= n -> 0 <= i -> n + 1 <= 30 ->
  rv_extract_bits imm i (i + n) d (d + n) =
  Some (ishl (imm / 2 ^ i mod 2 ^ (n + 1)) d).
Proof.
  intros. unfold rv_extract_bits.
  replace (negb (d + n - d =? i + n - i) || (i >? i + n) || (d >? d + n)) with false by lia.
  replace (i + n - i) with n by lia.
  unfold ishr, iand.
  assert (ishl 2 n = 2 ^ (n + 1)) as ->.
  { unfold ishl. rewrite Z.pow_add_r, Z.pow_1_r by lia. rewrite wrap_id; [lia|].
    assert (2 ^ n <= 2 ^ 29) by (apply Z.pow_le_mono_r; lia).
    assert (0 < 2 ^ n) by (apply Z.pow_pos_nonneg; lia).
    change (2 ^ 29) with 536870912 in *. unfold is_i32. lia. }
  rewrite land_ones_mod by lia. reflexivity.
Qed.

Ltac ext_rw :=
  repeat match goal with
  | |- context [rv_extract_bits ?imm ?a ?b ?c ?d] =>
      let n := eval compute in (b - a) in
      replace (rv_extract_bits imm a b c d)
        with (rv_extract_bits imm a (a + n) c (c + n)) by reflexivity;
      rewrite (extract_ok imm a n c) by lia;
      let k := eval compute in (n + 1) in
      change (n + 1) with k
  end.

Lemma enc_S opc f3 rs1 rs2 imm :
  rvw_ok opc 0 f3 rs1 rs2 0 -> -2048 <= imm <= 2047 ->
  exists w, rv_encode_S (rvw opc 0 f3 0 0 0) rs1 rs2 imm = Some w
       /\ w32 w = rvw opc (imm mod 32) f3 rs1 rs2 (imm mod 4096 / 32).
Proof.
  intros H Hi. unfold rv_encode_S.
  replace ((imm >? 2047) || (imm <? -2048)) with false by lia.
  rewrite enc_imm12 by lia. ext_rw.
  eexists; split; [reflexivity|].
  erewrite w32_step_sh; [|apply w32_step_sh, w32_step_sh, w32_step_sh; reflexivity].
  unfold rvw, rvw_ok in *.
  change (2^7) with 128; change (2^15) with 32768; change (2^20) with 1048576;
  change (2^25) with 33554432; change (2^0) with 1; change (2^5) with 32.
  unfold w32. lia.
Qed.

Lemma enc_B opc f3 rs1 rs2 imm :
  rvw_ok opc 0 f3 rs1 rs2 0 -> -4096 <= imm <= 4095 -> imm mod 2 = 0 ->
  exists w, rv_encode_B (rvw opc 0 f3 0 0 0) rs1 rs2 imm = Some w
       /\ w32 w = rvw opc (imm / 2048 mod 2 + imm mod 32) f3 rs1 rs2
                      (imm / 32 mod 64 + 64 * (imm / 4096 mod 2)).
Proof.
  intros H Hi He. unfold rv_encode_B.
  replace ((imm >? 4095) || (imm <? -4096)) with false by lia. ext_rw.
  eexists; split; [reflexivity|].
  erewrite w32_step_sh; [|do 5 apply w32_step_sh; reflexivity].
  unfold rvw, rvw_ok in *.
  change (2^7) with 128; change (2^15) with 32768; change (2^20) with 1048576;
  change (2^25) with 33554432; change (2^1) with 2; change (2^5) with 32;
  change (2^4) with 16; change (2^6) with 64; change (2^8) with 256;
  change (2^11) with 2048; change (2^31) with 2147483648.
  unfold w32. destruct (Z.ltb_spec imm 0); lia.
Qed.

Lemma enc_J opc rd imm :
  rvw_ok opc rd 0 0 0 0 -> -1048576 <= imm < 1048576 -> imm mod 2 = 0 ->
  exists w, rv_encode_J opc rd imm = Some w
       /\ w32 w = rvw opc rd (imm / 4096 mod 8) (imm / 32768 mod 32)
                      (imm / 2048 mod 2 + imm mod 32)
                      (imm / 32 mod 64 + 64 * (imm / 1048576 mod 2)).
Proof.
  intros H Hi He. unfold rv_encode_J.
  assert ((if imm <? 0 then isub (ishl 1 21) (ineg imm) else imm)
          = if imm <? 0 then imm + 2097152 else imm) as ->.
  { destruct (Z.ltb_spec imm 0); [|reflexivity].
    unfold isub, ineg. change (ishl 1 21) with 2097152.
    rewrite (wrap_id (- imm)) by (unfold is_i32; lia).
    rewrite wrap_id by (unfold is_i32; lia). lia. }
  ext_rw. eexists; split; [reflexivity|].
  erewrite w32_step_sh; [|do 4 apply w32_step_sh; reflexivity].
  unfold rvw, rvw_ok in *.
  change (2^7) with 128; change (2^12) with 4096; change (2^20) with 1048576;
  change (2^21) with 2097152; change (2^1) with 2; change (2^10) with 1024;
  change (2^11) with 2048; change (2^8) with 256; change (2^31) with 2147483648.
  unfold w32. destruct (Z.ltb_spec imm 0); lia.
Qed.

Lemma enc_U opc rd imm :
  rvw_ok opc rd 0 0 0 0 ->
  exists w, rv_encode_U opc rd imm = Some w
       /\ w32 w = rvw opc rd (imm / 4096 mod 8) (imm / 32768 mod 32)
                      (imm / 1048576 mod 32) (imm / 33554432 mod 128).
Proof.
  intros H. unfold rv_encode_U. ext_rw. eexists; split; [reflexivity|].
  erewrite w32_step_sh; [|apply w32_step_sh; reflexivity].
  unfold rvw, rvw_ok in *.
  change (2^7) with 128; change (2^12) with 4096; change (2^20) with 1048576.
  unfold w32. lia.
Qed.

(** ** Round trip *)
Ltac rvok := unfold rvw_ok, reg5 in *; lia.

Ltac done_dec w Ew Ew32 :=
  exists w; split; [exact Ew|]; rewrite Ew32, rvw_decode by rvok; cbv zeta.

Ltac r_case opc f3 f7 :=
  match goal with
  | H : _ /\ _ /\ _ |- exists w, rv_encode_R ?op ?d ?a ?b = Some w /\ _ =>
      change op with (rvw opc 0 f3 0 0 f7);
      let w := fresh "w" in let E := fresh "E" in let E32 := fresh "E32" in
      destruct (enc_R opc f3 f7 d a b) as (w & E & E32); [rvok|];
      done_dec w E E32; reflexivity
  end.

Lemma sext12_parts imm : -2048 <= imm <= 2047 ->
  sext 12 (imm mod 32 + 32 * (imm mod 4096 / 32)) = imm.
Proof.
  intros. replace (imm mod 32 + 32 * (imm mod 4096 / 32)) with (imm mod 4096) by lia.
  apply sext12_mod; lia.
Qed.
Lemma sext12_parts' imm : -2048 <= imm <= 2047 ->
  sext 12 (imm mod 4096 / 32 * 32 + imm mod 32) = imm.
Proof.
  intros. replace (imm mod 4096 / 32 * 32 + imm mod 32) with (imm mod 4096) by lia.
  apply sext12_mod; lia.
Qed.

Ltac i_case opc f3 :=
  match goal with
  | H : _ /\ _ /\ _ |- exists w, rv_encode_I ?op ?d ?a ?i = Some w /\ _ =>
      change op with (rvw opc 0 f3 0 0 0);
      let w := fresh "w" in let E := fresh "E" in let E32 := fresh "E32" in
      destruct (enc_I opc f3 d a i) as (w & E & E32); [rvok|lia|];
      done_dec w E E32; rewrite sext12_parts by lia; reflexivity
  end.
Ltac ish_case opc f3 f7 :=
  match goal with
  | H : _ /\ _ /\ _ |- exists w, rv_encode_I ?op ?d ?a ?i = Some w /\ _ =>
      change op with (rvw opc 0 f3 0 0 f7);
      let w := fresh "w" in let E := fresh "E" in let E32 := fresh "E32" in
      destruct (enc_I_sh opc f3 f7 d a i) as (w & E & E32); [rvok|lia|];
      done_dec w E E32; reflexivity
  end.
Ltac s_case f3 :=
  match goal with
  | H : _ /\ _ /\ _ |- exists w, rv_encode_S ?op ?a ?b ?i = Some w /\ _ =>
      change op with (rvw 35 0 f3 0 0 0);
      let w := fresh "w" in let E := fresh "E" in let E32 := fresh "E32" in
      destruct (enc_S 35 f3 a b i) as (w & E & E32); [rvok|lia|];
      done_dec w E E32; rewrite sext12_parts' by lia; reflexivity
  end.

Lemma immB_parts i : -4096 <= i <= 4095 -> i mod 2 = 0 ->
  sext 13 ((i / 32 mod 64 + 64 * (i / 4096 mod 2)) / 64 * 4096
     + (i / 2048 mod 2 + i mod 32) mod 2 * 2048
     + (i / 32 mod 64 + 64 * (i / 4096 mod 2)) mod 64 * 32
     + (i / 2048 mod 2 + i mod 32) / 2 * 2) = i.
Proof.
  intros. unfold sext. change (2 ^ (13 - 1)) with 4096. change (2 ^ 13) with 8192.
  match goal with |- (if ?x <? _ then _ else _) = _ => replace x with (i mod 8192) by lia end.
  destruct (Z.ltb_spec (i mod 8192) 4096); lia.
Qed.

Lemma immJ_parts i : -1048576 <= i < 1048576 -> i mod 2 = 0 ->
  sext 21 ((i / 32 mod 64 + 64 * (i / 1048576 mod 2)) / 64 * 1048576
     + (i / 4096 mod 8 + 8 * (i / 32768 mod 32)) * 4096
     + (i / 2048 mod 2 + i mod 32) mod 2 * 2048
     + (i / 2048 mod 2 + i mod 32
        + 32 * (i / 32 mod 64 + 64 * (i / 1048576 mod 2))) / 2 mod 1024 * 2) = i.
Proof.
  intros. unfold sext. change (2 ^ (21 - 1)) with 1048576. change (2 ^ 21) with 2097152.
  match goal with |- (if ?x <? _ then _ else _) = _ => replace x with (i mod 2097152) by lia end.
  destruct (Z.ltb_spec (i mod 2097152) 1048576); lia.
Qed.

Ltac b_case f3 :=
  match goal with
  | H : _ /\ _ /\ _ |- exists w, rv_encode_B ?op ?a ?b ?i = Some w /\ _ =>
      change op with (rvw 99 0 f3 0 0 0);
      let w := fresh "w" in let E := fresh "E" in let E32 := fresh "E32" in
      destruct (enc_B 99 f3 a b i) as (w & E & E32); [rvok|lia|lia|];
      done_dec w E E32; rewrite immB_parts by lia; reflexivity
  end.

Theorem rv_asm_ok i : rv_operands_ok i ->
  exists w, rv_asm i = Some w /\ rv_decode (w32 w) = Some i.
Proof.
  intros H. destruct i as [o d a b|o d a i|o d a i|o a b i|o a b i|d i|d a i|d i|d i| |];
    try destruct o; cbn [rv_operands_ok rv_asm] in *;
    unfold e_add, e_sub, e_sll, e_slt, e_sltu, e_xor, e_srl, e_sra, e_or, e_and,
      e_mul, e_div, e_mod, e_addi, e_slti, e_sltiu, e_xori, e_ori, e_andi, e_slli,
      e_srli, e_srai, e_lb, e_lh, e_lw, e_lbu, e_lhu, e_sb, e_sh, e_sw,
      e_beq, e_bne, e_blt, e_bge, e_bltu, e_bgeu, e_jal, e_jalr, e_lui, e_auipc.
  - r_case 51 0 0. - r_case 51 0 32. - r_case 51 1 0. - r_case 51 2 0.
  - r_case 51 3 0. - r_case 51 4 0. - r_case 51 5 0. - r_case 51 5 32.
  - r_case 51 6 0. - r_case 51 7 0. - r_case 51 0 1. - r_case 51 4 1. - r_case 51 6 1.
  - i_case 19 0. - i_case 19 2. - i_case 19 3. - i_case 19 4. - i_case 19 6. - i_case 19 7.
  - ish_case 19 1 0. - ish_case 19 5 0. - ish_case 19 5 32.
  - i_case 3 0. - i_case 3 1. - i_case 3 2. - i_case 3 4. - i_case 3 5.
  - s_case 0. - s_case 1. - s_case 2.
  - b_case 0. - b_case 1. - b_case 4. - b_case 5. - b_case 6. - b_case 7.
  - destruct (enc_J 111 d i) as (w & E & E32); [rvok|lia|lia|].
    done_dec w E E32. rewrite immJ_parts by lia. reflexivity.
  - i_case 103 0.
  - destruct (enc_U 55 d i) as (w & E & E32); [rvok|].
    done_dec w E E32. do 2 f_equal. lia.
  - destruct (enc_U 23 d i) as (w & E & E32); [rvok|].
    done_dec w E E32. do 2 f_equal. lia.
  - exists 115. split; reflexivity.
  - contradiction.
Qed.

Theorem rv_asm_rejects i :
  match i with
  | II _ _ _ i | IL _ _ _ i | IJALR _ _ i | IS _ _ _ i => i < -2048 \/ 2047 < i
  | IB _ _ _ i => i < -4096 \/ 4095 < i
  | _ => False
  end -> rv_asm i = None.
Proof.
  intros H. destruct i as [o d a b|o d a i|o d a i|o a b i|o a b i|d i|d a i|d i|d i| |];
    try contradiction; try destruct o;
    cbn [rv_asm]; unfold e_addi, e_slti, e_sltiu, e_xori, e_ori, e_andi, e_slli,
      e_srli, e_srai, e_lb, e_lh, e_lw, e_lbu, e_lhu, e_sb, e_sh, e_sw,
      e_beq, e_bne, e_blt, e_bge, e_bltu, e_bgeu, e_jalr, rv_encode_I, rv_encode_S, rv_encode_B;
  match goal with |- context [if ?c then _ else _] => replace c with true by lia end; reflexivity.
Qed.

(** lui/addi pairs: what [rv_hi]/[rv_lo] compute *)
Lemma land_2048 v : Z.land v 2048 = 2048 * (v / 2048 mod 2).
Proof.
  change 2048 with (2 ^ 11) at 1.
  assert (Z.land v (2 ^ 11) = Z.shiftl (Z.land (Z.shiftr v 11) 1) 11) as ->.
  { apply Z.bits_inj'. intros k Hk. rewrite Z.land_spec, Z.shiftl_spec, Z.pow2_bits_eqb by lia.
    destruct (Z.eqb_spec 11 k).
    - subst. rewrite Z.land_spec, Z.shiftr_spec by lia. reflexivity.
    - rewrite andb_false_r. destruct (Z.ltb_spec k 11).
      + rewrite Z.testbit_neg_r by lia. reflexivity.
      + rewrite Z.land_spec. change 1 with (2 ^ 0). rewrite Z.pow2_bits_false by lia.
        rewrite andb_false_r. reflexivity. }
  change 1 with (2 ^ 1 - 1). rewrite land_ones_mod by lia.
  rewrite Z.shiftr_div_pow2, Z.shiftl_mul_pow2 by lia.
  change (2 ^ 11) with 2048. change (2 ^ 1) with 2. lia.
Qed.

Lemma rv_lo_val v : rv_lo v = (v + 2048) mod 4096 - 2048.
Proof.
  unfold rv_lo, isub, iand, ishl. change 4095 with (2 ^ 12 - 1). rewrite land_ones_mod by lia.
  change (wrap (1 * 2 ^ 11)) with 2048. rewrite land_2048.
  change (2 ^ 1) with 2. change (2 ^ 12) with 4096.
  rewrite (wrap_id (2048 * _ * 2)) by (unfold is_i32; lia).
  rewrite wrap_id by (unfold is_i32; lia). lia.
Qed.

Lemma rv_lo_range v : -2048 <= rv_lo v <= 2047.
Proof. rewrite rv_lo_val. lia. Qed.

Lemma rv_hi_val v : w32 (rv_hi v) = w32 (v + 4096 * (v / 2048 mod 2)).
Proof.
  unfold rv_hi, iadd, ishl, iand. rewrite w32_wrap. change (wrap (1 * 2 ^ 11)) with 2048.
  rewrite land_2048. change (2 ^ 1) with 2.
  rewrite wrap_id by (unfold is_i32; lia). f_equal. lia.
Qed.

(** value loaded by [lui rd, rv_hi v]: bits 31..12 of rv_hi v *)
Definition lui_val (v : Z) : Z := w32 (rv_hi v) / 4096 * 4096.

Lemma lui_addi v : w32 (lui_val v + rv_lo v) = w32 v.
Proof.
  unfold lui_val. rewrite rv_hi_val, rv_lo_val. unfold w32. lia.
Qed.

Lemma e_lui_hi d v : reg5 d ->
  exists w, e_lui d (rv_hi v) = Some w /\ rv_decode (w32 w) = Some (ILUI d (lui_val v)).
Proof.
  intros Hd. unfold e_lui. destruct (enc_U 55 d (rv_hi v)) as (w & E & E32); [rvok|].
  done_dec w E E32. do 2 f_equal. unfold lui_val, w32. lia.
Qed.
