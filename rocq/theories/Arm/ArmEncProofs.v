(** Correctness of the ARM encoder model [ArmEnc] against the decoder of [ArmISA]. *)
From Verif.Base Require Import Int32 Mem.
From Verif.Arm Require Import ArmISA ArmEnc.

Definition reg4 (r : Z) : Prop := 0 <= r < 16.
Definition reg15 (r : Z) : Prop := 0 <= r < 15.

Definition cond_num (c : cond) : Z :=
  match c with
  | EQ => 0 | NE => 1 | CS => 2 | CC => 3 | MI => 4 | PL => 5 | VS => 6 | VC => 7
  | HI => 8 | LS => 9 | GE => 10 | LT => 11 | GT => 12 | LE => 13 | AL => 14
  end.
Definition sh_num (t : shty) : Z := match t with LSL => logic_ls | LSR => logic_rs | ASR => arith_rs end.
Definition b2z (b : bool) : Z := if b then 1 else 0.

(** The mnemonic functions of src/arm.c, listed by the instruction they stand for
    ([None]: there is no such mnemonic). *)
Definition arm_asm (c : cond) (i : ainstr) : option Z :=
  let cn := cond_num c in
  match i with
  | ADp AND false rd rn (OReg rm LSL 0) => e_and_r cn rd rn rm
  | ADp ORR false rd rn (OReg rm LSL 0) => e_or_r cn rd rn rm
  | ADp EOR false rd rn (OReg rm LSL 0) => e_eor_r cn rd rn rm
  | ADp ADD false rd rn (OReg rm LSL 0) => e_add_r cn rd rn rm
  | ADp SUB false rd rn (OReg rm LSL 0) => e_sub_r cn rd rn rm
  | ADp MVN false rd 0 (OReg rm LSL 0) => e_mvn_r cn rd rm
  | ADp MOV false rd 0 (OReg rm LSL 0) => e_mov_r cn rd rm
  | ADp MOV s rd 0 (OReg rm LSL n) => e_sll_amt cn (b2z s) logic_ls rd rm n
  | ADp MOV s rd 0 (OReg rm t n) => e_srl_amt cn (b2z s) (sh_num t) rd rm n
  | ADp MOV false rd 0 (ORsr rm LSL rs) => e_sll cn rd rm rs
  | ADp MOV false rd 0 (ORsr rm LSR rs) => e_srl cn rd rm rs
  | ADp MOV false rd 0 (ORsr rm ASR rs) => e_sra cn rd rm rs
  | ADp CMP true 0 rn (OReg rm LSL 0) => e_cmp_r cn rn rm
  | ADp MOV false rd 0 (OImm v 0) => e_mov_i cn rd v
  | ADp ADD false rd rn (OImm v 0) => e_add_i cn rd rn v
  | ADp SUB false rd rn (OImm v 0) => e_add_i cn rd rn (- v)
  | ADp RSB false rd rn (OImm v 0) => e_rsb_i cn rd v rn
  | ADp CMP true 0 rn (OImm v 0) => e_cmp_i cn rn v
  | ADp TEQ true 0 rn (OImm 0 0) => match c with AL => e_teq rn | _ => None end
  | AMovw rd v => e_movw cn rd v
  | AMovt rd v => e_movt cn rd (ishl v 16)
  | AMul rd rn rm => e_mul cn rd rm rn
  | ASdiv rd rn rm => e_div cn rd rm rn
  | ALdr b rt rn o => if b then e_lb cn rt rn o else e_lw cn rt rn o
  | AStr b rt rn o => if b then e_sb cn rt rn o else e_sw cn rt rn o
  | AStmdb wb rn regs => e_stmdb cn (b2z wb) rn regs
  | ALdmia wb rn regs => e_ldm cn (b2z wb) rn regs
  | AB o => e_b cn (o + 8)
  | ABl o => e_bl cn (o + 8)
  | ABlx rm => e_blx cn rm
  | ASvc 0 => match c with AL => e_svc | _ => None end
  | _ => None
  end.

(** Operand ranges of the manual, for the forms that have a mnemonic. *)
Definition arm_operands_ok (c : cond) (i : ainstr) : Prop :=
  match i with
  | ADp (AND | ORR | EOR | ADD | SUB) s rd rn (OReg rm t n) =>
      reg4 rd /\ reg4 rn /\ reg4 rm /\ s = false /\ t = LSL /\ n = 0
  | ADp MVN s rd rn (OReg rm t n) => reg4 rd /\ rn = 0 /\ reg4 rm /\ s = false /\ t = LSL /\ n = 0
  | ADp MOV s rd rn (OReg rm t n) =>
      reg4 rd /\ rn = 0 /\ reg4 rm /\ (s = false /\ t = LSL /\ n = 0 \/ 1 <= n < 32)
  | ADp MOV s rd rn (ORsr rm t rs) => reg15 rd /\ rn = 0 /\ reg15 rm /\ reg15 rs /\ s = false
  | ADp CMP s rd rn (OReg rm t n) => rd = 0 /\ reg4 rn /\ reg4 rm /\ s = true /\ t = LSL /\ n = 0
  | ADp MOV s rd rn (OImm v r) => reg4 rd /\ rn = 0 /\ s = false /\ 0 <= v < 256 /\ r = 0
  | ADp (ADD | RSB) s rd rn (OImm v r) =>
      reg4 rd /\ reg4 rn /\ s = false /\ 0 <= v < 256 /\ r = 0
  | ADp SUB s rd rn (OImm v r) =>
      reg4 rd /\ reg4 rn /\ s = false /\ 0 < v < 256 /\ r = 0
  | ADp CMP s rd rn (OImm v r) => rd = 0 /\ reg4 rn /\ s = true /\ 0 <= v < 256 /\ r = 0
  | ADp TEQ s rd rn (OImm v r) => rd = 0 /\ reg4 rn /\ s = true /\ v = 0 /\ r = 0 /\ c = AL
  | AMovw rd v | AMovt rd v => reg15 rd /\ 0 <= v < 65536
  | AMul rd rn rm | ASdiv rd rn rm => reg15 rd /\ reg15 rn /\ reg15 rm
  | ALdr _ rt rn o | AStr _ rt rn o => reg15 rt /\ reg4 rn /\ -4096 < o < 4096
  | AStmdb wb rn regs | ALdmia wb rn regs =>
      reg15 rn /\ 0 < regs < 32768 /\ (wb = true -> bit regs rn = false)
  | AB o | ABl o => -33554432 <= o < 33554432 /\ o mod 4 = 0
  | ABlx rm => reg15 rm
  | ASvc v => v = 0 /\ c = AL
  | _ => False
  end.

(** * the five-field word *)
Definition armw (c op rn rd lo : Z) : Z :=
  c * 268435456 + op * 1048576 + rn * 65536 + rd * 4096 + lo.
Definition armw_ok (c op rn rd lo : Z) : Prop :=
  0 <= c < 16 /\ 0 <= op < 256 /\ 0 <= rn < 16 /\ 0 <= rd < 16 /\ 0 <= lo < 4096.

Lemma armw_decode c op rn rd lo : armw_ok c op rn rd lo ->
  arm_decode (armw c op rn rd lo) =
  match cond_of c, adec op rn rd lo with Some c, Some i => Some (c, i) | _, _ => None end.
Proof.
  unfold armw_ok, arm_decode. intros H.
  assert (bits (armw c op rn rd lo) 28 4 = c) as ->.
  { unfold bits, armw. change (2 ^ 28) with 268435456. change (2 ^ 4) with 16. lia. }
  assert (bits (armw c op rn rd lo) 20 8 = op) as ->.
  { unfold bits, armw. change (2 ^ 20) with 1048576. change (2 ^ 8) with 256. lia. }
  assert (bits (armw c op rn rd lo) 16 4 = rn) as ->.
  { unfold bits, armw. change (2 ^ 16) with 65536. change (2 ^ 4) with 16. lia. }
  assert (bits (armw c op rn rd lo) 12 4 = rd) as ->.
  { unfold bits, armw. change (2 ^ 12) with 4096. change (2 ^ 4) with 16. lia. }
  assert (bits (armw c op rn rd lo) 0 12 = lo) as ->.
  { unfold bits, armw. change (2 ^ 0) with 1. change (2 ^ 12) with 4096. lia. }
  reflexivity.
Qed.

Lemma cond_num_range c : 0 <= cond_num c < 15.
Proof. destruct c; cbn; lia. Qed.
Lemma cond_of_num c : cond_of (cond_num c) = Some c.
Proof. destruct c; reflexivity. Qed.

Lemma dec_word c w op rn rd lo i :
  0 <= op < 256 -> 0 <= rn < 16 -> 0 <= rd < 16 -> 0 <= lo < 4096 ->
  w32 w = armw (cond_num c) op rn rd lo -> adec op rn rd lo = Some i ->
  arm_decode (w32 w) = Some (c, i).
Proof.
  intros H1 H2 H3 H4 -> E. pose proof (cond_num_range c).
  rewrite armw_decode by (unfold armw_ok; lia).
  rewrite cond_of_num, E. reflexivity.
Qed.

Lemma w32_iadd_cong a b x y : w32 a = w32 x -> w32 b = w32 y -> w32 (iadd a b) = w32 (x + y).
Proof. intros H1 H2. rewrite w32_iadd, H1, H2. apply w32_add. Qed.

Lemma enc_w32 c op rn rd lo : w32 (arm_encode c op rn rd lo) =
  w32 (c * 268435456 + op * 1048576 + rn * 65536 + rd * 4096 + lo).
Proof.
  unfold arm_encode.
  repeat apply w32_iadd_cong; try reflexivity; rewrite w32_ishl; reflexivity.
Qed.

(** [lo] may spill into the rd field (register lists) *)
Lemma enc_w c op rn rd lo :
  0 <= op < 256 -> 0 <= rn < 16 -> 0 <= rd < 16 -> 0 <= lo < 4096 ->
  w32 (arm_encode (cond_num c) op rn rd lo) = armw (cond_num c) op rn rd lo.
Proof.
  intros. rewrite enc_w32. unfold w32, armw. pose proof (cond_num_range c). lia.
Qed.

Lemma enc_dec c op rn rd lo i :
  0 <= op < 256 -> 0 <= rn < 16 -> 0 <= rd < 16 -> 0 <= lo < 4096 ->
  adec op rn rd lo = Some i ->
  arm_decode (w32 (arm_encode (cond_num c) op rn rd lo)) = Some (c, i).
Proof. intros. eapply dec_word; [..|apply enc_w; assumption| ]; assumption. Qed.

(** * decoding of the low field *)
Lemma bitE w n m : 2 ^ n = m -> bit w n = (w / m mod 2 =? 1).
Proof. intros <-. reflexivity. Qed.

Lemma adec_reg op o s rn rd rm t amt sh :
  0 <= op < 32 -> dp_of (op / 2) s = Some o -> bit op 0 = s -> op / 8 <> 2 \/ s = true ->
  0 <= rm < 16 -> 0 <= amt < 32 -> sh_of sh = Some t ->
  (amt = 0 -> t = LSL) ->
  adec op rn rd (rm + 32 * sh + 128 * amt) = Some (ADp o s rd rn (OReg rm t amt)).
Proof.
  intros Hop Ho Hs H8 Hrm Ha Ht H0.
  assert (0 <= sh < 3) as Hsh.
  { destruct sh as [|[[]|[]|]|]; cbn in Ht; try discriminate; lia. }
  unfold adec. cbv zeta.
  rewrite (bitE _ 4 16), (bitE _ 7 128) by reflexivity. rewrite Hs.
  replace ((rm + 32 * sh + 128 * amt) / 16 mod 2 =? 1) with false by lia.
  replace ((rm + 32 * sh + 128 * amt) mod 16) with rm by lia.
  replace (op <? 32) with true by lia. cbn [andb].
  replace ((op / 8 =? 2) && negb s) with false
    by (destruct H8 as [H8| ->]; [lia|apply eq_sym, andb_false_r]).
  rewrite Ho. cbn [obind].
  replace ((rm + 32 * sh + 128 * amt) / 32 mod 4) with sh by lia. rewrite Ht. cbn [obind].
  replace ((rm + 32 * sh + 128 * amt) / 128) with amt by lia.
  destruct t; try reflexivity;
    (replace (amt =? 0) with false by (destruct (Z.eqb_spec amt 0); [discriminate (H0 e)|reflexivity]));
    reflexivity.
Qed.

Lemma adec_rsr op o s rn rd rm t rs sh :
  0 <= op < 32 -> dp_of (op / 2) s = Some o -> bit op 0 = s -> op / 8 <> 2 \/ s = true ->
  0 <= rm < 15 -> 0 <= rs < 15 -> 0 <= rd < 15 -> 0 <= rn < 15 -> sh_of sh = Some t ->
  adec op rn rd (rm + 16 + 32 * sh + 256 * rs) = Some (ADp o s rd rn (ORsr rm t rs)).
Proof.
  intros Hop Ho Hs H8 Hrm Ha Hd Hn Ht.
  assert (0 <= sh < 3) as Hsh.
  { destruct sh as [|[[]|[]|]|]; cbn in Ht; try discriminate; lia. }
  unfold adec. cbv zeta.
  rewrite (bitE _ 4 16), (bitE _ 7 128) by reflexivity. rewrite Hs.
  replace ((rm + 16 + 32 * sh + 256 * rs) / 128 mod 2 =? 1) with false by lia.
  replace ((rm + 16 + 32 * sh + 256 * rs) / 16 mod 2 =? 1) with true by lia.
  replace ((rm + 16 + 32 * sh + 256 * rs) mod 16) with rm by lia.
  replace (op <? 32) with true by lia. cbn [andb].
  replace ((op / 8 =? 2) && negb s) with false
    by (destruct H8 as [H8| ->]; [lia|apply eq_sym, andb_false_r]).
  rewrite Ho. cbn [obind].
  replace ((rm + 16 + 32 * sh + 256 * rs) / 32 mod 4) with sh by lia. rewrite Ht. cbn [obind].
  replace ((rm + 16 + 32 * sh + 256 * rs) / 256) with rs by lia.
  replace ((rd =? 15) || (rn =? 15) || (rm =? 15) || (rs =? 15)) with false by lia.
  reflexivity.
Qed.

Lemma adec_imm op o s rn rd v r :
  32 <= op < 64 -> op <> 48 -> op <> 52 -> dp_of (op / 2 - 16) s = Some o -> bit op 0 = s ->
  0 <= v < 256 -> 0 <= r < 16 ->
  adec op rn rd (v + 256 * r) = Some (ADp o s rd rn (OImm v r)).
Proof.
  intros Hop H1 H2 Ho Hs Hv Hr. unfold adec. cbv zeta. rewrite Hs.
  replace (op <? 32) with false by lia. replace (op <? 64) with true by lia.
  replace (op =? 48) with false by lia. replace (op =? 52) with false by lia.
  rewrite Ho. cbn [obind].
  replace ((v + 256 * r) mod 256) with v by lia. replace ((v + 256 * r) / 256) with r by lia.
  reflexivity.
Qed.

(** * __mov *)
Lemma e_movx_small c io o s rn rd v : v <= 255 -> 0 <= v ->
  e_movx c io o s rn rd v = Some (arm_encode c (iadd (iadd s (ishl o 1)) (ishl io 5)) rn rd v).
Proof.
  intros. unfold e_movx. replace (v >? 255) with false by lia.
  replace (iadd (ishl 0 8) (iand v 255)) with v; [reflexivity|].
  unfold iand. change 255 with (2 ^ 8 - 1). rewrite land_ones_mod by lia.
  change (2 ^ 8) with 256. rewrite Z.mod_small by lia.
  change (ishl 0 8) with 0. unfold iadd. rewrite wrap_id; [lia|]. unfold is_i32. lia.
Qed.

Lemma land3 x : iand x 3 = x mod 4.
Proof. unfold iand. change 3 with (2 ^ 2 - 1). rewrite land_ones_mod by lia. reflexivity. Qed.

Lemma mov_rot_spec fuel : forall v sh v' sh',
  0 < v < 4 ^ Z.of_nat fuel -> 0 <= sh <= 16 -> Z.of_nat fuel <= sh ->
  mov_rot fuel v sh = (v', sh') ->
  0 < v' /\ v = v' * 4 ^ (sh - sh') /\ 0 < sh' <= sh /\ v' mod 4 <> 0.
Proof.
  induction fuel as [|n IH]; intros v sh v' sh' Hv Hs Hf E.
  - change (4 ^ Z.of_nat 0) with 1 in Hv. lia.
  - cbn [mov_rot] in E. rewrite land3 in E.
    destruct (Z.eqb_spec (v mod 4) 0) as [Hm|Hm].
    + unfold ishr, isub in E. change (2 ^ 2) with 4 in E.
      rewrite wrap_id in E by (unfold is_i32; lia).
      rewrite Nat2Z.inj_succ, Z.pow_succ_r in Hv by lia.
      specialize (IH (v / 4) (sh - 1) v' sh').
      destruct IH as (H1 & H2 & H3 & H4); [lia|lia|lia|exact E|].
      repeat split; try lia.
      replace (sh - sh') with (Z.succ (sh - 1 - sh')) by lia.
      rewrite Z.pow_succ_r by lia. lia.
    + inversion E; subst. rewrite Z.sub_diag. change (4 ^ 0) with 1. lia.
Qed.

(** The rotation loop finds the encoding whenever the value is an 8-bit value
    shifted left by an even amount, and reports failure otherwise. *)
Lemma e_movx_imm c io o s rn rd v :
  255 < v < 2147483648 ->
  (exists b n, 0 < b < 256 /\ 1 <= n < 16 /\ v = b * 4 ^ n /\
     e_movx c io o s rn rd v =
     Some (arm_encode c (iadd (iadd s (ishl o 1)) (ishl io 5)) rn rd (b + 256 * (16 - n)))) \/
  ((forall b n, 0 <= b < 256 -> 0 <= n < 16 -> v <> b * 4 ^ n) /\ e_movx c io o s rn rd v = None).
Proof.
  intros Hv. unfold e_movx. replace (v >? 255) with true by lia.
  destruct (mov_rot 16 v 16) as [v' sh'] eqn:E.
  apply mov_rot_spec in E; [|cbn; lia|lia|cbn; lia].
  destruct E as (H1 & H2 & H3 & H4).
  destruct (v' >? 255) eqn:Eg.
  - right. split; [|reflexivity]. intros b n Hb Hn Hbn.
    (* v = b*4^n = v' * 4^k with v' odd-ish and > 255 *)
    set (q := 16 - sh') in *.
    destruct (Z_le_gt_dec n q) as [L|L].
    + assert (b = v' * 4 ^ (q - n)) as Hb'.
      { apply (Z.mul_cancel_r _ _ (4 ^ n)); [apply Z.pow_nonzero; lia|].
        rewrite <- Z.mul_assoc, <- Z.pow_add_r by lia.
        replace (q - n + n) with q by lia. lia. }
      assert (1 <= 4 ^ (q - n)) by (pose proof (Z.pow_pos_nonneg 4 (q - n)); lia). nia.
    + assert (v' = b * 4 ^ (n - q)) as Hb'.
      { apply (Z.mul_cancel_r _ _ (4 ^ q)); [apply Z.pow_nonzero; lia|].
        rewrite <- Z.mul_assoc, <- Z.pow_add_r by lia.
        replace (n - q + q) with n by lia. lia. }
      apply H4. rewrite Hb'. replace (n - q) with (Z.succ (n - q - 1)) by lia.
      rewrite Z.pow_succ_r by lia.
      replace (b * (4 * 4 ^ (n - q - 1))) with (b * 4 ^ (n - q - 1) * 4) by lia.
      apply Z_mod_mult.
  - left. exists v', (16 - sh'). 
    assert (16 - sh' <> 0) as Hnz.
    { intros Hz. rewrite Hz in H2. change (4 ^ 0) with 1 in H2. lia. }
    repeat split; try lia.
    do 2 f_equal. unfold iand. change 255 with (2 ^ 8 - 1). rewrite land_ones_mod by lia.
    change (2 ^ 8) with 256. rewrite Z.mod_small by lia.
    unfold ishl. change (2 ^ 8) with 256. rewrite (wrap_id (sh' * 256)) by (unfold is_i32; lia).
    unfold iadd. rewrite wrap_id by (unfold is_i32; lia). lia.
Qed.

Ltac pcst p := lazymatch p with xH => idtac | xO ?q => pcst q | xI ?q => pcst q end.
Ltac zcst x := lazymatch x with Z0 => idtac | Zpos ?p => pcst p end.
Ltac movx_small := rewrite e_movx_small by (unfold reg4, reg15 in *; lia).
Ltac reg_case rm :=
  eexists; split; [movx_small; reflexivity|];
  apply enc_dec; [vm_compute; split; congruence|unfold reg4 in *; lia..|];
  replace rm with (rm + 32 * 0 + 128 * 0) at 1 by lia;
  apply adec_reg; first [reflexivity | unfold reg4 in *; lia | vm_compute; intuition congruence].
Ltac imm_case v :=
  eexists; split; [movx_small; reflexivity|];
  apply enc_dec; [vm_compute; split; congruence|unfold reg4 in *; lia..|];
  replace v with (v + 256 * 0) at 1 by lia;
  apply adec_imm; first [reflexivity | unfold reg4 in *; lia | vm_compute; intuition congruence].

Lemma iadd_small a b : is_i32 (a + b) -> iadd a b = a + b.
Proof. apply wrap_id. Qed.
Lemma ishl_small a n : is_i32 (a * 2 ^ n) -> ishl a n = a * 2 ^ n.
Proof. apply wrap_id. Qed.

Lemma arm_extract_ok imm i n d : 0 <= n -> 0 <= i -> n + 1 <= 30 ->
  arm_extract_bits imm i (i + n) d (d + n) = Some (ishl (imm / 2 ^ i mod 2 ^ (n + 1)) d).
Proof.
  intros. unfold arm_extract_bits.
  replace (negb (d + n - d =? i + n - i) || (i >? i + n) || (d >? d + n)) with false by lia.
  replace (i + n - i) with n by lia. unfold ishr, iand.
  assert (ishl 2 n = 2 ^ (n + 1)) as ->.
  { unfold ishl. rewrite Z.pow_add_r, Z.pow_1_r by lia. rewrite wrap_id; [lia|].
    assert (2 ^ n <= 2 ^ 29) by (apply Z.pow_le_mono_r; lia).
    assert (0 < 2 ^ n) by (apply Z.pow_pos_nonneg; lia).
    change (2 ^ 29) with 536870912 in *. unfold is_i32. lia. }
  rewrite land_ones_mod by lia. reflexivity.
Qed.

Lemma mov16_ok c opc rd v : 0 <= opc < 256 -> 0 <= rd < 16 ->
  exists w, mov16 (cond_num c) opc rd v = Some w /\
    w32 w = armw (cond_num c) opc (v / 4096 mod 16) rd (v mod 4096).
Proof.
  intros. unfold mov16.
  pose proof (arm_extract_ok v 0 11 0) as E1. cbn [Z.add] in E1.
  change (0 + 11) with 11 in E1. change (11 + 1) with 12 in E1. rewrite E1 by lia. clear E1.
  pose proof (arm_extract_ok v 12 3 16) as E2.
  change (12 + 3) with 15 in E2. change (16 + 3) with 19 in E2. change (3 + 1) with 4 in E2.
  rewrite E2 by lia. clear E2.
  eexists; split; [reflexivity|].
  change (2 ^ 0) with 1. change (2 ^ 12) with 4096. change (2 ^ 4) with 16. rewrite Z.div_1_r.
  rewrite (w32_iadd_cong _ _ (cond_num c * 268435456 + opc * 1048576 + rd * 4096 + v mod 4096)
                            (v / 4096 mod 16 * 65536)).
  - unfold armw, w32. pose proof (cond_num_range c). lia.
  - apply w32_iadd_cong.
    + rewrite enc_w32. f_equal. lia.
    + rewrite w32_ishl. f_equal. change (2 ^ 0) with 1. lia.
  - rewrite w32_ishl. reflexivity.
Qed.

Lemma movw_ok c rd v : reg15 rd ->
  exists w, e_movw (cond_num c) rd v = Some w /\ arm_decode (w32 w) = Some (c, AMovw rd (v mod 65536)).
Proof.
  unfold reg15. intros H. destruct (mov16_ok c 48 rd v) as (w & E & W); [lia|lia|].
  exists w. split; [exact E|].
  eapply dec_word; [..|exact W|]; try lia.
  unfold adec. cbv zeta. change (48 <? 32) with false. change (48 <? 64) with true.
  change (48 =? 48) with true. cbv iota. replace (rd =? 15) with false by lia.
  do 2 f_equal. lia.
Qed.

Lemma movt_ok c rd v : reg15 rd ->
  exists w, e_movt (cond_num c) rd v = Some w /\
    arm_decode (w32 w) = Some (c, AMovt rd (v / 65536 mod 65536)).
Proof.
  unfold reg15. intros H. unfold e_movt, ishr. change (2 ^ 16) with 65536.
  destruct (mov16_ok c 52 rd (v / 65536)) as (w & E & W); [lia|lia|].
  exists w. split; [exact E|].
  eapply dec_word; [..|exact W|]; try lia.
  unfold adec. cbv zeta. change (52 <? 32) with false. change (52 <? 64) with true.
  change (52 =? 48) with false. change (52 =? 52) with true. cbv iota.
  replace (rd =? 15) with false by lia.
  do 2 f_equal. lia.
Qed.

Lemma transfer_ok c (l b : bool) rn rd o : reg15 rd -> reg4 rn -> -4096 < o < 4096 ->
  exists w, arm_transfer (cond_num c) (b2z l) (if b then 1 else 4) rn rd o = Some w /\
    arm_decode (w32 w) = Some (c, if l then ALdr b rd rn o else AStr b rd rn o).
Proof.
  unfold reg15, reg4. intros Hd Hn Ho. unfold arm_transfer.
  assert (iand (if o <? 0 then ineg o else o) 4095 = Z.abs o) as ->.
  { unfold iand. change 4095 with (2 ^ 12 - 1). rewrite land_ones_mod by lia.
    change (2 ^ 12) with 4096. destruct (Z.ltb_spec o 0).
    - unfold ineg. rewrite wrap_id by (unfold is_i32; lia). rewrite Z.mod_small; lia.
    - rewrite Z.mod_small; lia. }
  eexists; split; [reflexivity|].
  assert (forall P : Z -> Prop, (o >= 0 -> P o) -> (o < 0 -> P (- Z.abs o)) -> P o) as Hc.
  { intros P H1 H2. destruct (Z_lt_ge_dec o 0); auto. replace o with (- Z.abs o) by lia. auto. }
  destruct (Z.ltb_spec o 0); destruct l, b; cbn [b2z];
    match goal with |- context [arm_encode _ ?op _ _ _] =>
      let v := eval vm_compute in op in change op with v end;
    (apply enc_dec; [lia..|]);
    unfold adec; cbv zeta;
    repeat match goal with
    | |- context [bit ?k ?j] => zcst k; zcst j; let v := eval vm_compute in (bit k j) in change (bit k j) with v
    | |- context [?k <? ?j] => zcst k; zcst j; let v := eval vm_compute in (k <? j) in change (k <? j) with v
    end; cbn [andb negb]; replace (rd =? 15) with false by lia; cbn [negb];
    do 2 f_equal; lia.
Qed.

Lemma branch_ok c (bl : bool) o : -33554432 <= o < 33554432 -> o mod 4 = 0 ->
  exists w, (if bl then e_bl else e_b) (cond_num c) (o + 8) = Some w /\
    arm_decode (w32 w) = Some (c, if bl then ABl o else AB o).
Proof.
  intros Ho Hm.
  assert (iand (ishr (isub (o + 8) 8) 2) 16777215 = o / 4 mod 16777216) as E.
  { unfold iand, ishr, isub. change 16777215 with (2 ^ 24 - 1). rewrite land_ones_mod by lia.
    rewrite wrap_id by (unfold is_i32; lia). change (2 ^ 24) with 16777216. change (2 ^ 2) with 4.
    do 2 f_equal. lia. }
  set (q := o / 4 mod 16777216) in *.
  assert (0 <= q < 16777216) as Hq by (unfold q; lia).
  assert (sext 26 (q * 4) = o) as Hs.
  { unfold sext. change (2 ^ (26 - 1)) with 33554432. change (2 ^ 26) with 67108864.
    unfold q. destruct (Z.ltb_spec (o / 4 mod 16777216 * 4) 33554432); lia. }
  assert (forall opc i, opc = 160 \/ opc = 176 ->
    i = (if opc <? 176 then AB o else ABl o) ->
    arm_decode (w32 (iadd (arm_encode (cond_num c) opc 0 0 0) q)) = Some (c, i)) as HH.
  { intros opc i Hopc ->.
    eapply (dec_word c _ (opc + q / 1048576) (q / 65536 mod 16) (q / 4096 mod 16) (q mod 4096));
      try (destruct Hopc; lia).
    - rewrite (w32_iadd_cong _ _ (cond_num c * 268435456 + opc * 1048576) q);
        [|rewrite enc_w32; f_equal; lia|reflexivity].
      unfold w32, armw. pose proof (cond_num_range c). destruct Hopc; lia.
    - unfold adec. cbv zeta.
      replace (opc + q / 1048576 <? 32) with false by (destruct Hopc; lia).
      replace (opc + q / 1048576 <? 64) with false by (destruct Hopc; lia).
      replace (opc + q / 1048576 <? 96) with false by (destruct Hopc; lia).
      replace (opc + q / 1048576 <? 128) with false by (destruct Hopc; lia).
      replace (opc + q / 1048576 <? 160) with false by (destruct Hopc; lia).
      replace (opc + q / 1048576 <? 192) with true by (destruct Hopc; lia).
      replace ((((opc + q / 1048576) mod 16 * 16 + q / 65536 mod 16) * 16 + q / 4096 mod 16) * 4096 * 4 +
         q mod 4096 * 4) with (q * 4) by (destruct Hopc; subst opc; lia).
      rewrite Hs. replace (opc + q / 1048576 <? 176) with (opc <? 176) by (destruct Hopc; lia).
      reflexivity. }
  destruct bl; (eexists; split; [reflexivity|]); cbv zeta; rewrite E; apply HH; auto.
Qed.

Lemma bit_high regs j : 0 <= j -> regs < 2 ^ j -> 0 <= regs -> bit regs j = false.
Proof. intros. unfold bit. rewrite Z.div_small by lia. reflexivity. Qed.

Lemma ldst_multi_ok c (ld wb : bool) rn regs :
  reg15 rn -> 0 < regs < 32768 -> (wb = true -> bit regs rn = false) ->
  exists w, (if ld then e_ldm else e_stmdb) (cond_num c) (b2z wb) rn regs = Some w /\
    arm_decode (w32 w) = Some (c, if ld then ALdmia wb rn regs else AStmdb wb rn regs).
Proof.
  unfold reg15. intros Hn Hr Hw.
  assert (forall opc i, 128 <= opc < 160 ->
    adec opc rn (regs / 4096) (regs mod 4096) = Some i ->
    arm_decode (w32 (arm_encode (cond_num c) opc rn 0 regs)) = Some (c, i)) as HH.
  { intros opc i Hopc E.
    eapply dec_word; [..|exact E]; try lia.
    rewrite enc_w32. unfold w32, armw. pose proof (cond_num_range c). lia. }
  assert (regs / 4096 * 4096 + regs mod 4096 = regs) as Er by lia.
  assert (bit regs 15 = false) as H15 by (apply bit_high; lia).
  destruct ld, wb; cbn [b2z]; (eexists; split; [reflexivity|]);
    match goal with |- context [arm_encode _ ?op _ _ _] =>
      let v := eval vm_compute in op in change op with v end;
    (apply HH; [lia|]); unfold adec; cbv zeta; rewrite Er, H15;
    repeat match goal with
    | |- context [bit ?k ?j] => zcst k; zcst j; let v := eval vm_compute in (bit k j) in change (bit k j) with v
    | |- context [?k <? ?j] => zcst k; zcst j; let v := eval vm_compute in (k <? j) in change (k <? j) with v
    | |- context [?k =? ?j] => zcst k; zcst j; let v := eval vm_compute in (k =? j) in change (k =? j) with v
    end; rewrite ?Hw by reflexivity;
    replace (rn =? 15) with false by lia; replace (regs =? 0) with false by lia; reflexivity.
Qed.

Lemma shift_amt_ok c s t rd rm n : reg4 rd -> reg4 rm -> 1 <= n < 32 ->
  exists w, e_srl_amt (cond_num c) (b2z s) (sh_num t) rd rm n = Some w /\
    arm_decode (w32 w) = Some (c, ADp MOV s rd 0 (OReg rm t n)).
Proof.
  unfold reg4. intros Hd Hm Hn. eexists; split; [reflexivity|].
  assert (0 <= sh_num t < 3) by (destruct t; vm_compute; intuition congruence).
  assert (iadd (iadd rm (ishl (sh_num t) 5)) (ishl n 7) = rm + 32 * sh_num t + 128 * n) as ->.
  { rewrite (ishl_small (sh_num t)) by (unfold is_i32; change (2 ^ 5) with 32; lia).
    rewrite (ishl_small n) by (unfold is_i32; change (2 ^ 7) with 128; lia).
    change (2 ^ 5) with 32. change (2 ^ 7) with 128.
    rewrite (iadd_small rm) by (unfold is_i32; lia). rewrite iadd_small by (unfold is_i32; lia). lia. }
  apply enc_dec; try lia.
  - destruct s; vm_compute; intuition congruence.
  - apply adec_reg; try lia; try (destruct s; vm_compute; intuition congruence).
    destruct t; reflexivity.
Qed.

Lemma shift_reg_ok c t rd rm rs : reg15 rd -> reg15 rm -> reg15 rs ->
  exists w, (match t with LSL => e_sll | LSR => e_srl | ASR => e_sra end) (cond_num c) rd rm rs = Some w /\
    arm_decode (w32 w) = Some (c, ADp MOV false rd 0 (ORsr rm t rs)).
Proof.
  unfold reg15. intros Hd Hm Hs. 
  assert (exists sh, sh_of sh = Some t /\ 0 <= sh < 3 /\
    (match t with LSL => e_sll | LSR => e_srl | ASR => e_sra end) (cond_num c) rd rm rs =
    Some (arm_encode (cond_num c) 26 0 rd (rm + 16 + 32 * sh + 256 * rs))) as (sh & Hsh & Hr & ->).
  { destruct t; [exists 0|exists 1|exists 2];
    (split; [reflexivity|]; split; [lia|]);
    unfold e_sll, e_srl, e_sra; rewrite (ishl_small rs) by (unfold is_i32; change (2 ^ 8) with 256; lia);
    change (2 ^ 8) with 256; change (0 + ishl arm_mov 1 + 0) with 26; f_equal; f_equal.
    - change (ishl 1 4) with 16. rewrite (iadd_small rm) by (unfold is_i32; lia).
      rewrite iadd_small by (unfold is_i32; lia). lia.
    - change (ishl 1 4) with 16. change (ishl 1 5) with 32.
      rewrite (iadd_small rm) by (unfold is_i32; lia). rewrite (iadd_small (rm + 16)) by (unfold is_i32; lia).
      rewrite iadd_small by (unfold is_i32; lia). lia.
    - change (ishl 5 4) with 80. rewrite (iadd_small rm) by (unfold is_i32; lia).
      rewrite iadd_small by (unfold is_i32; lia). lia. }
  eexists; split; [reflexivity|].
  apply enc_dec; try lia. apply adec_rsr; try lia; try reflexivity. exact Hsh.
Qed.

Lemma mul_enc_ok c rd rn rm : reg15 rd -> reg15 rn -> reg15 rm ->
  exists w, e_mul (cond_num c) rd rm rn = Some w /\ arm_decode (w32 w) = Some (c, AMul rd rn rm).
Proof.
  unfold reg15. intros. eexists; split; [reflexivity|].
  assert (iadd (iadd (ishl rm 8) 144) rn = rm * 256 + 144 + rn) as ->.
  { rewrite ishl_small by (unfold is_i32; change (2 ^ 8) with 256; lia). change (2 ^ 8) with 256.
    rewrite (iadd_small (rm * 256)) by (unfold is_i32; lia). apply iadd_small. unfold is_i32; lia. }
  apply enc_dec; try lia. unfold adec. cbv zeta.
  rewrite (bitE _ 4 16), (bitE _ 7 128) by reflexivity.
  replace ((rm * 256 + 144 + rn) / 16 mod 2 =? 1) with true by lia.
  replace ((rm * 256 + 144 + rn) / 128 mod 2 =? 1) with true by lia.
  replace ((rm * 256 + 144 + rn) / 16 mod 16 =? 9) with true by lia.
  replace ((rm * 256 + 144 + rn) mod 16) with rn by lia.
  replace ((rm * 256 + 144 + rn) / 256) with rm by lia.
  change (0 <? 32) with true. change (0 =? 0) with true. cbn [andb].
  replace ((rd =? 15) || (rn =? 15) || (rm =? 15)) with false by lia. reflexivity.
Qed.

Lemma sdiv_enc_ok c rd rn rm : reg15 rd -> reg15 rn -> reg15 rm ->
  exists w, e_div (cond_num c) rd rm rn = Some w /\ arm_decode (w32 w) = Some (c, ASdiv rd rn rm).
Proof.
  unfold reg15. intros. eexists; split; [reflexivity|].
  assert (iadd (iadd (ishl rm 8) 16) rn = rm * 256 + 16 + rn) as ->.
  { rewrite ishl_small by (unfold is_i32; change (2 ^ 8) with 256; lia). change (2 ^ 8) with 256.
    rewrite (iadd_small (rm * 256)) by (unfold is_i32; lia). apply iadd_small. unfold is_i32; lia. }
  apply enc_dec; try lia. unfold adec. cbv zeta.
  change (113 <? 32) with false. change (113 <? 64) with false. change (113 <? 96) with false.
  change (113 <? 128) with true. change (113 =? 113) with true. change (15 =? 15) with true.
  replace ((rm * 256 + 16 + rn) / 16 mod 16 =? 1) with true by lia.
  replace ((rm * 256 + 16 + rn) mod 16) with rn by lia.
  replace ((rm * 256 + 16 + rn) / 256) with rm by lia. cbn [andb].
  replace ((rd =? 15) || (rn =? 15) || (rm =? 15)) with false by lia. reflexivity.
Qed.

Lemma blx_ok c rm : reg15 rm ->
  exists w, e_blx (cond_num c) rm = Some w /\ arm_decode (w32 w) = Some (c, ABlx rm).
Proof.
  unfold reg15. intros. eexists; split; [reflexivity|].
  rewrite iadd_small by (unfold is_i32; lia).
  apply enc_dec; try lia. unfold adec. cbv zeta.
  rewrite (bitE (rm + 3888) 4 16), (bitE (rm + 3888) 7 128) by reflexivity.
  replace ((rm + 3888) / 16 mod 2 =? 1) with true by lia.
  replace ((rm + 3888) / 128 mod 2 =? 1) with false by lia.
  replace ((rm + 3888) / 16 =? 243) with true by lia.
  replace ((rm + 3888) mod 16) with rm by lia.
  replace (rm =? 15) with false by lia. reflexivity.
Qed.

Theorem arm_asm_ok c i : arm_operands_ok c i ->
  exists w, arm_asm c i = Some w /\ arm_decode (w32 w) = Some (c, i).
Proof.
  destruct i as [o s rd rn x|rd v|rd v|rd rn rm|rd rn rm|b rt rn o|b rt rn o|wb rn regs|wb rn regs|o|o|rm|v].
  - destruct x as [v r|rm t n|rm t rs]; destruct o; cbn [arm_operands_ok]; intros H; try contradiction H.
    (* immediates *)
    + destruct H as (H1 & H2 & -> & H4 & ->). cbn [arm_asm]. unfold e_add_i.
      destruct (Z.eqb_spec (- v) 0); [lia|].
      replace (- v >=? 0) with false by lia. unfold ineg. rewrite Z.opp_involutive.
      rewrite wrap_id by (unfold is_i32; lia). imm_case v.
    + destruct H as (H1 & H2 & -> & H4 & ->). cbn [arm_asm]. unfold e_rsb_i. imm_case v.
    + destruct H as (H1 & H2 & -> & H4 & ->). cbn [arm_asm]. unfold e_add_i.
      replace (v >=? 0) with true by lia. imm_case v.
    + destruct H as (-> & H2 & -> & -> & -> & ->). cbn [arm_asm]. unfold e_teq.
      change c_AL with (cond_num AL).
      eexists; split; [movx_small; reflexivity|].
      apply enc_dec; [vm_compute; split; congruence|unfold reg4 in *; lia..|].
      change 0 with (0 + 256 * 0) at 2. apply adec_imm; first [reflexivity|lia|vm_compute; intuition congruence].
    + destruct H as (-> & H2 & -> & H4 & ->). cbn [arm_asm]. unfold e_cmp_i. imm_case v.
    + destruct H as (H1 & -> & -> & H4 & ->). cbn [arm_asm]. unfold e_mov_i. imm_case v.
    (* registers *)
    + destruct H as (H1 & H2 & H3 & -> & -> & ->). cbn [arm_asm]. unfold e_and_r. reg_case rm.
    + destruct H as (H1 & H2 & H3 & -> & -> & ->). cbn [arm_asm]. unfold e_eor_r. reg_case rm.
    + destruct H as (H1 & H2 & H3 & -> & -> & ->). cbn [arm_asm]. unfold e_sub_r. reg_case rm.
    + destruct H as (H1 & H2 & H3 & -> & -> & ->). cbn [arm_asm]. unfold e_add_r. reg_case rm.
    + destruct H as (-> & H2 & H3 & -> & -> & ->). cbn [arm_asm]. unfold e_cmp_r. reg_case rm.
    + destruct H as (H1 & H2 & H3 & -> & -> & ->). cbn [arm_asm]. unfold e_or_r. reg_case rm.
    + destruct H as (H1 & -> & H3 & [(-> & -> & ->)|Hn]).
      * cbn [arm_asm]. unfold e_mov_r. reg_case rm.
      * assert (arm_asm c (ADp MOV s rd 0 (OReg rm t n)) =
                e_srl_amt (cond_num c) (b2z s) (sh_num t) rd rm n) as ->.
        { cbn [arm_asm]. destruct s, t, n; try lia; reflexivity. }
        apply shift_amt_ok; assumption.
    + destruct H as (H1 & -> & H3 & -> & -> & ->). cbn [arm_asm]. unfold e_mvn_r. reg_case rm.
    + destruct H as (H1 & -> & H3 & H4 & ->). cbn [arm_asm].
      destruct (shift_reg_ok c t rd rm rs H1 H3 H4) as (w & E & D). exists w.
      split; [destruct t; exact E|exact D].
  - intros [H1 H2]. destruct (movw_ok c rd v H1) as (w & E & D). exists w. split; [exact E|].
    rewrite D, Z.mod_small by lia. reflexivity.
  - intros [H1 H2]. destruct (movt_ok c rd (ishl v 16) H1) as (w & E & D).
    exists w. split; [exact E|].
    rewrite D. do 3 f_equal. unfold ishl. change (2 ^ 16) with 65536. destruct (s32_mod (v * 65536)) as [q Hq].
    unfold wrap. rewrite Hq. lia.
  - intros (H1 & H2 & H3). cbn [arm_asm]. apply mul_enc_ok; assumption.
  - intros (H1 & H2 & H3). cbn [arm_asm]. apply sdiv_enc_ok; assumption.
  - intros (H1 & H2 & H3). destruct (transfer_ok c true b rn rt o H1 H2 H3) as (w & E & D).
    exists w. split; [destruct b; exact E|exact D].
  - intros (H1 & H2 & H3). destruct (transfer_ok c false b rn rt o H1 H2 H3) as (w & E & D).
    exists w. split; [destruct b; exact E|exact D].
  - intros (H1 & H2 & H3). destruct (ldst_multi_ok c false wb rn regs H1 H2 H3) as (w & E & D).
    exists w. split; [exact E|exact D].
  - intros (H1 & H2 & H3). destruct (ldst_multi_ok c true wb rn regs H1 H2 H3) as (w & E & D).
    exists w. split; [exact E|exact D].
  - intros [H1 H2]. destruct (branch_ok c false o H1 H2) as (w & E & D). exists w. auto.
  - intros [H1 H2]. destruct (branch_ok c true o H1 H2) as (w & E & D). exists w. auto.
  - intros H. apply blx_ok. exact H.
  - intros [-> ->]. eexists. split; [reflexivity|]. vm_compute. reflexivity.
Qed.
