(** Properties C02, C03 (ARM), C06, C07 (ARM), C08 (ARM), C09 (ARM). *)
From Verif.Base Require Import Int32 Mem MemProofs Bits.
From Verif.Ir Require Import Ph2 Ph2Sem Layout.
From Verif.Arm Require Import ArmISA ArmEnc ArmEncProofs ArmGen ArmExec ArmOps ArmSoft ArmEmit ArmSim ArmProg ArmInsn.

(** ** C02: instruction words *)

(** [arm_asm] names, for each machine instruction, the mnemonic function of
    src/arm.c; [arm_decode] is the manual's decoder. *)
Theorem C02_arm_words_decode : forall c i, arm_operands_ok c i ->
  exists w, arm_asm c i = Some w /\ arm_decode (w32 w) = Some (c, i).
Proof. exact arm_asm_ok. Qed.
Print Assumptions C02_arm_words_decode.

(** The mnemonics taking a general immediate. [imm_mnemonic o] is the function of
    src/arm.c for [o rd, rn, #v]. *)
Definition imm_mnemonic (o : dpop) (c : Z) (rd rn v : Z) : option Z :=
  match o with
  | MOV => e_mov_i c rd v
  | ADD => e_add_i c rd rn v
  | RSB => e_rsb_i c rd v rn
  | CMP => e_cmp_i c rn v
  | _ => None
  end.
Definition imm_insn (o : dpop) (rd rn b r : Z) : ainstr :=
  match o with
  | MOV => ADp MOV false rd 0 (OImm b r)
  | CMP => ADp CMP true 0 rn (OImm b r)
  | _ => ADp o false rd rn (OImm b r)
  end.

Lemma ror_imm b n : 0 <= b < 256 -> 0 <= n < 16 -> b * 4 ^ n < 4294967296 ->
  ror32 b (2 * ((16 - n) mod 16)) = b * 4 ^ n.
Proof.
  intros Hb Hn Hlt. unfold ror32. destruct (Z.eq_dec n 0) as [->|Hz].
  - change ((16 - 0) mod 16) with 0. change (2 * 0) with 0. change (2 ^ 0) with 1.
    rewrite Z.div_1_r. change (4 ^ 0) with 1. rewrite Z.mul_1_r.
    change (32 - 0) with 32. unfold w32. change (2 ^ 32) with 4294967296.
    rewrite Z_mod_plus_full. apply Z.mod_small. lia.
  - rewrite (Z.mod_small (16 - n)) by lia.
    replace (32 - 2 * (16 - n)) with (2 * n) by lia.
    rewrite (Z.pow_mul_r 2 2 n) by lia. change (2 ^ 2) with 4.
    assert (0 < 4 ^ n) by (apply Z.pow_pos_nonneg; lia).
    destruct (Z_le_gt_dec n 12) as [Hs|Hs].
    + rewrite Z.div_small.
      2:{ split; [lia|]. apply Z.lt_le_trans with (2 ^ 8); [lia|]. apply Z.pow_le_mono_r; lia. }
      unfold w32. rewrite Z.mod_small; lia.
    + (* n = 13..15: b * 4^n < 2^32 bounds b by 2^(32-2n) *)
      rewrite Z.div_small.
      2:{ split; [lia|]. rewrite (Z.pow_mul_r 2 2) by lia. change (2 ^ 2) with 4.
          assert (4 ^ (16 - n) * 4 ^ n = 4294967296)
            by (rewrite <- Z.pow_add_r by lia; replace (16 - n + n) with 16 by lia; reflexivity).
          nia. }
      unfold w32. rewrite Z.mod_small; lia.
Qed.

(** Any non-negative immediate: either the word written is the instruction with an
    operand whose run-time value is exactly [v], or the compiler stops with an
    error, and it does so exactly when [v] is not an 8-bit value shifted left by an
    even amount. *)
Theorem C02_arm_immediate_exact : forall o c rd rn v,
  o = MOV \/ o = ADD \/ o = RSB \/ o = CMP -> 0 <= rd < 16 -> 0 <= rn < 16 -> 0 <= v < 2147483648 ->
  let representable := exists b n, 0 <= b < 256 /\ 0 <= n < 16 /\ v = b * 4 ^ n in
  (representable /\ exists w b r, imm_mnemonic o (cond_num c) rd rn v = Some w /\
     arm_decode (w32 w) = Some (c, imm_insn o rd rn b r) /\ ror32 b (2 * r) = v) \/
  (~ representable /\ imm_mnemonic o (cond_num c) rd rn v = None).
Proof.
  intros o c rd rn v Ho Hd Hn Hv R.
  assert (exists op s rn' rd', imm_mnemonic o (cond_num c) rd rn v = e_movx (cond_num c) 1 op s rn' rd' v /\
    0 <= rn' < 16 /\ 0 <= rd' < 16 /\ 0 <= iadd (iadd s (ishl op 1)) (ishl 1 5) < 256 /\
    forall b r, 0 <= b < 256 -> 0 <= r < 16 ->
      adec (iadd (iadd s (ishl op 1)) (ishl 1 5)) rn' rd' (b + 256 * r) = Some (imm_insn o rd rn b r))
    as (op & s & rn' & rd' & -> & Hn' & Hd' & Hop & Hdec).
  { destruct Ho as [->|[->|[->| ->]]].
    - exists arm_mov, 0, 0, rd. split; [reflexivity|]. repeat split; try lia; try (vm_compute; congruence).
      intros. apply adec_imm; first [assumption|reflexivity|vm_compute; intuition congruence].
    - exists arm_add, 0, rn, rd. cbn [imm_mnemonic]. unfold e_add_i. replace (v >=? 0) with true by lia.
      split; [reflexivity|]. repeat split; try lia; try (vm_compute; congruence).
      intros. apply adec_imm; first [assumption|reflexivity|vm_compute; intuition congruence].
    - exists arm_rsb, 0, rn, rd. split; [reflexivity|]. repeat split; try lia; try (vm_compute; congruence).
      intros. apply adec_imm; first [assumption|reflexivity|vm_compute; intuition congruence].
    - exists arm_cmp, 1, rn, 0. split; [reflexivity|]. repeat split; try lia; try (vm_compute; congruence).
      intros. apply adec_imm; first [assumption|reflexivity|vm_compute; intuition congruence]. }
  destruct (Z_le_gt_dec v 255) as [Hs|Hs].
  - left. split; [exists v, 0; change (4 ^ 0) with 1; lia|].
    eexists _, v, 0. split; [apply e_movx_small; lia|]. split.
    + apply enc_dec; try lia. replace v with (v + 256 * 0) at 1 by lia. apply Hdec; lia.
    + change 0 with ((16 - 0) mod 16). rewrite ror_imm by lia. change (4 ^ 0) with 1. lia.
  - destruct (e_movx_imm (cond_num c) 1 op s rn' rd' v) as [(b & n & Hb & Hn1 & Ev & E)|[Hno E]]; [lia| |].
    + left. split; [exists b, n; lia|].
      exists (arm_encode (cond_num c) (iadd (iadd s (ishl op 1)) (ishl 1 5)) rn' rd' (b + 256 * (16 - n))), b, (16 - n).
      split; [exact E|]. split.
      * apply enc_dec; try lia. apply Hdec; lia.
      * rewrite <- (Z.mod_small (16 - n) 16) by lia. rewrite ror_imm by lia. symmetry. exact Ev.
    + right. split; [|exact E]. intros (b & n & Hb & Hn1 & Ev). exact (Hno b n Hb Hn1 Ev).
Qed.
Print Assumptions C02_arm_immediate_exact.

Example C02_case : exists w, arm_asm NE (AStr false 14 13 (-4)) = Some w /\
  arm_decode (w32 w) = Some (NE, AStr false 14 13 (-4)).
Proof. apply C02_arm_words_decode. cbn. unfold reg15, reg4. lia. Qed.
Example C02_case_imm : imm_mnemonic MOV (cond_num AL) 3 0 1048576 <> None /\
  imm_mnemonic MOV (cond_num AL) 3 0 257 = None.
Proof. split; vm_compute; congruence. Qed.
(** what fails: a negative immediate to the shared encoder is masked to 8 bits *)
Example C02_negative_immediate_truncated :
  exists w, e_mov_i (cond_num AL) 3 (-1) = Some w /\
    arm_decode (w32 w) = Some (AL, ADp MOV false 3 0 (OImm 255 0)) /\ ror32 255 0 = 255.
Proof. eexists. split; [reflexivity|]. split; vm_compute; reflexivity. Qed.

(** ** straight-line code *)

(** Registers the program can see: the eight allocatable registers r0..r7 (virtual
    register j is rj), globals pointer, stack pointer and return address. *)
Definition arm_observable (q : Z) : Prop := 0 <= q < 8 \/ q = 12 \/ q = 13 \/ q = 14.

(** The code emitted for [i], loaded anywhere outside the [n] bytes from [base] that
    the instruction writes, runs from its first word to just past its last one,
    whatever the condition flags, leaving [v] in register [d], every other
    observable register unchanged, and turning memory into [fm m]. *)
Definition arm_runs (e : env) (i : ph2) (x : Z -> Z) (fd : option (Z * (mem -> Z)))
    (base n : Z) (fm : mem -> mem) : Prop :=
  forall pos, exists ws, arm_emit e pos i = Some ws /\
    forall m a f, words_at m a ws -> 0 <= a -> a mod 4 = 0 ->
      a + 4 * Z.of_nat (length ws) < 4294967296 ->
      (forall d, 0 <= d < n -> ~ (a <= w32 (base + d) < a + 4 * Z.of_nat (length ws))) ->
      exists k x' f', arm_steps k (mkarm a x f m) =
                     Some (mkarm (a + 4 * Z.of_nat (length ws)) x' f' (fm m)) /\
        forall q, arm_observable q -> x' q =
          match fd with
          | Some (d, v) => if q =? d then w32 (v m) else x q
          | None => x q
          end.

(** [fm] changes at most the [n] bytes from [base] *)
Definition only_changes (base n : Z) (fm : mem -> mem) : Prop :=
  forall m b, (forall d, 0 <= d < n -> w32 (base + d) <> w32 b) -> ldb (fm m) b = ldb m b.

Definition keep_mem (m : mem) : mem := m.

Lemma runs_intro e i x fd base n fm :
  straight (p_op i) = true -> regs_ok i -> widths_ok i -> (forall q, is_u32 (x q)) -> x 13 mod 4 = 0 ->
  div_regs_ok (e_hard e) i -> arm_size (e_hard e) i <> None ->
  match fd with Some (d, _) => vreg d | None => True end ->
  (forall a len m, (forall d, 0 <= d < n -> ~ (a <= w32 (base + d) < a + len)) ->
   exists s', exec1 e a len x m i = Ok [] s' /\ s_mem s' = fm m /\
     forall j, s_reg s' j = match fd with
                            | Some (d, v) => if j =? d then Some (w32 (v m)) else Some (x j)
                            | None => Some (x j) end) ->
  arm_runs e i x fd base n fm.
Proof.
  intros Hs Hr Hw Hu H13 Hdv Hz Hd Hx pos. destruct (arm_emit_total e pos i Hs Hr Hw Hz) as (ws & E).
  exists ws. split; auto. intros m a f Hm H0 H4 Hlt Hfoot.
  destruct (Hx a (4 * Z.of_nat (length ws)) m Hfoot) as (s' & Ex & Em & Er).
  destruct (arm_one_ok e pos i ws m a x f [] s' Hs Hu H13 E Hr Hdv Hz Hm (conj H0 (conj H4 Hlt)) Ex)
    as (k & x' & f' & Hn & Hj & H1 & H2 & H3).
  exists k, x', f'. rewrite <- Em. split; auto. intros q Hq.
  destruct fd as [[d v]|]; unfold vreg in *.
  - destruct (Z.eqb_spec q d) as [->|Nq].
    + apply Hj; [lia|]. rewrite Er, Z.eqb_refl. reflexivity.
    + destruct Hq as [Hq|[->|[->| ->]]]; auto.
      apply Hj; [lia|]. rewrite Er. destruct (Z.eqb_spec q d); [lia|]. reflexivity.
  - destruct Hq as [Hq|[->|[->| ->]]]; auto.
Qed.

(** the eight allocatable registers *)
Definition reg8 (r : Z) : Prop := 0 <= r < 8.
Definition insn (o : opcode) (d s0 s1 : Z) : ph2 := mkph2 o s0 s1 d 0 0 0 0 false.

Lemma rg_abs x m r : reg8 r -> rg (abs_st x m) r = Some (x r).
Proof. intros H. unfold rg. replace ((0 <=? r) && (r <? 8)) with true by (unfold reg8 in H; lia). reflexivity. Qed.
Lemma dst8 d : reg8 d -> (0 <=? d) && (d <? 8) = true.
Proof. unfold reg8. lia. Qed.
Lemma touch_free e a len b n :
  (forall d, 0 <= d < n -> ~ (a <= w32 (b + d) < a + len)) ->
  touches_code (one_layout e a len) b n = false.
Proof.
  intros Hf. unfold touches_code. apply not_true_is_false. intros H. apply existsb_exists in H.
  destruct H as (y & Hin & H). apply in_map_iff in Hin. destruct Hin as (k & <- & Hk).
  apply in_seq in Hk. cbn in H. apply (Hf (Z.of_nat k)); lia.
Qed.

Ltac runs_tac :=
  apply runs_intro;
  [ reflexivity
  | unfold regs_ok; cbn [insn p_op p_dest p_src0 p_src1 uses_dest uses_src0 uses_src1];
    repeat split; intros; try discriminate; unfold vreg, reg8 in *; lia
  | unfold widths_ok; cbn [insn p_op p_dest p_src0 p_src1]; split; intros; try discriminate; auto
  | assumption
  | assumption
  | unfold div_regs_ok; cbn [insn p_op]; intros [?|?]; discriminate
  | unfold arm_size; cbn [insn p_op p_dest p_src0 p_src1];
    repeat match goal with |- context [if ?c then _ else _] => destruct c eqn:? end; try congruence; lia
  | try exact I; try assumption
  | intros a len m Hfoot; unfold exec1, exec; cbn [insn p_op p_dest p_src0 p_src1];
    rewrite ?rg_abs, ?dst8 by assumption; cbn [c_unop c_binop c_spill arm_conv arm_spill p_op insn existsb];
    rewrite ?(touch_free _ _ _ _ _ Hfoot);
    try (eexists; split; [reflexivity|]; split; reflexivity) ].

(** ** C03 *)
Theorem C03_arm_constant : forall e v rd x,
  reg8 rd -> (forall q, is_u32 (x q)) -> x 13 mod 4 = 0 ->
  arm_runs e (insn OP_load_constant rd v 0) x (Some (rd, fun _ => v)) 0 0 keep_mem.
Proof. intros. runs_tac. Qed.
Print Assumptions C03_arm_constant.

(** ** C08: operators, C06: the emulated division *)

(** only emulated division and modulo use the stack: 8 bytes below the pointer *)
Definition scratch (e : env) (o : opcode) : Z :=
  match o with OP_div | OP_mod => if e_hard e then 0 else 8 | _ => 0 end.

Lemma ldb_stw2 m sp u v b : (forall d, 0 <= d < 8 -> w32 (sp - 8 + d) <> w32 b) ->
  ldb (stw (stw m (sp + -8) u) (sp + -4) v) b = ldb m b.
Proof.
  intros H. rewrite ldb_stw_other.
  - apply ldb_stw_other. intros i Hi. replace (sp + -8 + i) with (sp - 8 + i) by lia. apply not_eq_sym, H. lia.
  - intros i Hi. replace (sp + -4 + i) with (sp - 8 + (4 + i)) by lia. apply not_eq_sym, H. lia.
Qed.

(** [c_binop] (Ir/Ph2Sem.v) is the value C prescribes for a binary operator on two
    [int]s; [None] where C leaves it undefined. *)
Theorem C08_arm_binary : forall e o rd ra rb x v,
  reg8 rd -> reg8 ra -> reg8 rb -> (forall q, is_u32 (x q)) -> x 13 mod 4 = 0 ->
  c_binop o (s32 (x ra)) (s32 (x rb)) = Some v ->
  (scratch e o = 8 -> ra <> rb) ->
  exists fm, only_changes (x 13 - 8) (scratch e o) fm /\
    arm_runs e (insn o rd ra rb) x (Some (rd, fun _ => v)) (x 13 - 8) (scratch e o) fm.
Proof.
  intros e o rd ra rb x v Hd Ha Hb Hu H13 Hv Hne.
  assert (straight o = true /\ c_unop o (s32 (x ra)) = None) as [Hs Hn]
    by (destruct o; try discriminate; split; reflexivity).
  exists (fun m => apply_spill m (x 13) (arm_spill (e_hard e) (insn o rd ra rb) (x ra) (x rb))).
  split.
  - intros m b Hb'. unfold arm_spill, scratch in *. cbn [insn p_op p_src0 p_src1] in *.
    destruct o; try reflexivity; destruct (e_hard e); try reflexivity; unfold div_spill;
      replace (ra =? rb) with false by (specialize (Hne eq_refl); lia); destruct (ra <? rb);
      apply ldb_stw2; exact Hb'.
  - apply runs_intro; auto.
    + unfold regs_ok; cbn [insn p_op p_dest p_src0 p_src1]. unfold reg8 in *.
      split; [|split; [|split]]; intros; unfold vreg; auto.
    + unfold widths_ok; cbn [insn p_op p_dest p_src0 p_src1].
      split; intros ->; cbn in Hv; discriminate Hv.
    + unfold div_regs_ok, scratch in *. cbn [insn p_op p_src0 p_src1].
      intros [->| ->] Eh; rewrite Eh in Hne; auto.
    + unfold arm_size. cbn [insn p_op]. destruct o; try discriminate; destruct (e_hard e); discriminate.
    + intros a len m Hf. unfold exec1, exec. cbn [insn p_op p_dest p_src0 p_src1].
      rewrite !rg_abs, dst8 by assumption.
      set (sl := c_spill _ _ _ _).
      assert (existsb (fun ov => touches_code (one_layout e a len) (s_sp (abs_st x m) + fst ov) 4) sl = false)
        as Et.
      { subst sl. cbn [arm_conv c_spill abs_st s_sp]. unfold arm_spill, scratch in *.
        cbn [insn p_op p_src0 p_src1] in *.
        assert (forall h k (v0 : Z), e_hard e = h -> (k = -8 \/ k = -4) ->
          (forall d, 0 <= d < 8 -> ~ a <= w32 (x 13 - 8 + d) < a + len) ->
          touches_code (one_layout e a len) (x 13 + fst (k, v0)) 4 = false) as Ht.
        { intros h k v0 _ Hk Hf8. apply touch_free. intros d Hd'. cbn [fst].
          replace (x 13 + k + d) with (x 13 - 8 + (k + 8 + d)) by lia. apply Hf8. lia. }
        destruct o; try reflexivity; destruct (e_hard e) eqn:Eh; try reflexivity; unfold div_spill;
          replace (ra =? rb) with false by (specialize (Hne eq_refl); lia); destruct (ra <? rb);
          cbn [existsb]; rewrite !(Ht false _ _ eq_refl) by auto; reflexivity. }
      destruct o; try discriminate; rewrite Hn, Et, Hv;
        (eexists; split; [reflexivity|]; split; reflexivity).
Qed.
Print Assumptions C08_arm_binary.

Theorem C08_arm_unary : forall e o rd ra rb x v,
  reg8 rd -> reg8 ra -> (forall q, is_u32 (x q)) -> x 13 mod 4 = 0 ->
  c_unop o (s32 (x ra)) = Some v ->
  arm_runs e (insn o rd ra rb) x (Some (rd, fun _ => v)) 0 0 keep_mem.
Proof.
  intros e o rd ra rb x v Hd Ha Hu H13 Hv.
  destruct o; try discriminate; cbn in Hv; inversion Hv; subst v; runs_tac.
Qed.
Print Assumptions C08_arm_unary.

Theorem C08_arm_assign : forall e rd ra x,
  reg8 rd -> reg8 ra -> (forall q, is_u32 (x q)) -> x 13 mod 4 = 0 ->
  arm_runs e (insn OP_assign rd ra 0) x (Some (rd, fun _ => x ra)) 0 0 keep_mem.
Proof. intros. runs_tac. Qed.
Print Assumptions C08_arm_assign.

Lemma nz_s32 v : is_u32 v -> v <> 0 -> (s32 v =? 0) = false.
Proof.
  intros Hu Hz. apply Z.eqb_neq. intros E. apply Hz. rewrite <- (w32_id v) by exact Hu.
  rewrite <- w32_s32, E. reflexivity.
Qed.

(** C06: full for operands in two registers *)
Theorem C06_arm_soft_div_partial : forall e rd ra rb x,
  e_hard e = false -> reg8 rd -> reg8 ra -> reg8 rb -> ra <> rb ->
  (forall q, is_u32 (x q)) -> x 13 mod 4 = 0 -> x rb <> 0 ->
  exists fm, only_changes (x 13 - 8) 8 fm /\
    arm_runs e (insn OP_div rd ra rb) x
      (Some (rd, fun _ => Z.quot (s32 (x ra)) (s32 (x rb)))) (x 13 - 8) 8 fm.
Proof.
  intros e rd ra rb x He Hd Ha Hb Hne Hu H13 Hz.
  destruct (C08_arm_binary e OP_div rd ra rb x (Z.quot (s32 (x ra)) (s32 (x rb)))) as (fm & H1 & H2); auto.
  - cbn. rewrite nz_s32; auto.
  - unfold scratch in *. rewrite He in *. eauto.
Qed.
Print Assumptions C06_arm_soft_div_partial.

Theorem C06_arm_soft_mod_partial : forall e rd ra rb x,
  e_hard e = false -> reg8 rd -> reg8 ra -> reg8 rb -> ra <> rb ->
  (forall q, is_u32 (x q)) -> x 13 mod 4 = 0 -> x rb <> 0 ->
  exists fm, only_changes (x 13 - 8) 8 fm /\
    arm_runs e (insn OP_mod rd ra rb) x
      (Some (rd, fun _ => Z.rem (s32 (x ra)) (s32 (x rb)))) (x 13 - 8) 8 fm.
Proof.
  intros e rd ra rb x He Hd Ha Hb Hne Hu H13 Hz.
  destruct (C08_arm_binary e OP_mod rd ra rb x (Z.rem (s32 (x ra)) (s32 (x rb)))) as (fm & H1 & H2); auto.
  - cbn. rewrite nz_s32; auto.
  - unfold scratch in *. rewrite He in *. eauto.
Qed.
Print Assumptions C06_arm_soft_mod_partial.

(** What happens otherwise: [x / x] with both operands in one register.  The emulated
    sequence terminates but the quotient is -1 for every negative value but INT_MIN,
    so the full property is false of the code. *)
Theorem C06_arm_same_register : forall e rd ra x,
  e_hard e = false -> reg8 rd -> reg8 ra -> (forall q, is_u32 (x q)) -> x 13 mod 4 = 0 -> x ra <> 0 ->
  exists fm, only_changes (x 13 - 4) 4 fm /\
    arm_runs e (insn OP_div rd ra ra) x
      (Some (rd, fun _ => if (s32 (x ra) <? 0) && negb (s32 (x ra) =? -2147483648) then -1 else 1))
      (x 13 - 4) 4 fm.
Proof.
  intros e rd ra x He Hd Ha Hu H13 Hz.
  assert (regs_ok (insn OP_div rd ra ra)) as Hr
    by (unfold regs_ok; cbn; unfold vreg, reg8 in *; repeat split; intros; try discriminate; lia).
  assert (arm_size (e_hard e) (insn OP_div rd ra ra) <> None) as Hs by (rewrite He; discriminate).
  exists (fun m => stw m (x 13 + -4) (x ra)). split.
  - intros m b Hb. apply ldb_stw_other. intros i Hi. replace (x 13 + -4 + i) with (x 13 - 4 + i) by lia.
    apply not_eq_sym, Hb. lia.
  - intros pos.
    assert (widths_ok (insn OP_div rd ra ra)) as Hwd
      by (split; cbn [insn p_op]; intros ?; discriminate).
    destruct (arm_emit_total e pos (insn OP_div rd ra ra) eq_refl Hr Hwd Hs) as (ws & E).
    exists ws. split; [exact E|]. intros m a f Hm H0 H4 Hlt Hf.
    destruct (arm_emit_code _ _ _ _ E Hr I (or_intror Hs)) as (El & Hc).
    assert (arm_insns e pos (insn OP_div rd ra ra) = div_insns false rd ra ra) as Ei
      by (unfold arm_insns; cbn [insn p_op p_dest p_src0 p_src1]; rewrite He; reflexivity).
    rewrite Ei in *. 
    assert (words_at (stw m (x 13 + -4) (x ra)) a ws) as Hm'.
    { revert Hm. apply words_at_ext. intros d Hd'. apply ldb_stw_other. intros d' Hd''.
      rewrite (w32_id (a + d)) by (unfold is_u32; lia).
      replace (x 13 + -4 + d') with (x 13 - 4 + d') by lia. specialize (Hf d' Hd''). lia. }
    assert (apply_spill m (x 13) (div_spill ra ra (x ra) (x ra)) = stw m (x 13 + -4) (x ra)) as Em
      by (unfold div_spill; rewrite Z.eqb_refl; reflexivity).
    assert (div_result false m a rd ra ra x f
      (if (s32 (x ra) <? 0) && negb (s32 (x ra) =? -2147483648) then -1 else 1)) as Hdr.
    { refine (div_same false m a rd ra x f (Hc m a Hm) _ _ Hd Ha H13 (Hu 13) (Hu ra) _).
      - cbv zeta. rewrite Em. apply (Hc _ _ Hm').
      - split; [lia|]. split; [lia|]. rewrite El in Hlt. exact Hlt.
      - apply Z.eqb_neq, nz_s32; auto. }
    destruct Hdr as (x' & (f' & Hk) & Ex & P). destruct Hk as [k Hk].
    rewrite Em in Hk. exists k, x', f'. rewrite El. split; [exact Hk|].
    intros q Hq. destruct (Z.eqb_spec q rd) as [->|N]; [exact Ex|].
    apply P; [|exact N]. unfold visible, arm_observable in *. lia.
Qed.
Print Assumptions C06_arm_same_register.

(** ** C07 *)
Theorem C07_arm_hard_soft_agree_partial : forall e e' o rd ra rb x,
  (o = OP_mul \/ (o = OP_div \/ o = OP_mod) /\ x rb <> 0 /\ ra <> rb) ->
  e_hard e = true -> e_hard e' = false ->
  reg8 rd -> reg8 ra -> reg8 rb -> (forall q, is_u32 (x q)) -> x 13 mod 4 = 0 ->
  exists v fm fm', only_changes 0 0 fm /\ only_changes (x 13 - 8) 8 fm' /\
    arm_runs e (insn o rd ra rb) x (Some (rd, fun _ => v)) (x 13 - 8) 0 fm /\
    arm_runs e' (insn o rd ra rb) x (Some (rd, fun _ => v)) (x 13 - 8) 8 fm'.
Proof.
  intros e e' o rd ra rb x Ho He He' Hd Ha Hb Hu H13.
  assert (exists v, c_binop o (s32 (x ra)) (s32 (x rb)) = Some v) as (v & Hv).
  { destruct Ho as [->|([->| ->] & Hz & _)]; [eexists; reflexivity|..]; cbn; rewrite nz_s32; eauto. }
  assert (scratch e o = 0) as S0 by (unfold scratch; rewrite He; destruct o; reflexivity).
  assert (scratch e' o = 0 \/ scratch e' o = 8) as S1
    by (unfold scratch; rewrite He'; destruct o; auto).
  assert (ra <> rb \/ o = OP_mul) as Hr by (destruct Ho as [->|(_ & _ & ?)]; auto).
  destruct (C08_arm_binary e o rd ra rb x v) as (fm & P & Q); auto; [rewrite S0; discriminate|].
  destruct (C08_arm_binary e' o rd ra rb x v) as (fm' & P' & Q'); auto.
  { intros E. destruct Hr as [?| ->]; auto. cbn in E. discriminate. }
  rewrite S0 in *. exists v, fm, fm'. split; [|split; [|split]]; auto.
  - intros m b _. apply P. lia.
  - intros m b Hb'. apply P'. intros d Hdd. apply Hb'. lia.
  - intros pos. destruct (Q' pos) as (ws & E & R). exists ws. split; auto.
    intros m a f Hm H0 H4 Hlt Hf. apply R; auto. intros d Hdd. apply Hf. lia.
Qed.
Print Assumptions C07_arm_hard_soft_agree_partial.

(** ** C09: addressing.  r13 = sp, r12 = gp (globals). *)
Theorem C09_arm_load : forall e o rd off x, reg8 rd -> (forall q, is_u32 (x q)) -> x 13 mod 4 = 0 ->
  o = OP_load \/ o = OP_global_load -> 0 <= off ->
  arm_runs e (insn o rd off 0) x
    (Some (rd, fun m => ldw m (x (if opcode_beq o OP_load then 13 else 12) + off))) 0 0 keep_mem.
Proof. intros e o rd off x Hd Hu H13 [-> | ->] Ho; runs_tac. Qed.
Print Assumptions C09_arm_load.

Theorem C09_arm_store : forall e o rs off x, reg8 rs -> (forall q, is_u32 (x q)) -> x 13 mod 4 = 0 ->
  o = OP_store \/ o = OP_global_store -> 0 <= off ->
  let a := x (if opcode_beq o OP_store then 13 else 12) + off in
  arm_runs e (insn o 0 rs off) x None a 4 (fun m => stw m a (x rs)).
Proof. intros e o rd off x Hd Hu H13 [-> | ->] Ho; runs_tac. Qed.
Print Assumptions C09_arm_store.

Theorem C09_arm_address : forall e o rd off x, reg8 rd -> (forall q, is_u32 (x q)) -> x 13 mod 4 = 0 ->
  o = OP_address_of \/ o = OP_global_address_of -> 0 <= off ->
  arm_runs e (insn o rd off 0) x
    (Some (rd, fun _ => x (if opcode_beq o OP_address_of then 13 else 12) + off)) 0 0 keep_mem.
Proof. intros e o rd off x Hd Hu H13 [-> | ->] Ho; runs_tac. Qed.
Print Assumptions C09_arm_address.

(** a negative offset is never miscompiled: the size pass aborts *)
Theorem C09_arm_negative_offset_rejected : forall hard i,
  match p_op i with
  | OP_load | OP_global_load | OP_address_of | OP_global_address_of => p_src0 i < 0
  | OP_store | OP_global_store => p_src1 i < 0
  | _ => False
  end -> arm_size hard i = None.
Proof.
  intros hard i H. unfold arm_size.
  destruct (p_op i); try contradiction;
  repeat match goal with |- context [if ?c then _ else _] => destruct c eqn:? end; try reflexivity; lia.
Qed.
Print Assumptions C09_arm_negative_offset_rejected.

Theorem C09_arm_data_address : forall e rd off x, reg8 rd -> (forall q, is_u32 (x q)) -> x 13 mod 4 = 0 ->
  arm_runs e (insn OP_load_data_address rd off 0) x
    (Some (rd, fun _ => e_data e + off)) 0 0 keep_mem.
Proof. intros. runs_tac. Qed.
Print Assumptions C09_arm_data_address.

(** pointer accesses: a word or a char (zero-extended on this target) *)
Theorem C09_arm_read : forall e rd ra w x, reg8 rd -> reg8 ra -> (forall q, is_u32 (x q)) -> x 13 mod 4 = 0 ->
  w = 1 \/ w = 4 ->
  arm_runs e (insn OP_read rd ra w) x
    (Some (rd, fun m => if w =? 1 then ldb m (x ra) else ldw m (x ra))) 0 0 keep_mem.
Proof. intros e rd ra w x Hd Ha Hu H13 [-> | ->]; runs_tac. Qed.
Print Assumptions C09_arm_read.

Theorem C09_arm_write : forall e ra rb w x, reg8 ra -> reg8 rb -> (forall q, is_u32 (x q)) -> x 13 mod 4 = 0 ->
  w = 1 \/ w = 4 ->
  arm_runs e (insn OP_write w ra rb) x None (x ra) w
    (fun m => if w =? 1 then stb m (x ra) (x rb) else stw m (x ra) (x rb)).
Proof. intros e rd ra w x Hd Ha Hu H13 [-> | ->]; runs_tac. Qed.
Print Assumptions C09_arm_write.

(** non-trivial instances *)
Definition arm_case_x (q : Z) : Z := if q =? 1 then 4294967289 (* -7 *) else if q =? 2 then 2 else 1000.
Definition arm_case_env : env := mkenv (fun _ => 0) (fun _ => None) 65536 70000 false.
Lemma arm_case_u32 : forall q, is_u32 (arm_case_x q).
Proof. intros q. unfold arm_case_x, is_u32. repeat destruct (_ =? _); lia. Qed.
Example C06_case : exists fm, only_changes 992 8 fm /\
  arm_runs arm_case_env (insn OP_div 1 1 2) arm_case_x (Some (1, fun _ => -3)) 992 8 fm.
Proof. apply (C06_arm_soft_div_partial arm_case_env 1 1 2 arm_case_x eq_refl);
  first [exact arm_case_u32|unfold reg8; lia|reflexivity|discriminate]. Qed.
Example C09_arm_case : arm_runs arm_case_env (insn OP_store 0 1 100000) arm_case_x None 101000 4
  (fun m => stw m 101000 4294967289).
Proof. apply (C09_arm_store arm_case_env OP_store 1 100000 arm_case_x);
  first [exact arm_case_u32|unfold reg8; lia|reflexivity|auto|lia]. Qed.
