(** The instruction list behind [rv_emit], and code size. *)
From Verif.Base Require Import Int32 Mem Bits.
From Verif.Ir Require Import Ph2 Ph2Sem.
From Verif.Rv Require Import RvISA RvEnc RvEncProofs RvGen RvExec RvOps RvSoft.

Definition li_insns (d v : Z) : list rvinstr := [ILUI d (lui_val v); II ADDI d d (rv_lo v)].

Definition rv_insns (e : env) (pos : Z) (i : ph2) : list rvinstr :=
  let rd := p_dest i + 10 in
  let rs1 := p_src0 i + 10 in
  let rs2 := p_src1 i + 10 in
  let base := match p_op i with OP_address_of | OP_load | OP_store => 2 | _ => 3 end in
  match p_op i with
  | OP_define => li_insns 5 (iadd (p_src0 i) 4) ++ [IR SUB 2 2 5; IS SW 2 1 0]
  | OP_load_constant =>
      if out12 (p_src0 i) then li_insns rd (p_src0 i) else [II ADDI rd 0 (p_src0 i)]
  | OP_address_of | OP_global_address_of =>
      if out12 (p_src0 i) then li_insns 5 (p_src0 i) ++ [IR ADD rd base 5]
      else [II ADDI rd base (p_src0 i)]
  | OP_assign => [II ADDI rd rs1 0]
  | OP_load | OP_global_load =>
      if out12 (p_src0 i) then li_insns 5 (p_src0 i) ++ [IR ADD 5 base 5; IL LW rd 5 0]
      else [IL LW rd base (p_src0 i)]
  | OP_store | OP_global_store =>
      if out12 (p_src1 i) then li_insns 5 (p_src1 i) ++ [IR ADD 5 base 5; IS SW 5 rs1 0]
      else [IS SW base rs1 (p_src1 i)]
  | OP_read => [IL (if p_src1 i =? 1 then LB else LW) rd rs1 0]
  | OP_write => [IS (if p_dest i =? 1 then SB else SW) rs1 rs2 0]
  | OP_branch =>
      li_insns 5 (iadd (e_code e) (e_bb e (p_then i)))
      ++ [IB BEQ rs1 0 8; IJALR 0 5 0; IJAL 0 (e_bb e (p_else i) - (pos + 16))]
  | OP_jump => [IJAL 0 (e_bb e (p_next i) - pos)]
  | OP_call => [IJAL 1 (match e_fn e (p_func i) with Some o => o | None => 0 end - pos)]
  | OP_load_data_address => li_insns rd (iadd (e_data e) (p_src0 i))
  | OP_address_of_func =>
      li_insns 5 (iadd (e_code e) (match e_fn e (p_func i) with Some o => o | None => 0 end))
      ++ [IS SW rs1 5 0]
  | OP_load_func => [II ADDI 5 rs1 0]
  | OP_indirect => [IJALR 1 5 0]
  | OP_return =>
      (if p_src0 i =? -1 then II ADDI 0 0 0 else II ADDI 10 rs1 0)
      :: IL LW 1 2 0 :: li_insns 5 (iadd (p_src1 i) 4) ++ [IR ADD 2 2 5; IJALR 0 1 0]
  | OP_mul => if e_hard e then rv_bin_insns OP_mul rd rs1 rs2 else mul_insns rd rs1 rs2
  | OP_div => if e_hard e then rv_bin_insns OP_div rd rs1 rs2 else div_insns false rd rs1 rs2
  | OP_mod => if e_hard e then rv_bin_insns OP_mod rd rs1 rs2 else div_insns true rd rs1 rs2
  | o => rv_bin_insns o rd rs1 rs2
  end.

Definition joff_ok (o : Z) : Prop := -1048576 <= o < 1048576 /\ o mod 2 = 0.

(** every pc-relative distance in the instruction is encodable *)
Definition jumps_ok (e : env) (pos : Z) (i : ph2) : Prop :=
  match p_op i with
  | OP_branch => joff_ok (e_bb e (p_else i) - (pos + 16))
  | OP_jump => joff_ok (e_bb e (p_next i) - pos)
  | OP_call => forall o, e_fn e (p_func i) = Some o -> joff_ok (o - pos)
  | _ => True
  end.

Lemma emits_some pos fs is ws : encs pos fs is -> emits pos fs = Some ws ->
  length ws = length is /\ forall m a, words_at m a ws -> code_at m a is.
Proof.
  intros H E. destruct (encs_emits _ _ _ H) as (ws' & E' & ? & ?).
  rewrite E in E'. inversion E'; subst. auto.
Qed.

Theorem rv_size_ok e pos i n ws :
  rv_size (e_hard e) i = Some n -> rv_emit e pos i = Some ws ->
  4 * Z.of_nat (length ws) = n.
Proof.
  unfold rv_size, rv_emit. intros Hs He.
  destruct (p_op i); try discriminate; inversion Hs; subst n; clear Hs;
  repeat match type of He with
  | (if ?c then _ else _) = _ => destruct c
  | (match ?c with _ => _ end) = _ => destruct c
  end; try discriminate; apply emits_length in He; rewrite He; reflexivity.
Qed.

Lemma rv_define_size e pos i ws : p_op i = OP_define -> rv_emit e pos i = Some ws ->
  length ws = 4%nat.
Proof. unfold rv_emit. intros -> H. apply emits_length in H. exact H. Qed.

Lemma enc_k_if (b : bool) u v pos i :
  (b = true -> exists w, k u pos = Some w /\ rv_decode (w32 w) = Some i) ->
  (b = false -> exists w, k v pos = Some w /\ rv_decode (w32 w) = Some i) ->
  exists w, k (if b then u else v) pos = Some w /\ rv_decode (w32 w) = Some i.
Proof. destruct b; auto. Qed.

Ltac enc1 ::=
  lazymatch goal with
  | |- exists w, k (e_lui _ (rv_hi _)) _ = Some w /\ _ => apply enc_lui; regs5
  | |- exists w, k _ ?pos = Some w /\ rv_decode (w32 w) = Some ?i =>
      apply (enc_asm i pos); cbn [rv_operands_ok];
      try match goal with |- context [rv_lo ?v] => pose proof (rv_lo_range v) end;
      repeat split; regs5
  | |- exists w, _ = Some w /\ _ => apply enc_jal; unfold joff_ok in *; regs5
  end.

Lemma out12_false v : out12 v = false -> -2048 <= v <= 2047.
Proof. unfold out12. lia. Qed.

Lemma rv_emit_code e pos i ws :
  rv_emit e pos i = Some ws -> regs_ok i -> jumps_ok e pos i ->
  length ws = length (rv_insns e pos i) /\
  forall m a, words_at m a ws -> code_at m a (rv_insns e pos i).
Proof.
  unfold rv_emit, rv_insns, regs_ok, jumps_ok, vreg, li_insns, rv_bin_insns.
  intros He (Hd & H0 & H1 & Hr) Hj.
  destruct (p_op i) eqn:Eop; try discriminate; cbn [uses_dest uses_src0 uses_src1] in *;
  repeat match goal with H : true = true -> _ |- _ => specialize (H eq_refl) end;
  repeat match goal with H : false = true -> _ |- _ => clear H end;
  repeat match type of He with
  | (if out12 ?c then _ else _) = _ =>
      let E := fresh "Eo" in destruct (out12 c) eqn:E; [|apply out12_false in E]
  | (if ?c then _ else _) = _ => destruct c
  | (match ?c with _ => _ end) = _ => destruct c eqn:?
  end; try discriminate;
  repeat match goal with H : forall o, Some _ = Some o -> _ |- _ => specialize (H _ eq_refl) end;
  refine (emits_some _ _ _ _ _ He); clear He;
  lazymatch goal with
  | |- encs _ (rv_soft_mul _ _ _) _ => apply mul_encs; regs5
  | |- encs _ (rv_soft_div _ _ _ _) _ => apply div_encs; regs5
  | |- encs _ (k (if _ then _ else _) :: _) _ => idtac
  | |- _ => cbn [app encs]; repeat split; enc1
  end.
  (* return *)
  specialize (Hr eq_refl). cbn [app encs]. split.
  - apply enc_k_if; intros E; rewrite E in *; enc1.
  - repeat split; enc1.
Qed.
