(** The instruction list behind [arm_emit], and code size. *)
From Verif.Base Require Import Int32 Mem MemProofs Bits.
From Verif.Ir Require Import Ph2 Ph2Sem.
From Verif.Arm Require Import ArmISA ArmEnc ArmEncProofs ArmGen ArmExec ArmOps ArmSoft.

Definition mov32_insns (d v : Z) : list (cond * ainstr) :=
  [(AL, AMovw d (v mod 65536)); (AL, AMovt d (v / 65536 mod 65536))].

Definition arm_insns (e : env) (pos : Z) (i : ph2) : list (cond * ainstr) :=
  let rd := p_dest i in
  let rn := p_src0 i in
  let rm := p_src1 i in
  let base := match p_op i with OP_address_of | OP_load | OP_store => 13 | _ => 12 end in
  let fofs := match e_fn e (p_func i) with Some o => o | None => 0 end in
  match p_op i with
  | OP_define => (AL, AStr false 14 13 (-4)) :: mov32_insns 8 (iadd (p_src0 i) 4)
                 ++ [(AL, ADp SUB false 13 13 (rR 8))]
  | OP_load_constant =>
      if p_src0 i <? 0 then mov32_insns 8 (ineg (p_src0 i)) ++ [(AL, ADp RSB false rd 8 (OImm 0 0))]
      else if p_src0 i >? 255 then mov32_insns rd (p_src0 i)
      else [(AL, ADp MOV false rd 0 (OImm (p_src0 i) 0))]
  | OP_address_of | OP_global_address_of =>
      if p_src0 i >? 255 then mov32_insns 8 (p_src0 i) ++ [(AL, ADp ADD false rd base (rR 8))]
      else [(AL, ADp ADD false rd base (OImm (p_src0 i) 0))]
  | OP_assign => [(AL, ADp MOV false rd 0 (rR rn))]
  | OP_load | OP_global_load =>
      if p_src0 i >? 4095 then
        mov32_insns 8 (p_src0 i) ++ [(AL, ADp ADD false 8 base (rR 8)); (AL, ALdr false rd 8 0)]
      else [(AL, ALdr false rd base (p_src0 i))]
  | OP_store | OP_global_store =>
      if p_src1 i >? 4095 then
        mov32_insns 8 (p_src1 i) ++ [(AL, ADp ADD false 8 base (rR 8)); (AL, AStr false rn 8 0)]
      else [(AL, AStr false rn base (p_src1 i))]
  | OP_read => [(AL, ALdr (p_src1 i =? 1) rd rn 0)]
  | OP_write => [(AL, AStr (p_dest i =? 1) rm rn 0)]
  | OP_branch =>
      (AL, ADp TEQ true 0 rn (OImm 0 0)) ::
      if p_det i then [(NE, AB 0); (AL, AB (e_bb e (p_else i) - (pos + 16)))]
      else [(NE, AB (e_bb e (p_then i) - (pos + 12)))]
  | OP_jump => [(AL, AB (e_bb e (p_next i) - (pos + 8)))]
  | OP_call => [(AL, ABl (fofs - (pos + 8)))]
  | OP_load_data_address => mov32_insns rd (iadd (p_src0 i) (e_data e))
  | OP_address_of_func => mov32_insns 8 (iadd (e_code e) fofs) ++ [(AL, AStr false 8 rn 0)]
  | OP_load_func => [(AL, ADp MOV false 8 0 (rR rn))]
  | OP_indirect => [(AL, ABlx 8)]
  | OP_return =>
      (if p_src0 i =? -1 then (AL, ADp MOV false 0 0 (rR 0)) else (AL, ADp MOV false 0 0 (rR rn)))
      :: mov32_insns 8 (iadd (p_src1 i) 4)
      ++ [(AL, ADp ADD false 13 13 (rR 8)); (AL, ALdr false 14 13 (-4)); (AL, ABlx 14)]
  | OP_div => if e_hard e then arm_bin_insns OP_div rd rn rm else div_insns false rd rn rm
  | OP_mod => if e_hard e then arm_bin_insns OP_mod rd rn rm else div_insns true rd rn rm
  | o => arm_bin_insns o rd rn rm
  end.

(** a branch distance (measured from the instruction) that is encodable *)
Definition joff_ok (o : Z) : Prop := -33554400 <= o < 33554400 /\ o mod 4 = 0.

(** every pc-relative distance in the instruction is encodable *)
Definition jumps_ok (e : env) (pos : Z) (i : ph2) : Prop :=
  match p_op i with
  | OP_branch => joff_ok (e_bb e (p_else i) - (pos + 8)) /\ joff_ok (e_bb e (p_then i) - (pos + 4))
  | OP_jump => joff_ok (e_bb e (p_next i) - pos)
  | OP_call => forall o, e_fn e (p_func i) = Some o -> joff_ok (o - pos)
  | _ => True
  end.

Lemma emits_some pos fs is ws : encs pos fs is -> emits pos fs = Some ws ->
  length ws = length is /\ forall m a, words_at m a ws -> code_at m a is.
Proof.
  intros H E. destruct (encs_emits _ _ _ H) as (ws' & E' & ? & ?).
  rewrite E in E'. inversion E'; subst. auto.
Qed.

(** the size computed by update_elf_offset is the number of bytes emitted, except
    for a move of a register to itself *)
Theorem arm_size_ok e pos i n ws :
  (p_op i = OP_assign -> p_dest i <> p_src0 i) ->
  arm_size (e_hard e) i = Some n -> arm_emit e pos i = Some ws ->
  4 * Z.of_nat (length ws) = n.
Proof.
  unfold arm_size, arm_emit. intros Hsm Hs He.
  destruct (p_op i) eqn:Eop; try discriminate; try (specialize (Hsm eq_refl));
  repeat match type of Hs with
  | Some (if ?c then _ else _) = _ => destruct c eqn:?
  | (if ?c then _ else _) = _ => destruct c eqn:?
  end; try discriminate; inversion Hs; subst n; clear Hs;
  repeat match type of He with
  | (if ?c then _ else _) = _ => destruct c eqn:?
  | (match ?c with _ => _ end) = _ => destruct c eqn:?
  end; try discriminate; try congruence; try lia; apply emits_length in He; rewrite He; reflexivity.
Qed.

Lemma arm_define_size e pos i ws : p_op i = OP_define -> arm_emit e pos i = Some ws ->
  length ws = 4%nat.
Proof. unfold arm_emit. intros -> H. apply emits_length in H. exact H. Qed.

Lemma enc_k_if (b : bool) u v pos i j :
  (b = true -> exists w, k u pos = Some w /\ arm_decode (w32 w) = Some i) ->
  (b = false -> exists w, k v pos = Some w /\ arm_decode (w32 w) = Some j) ->
  exists w, k (if b then u else v) pos = Some w /\ arm_decode (w32 w) = Some (if b then i else j).
Proof. destruct b; auto. Qed.

Lemma enc_movw c d v pos : reg15 d ->
  exists w, k (e_movw (cond_num c) d v) pos = Some w /\ arm_decode (w32 w) = Some (c, AMovw d (v mod 65536)).
Proof. intros. apply movw_ok. assumption. Qed.
Lemma enc_movt c d v pos : reg15 d ->
  exists w, k (e_movt (cond_num c) d v) pos = Some w /\
    arm_decode (w32 w) = Some (c, AMovt d (v / 65536 mod 65536)).
Proof. intros. apply movt_ok. assumption. Qed.
Lemma enc_b c o d : o + 8 = d -> joff_ok d ->
  exists w, e_b (cond_num c) d = Some w /\ arm_decode (w32 w) = Some (c, AB o).
Proof. intros <- H. apply (branch_ok c false o); unfold joff_ok in H; lia. Qed.
Lemma enc_bl c o d : o + 8 = d -> joff_ok d ->
  exists w, e_bl (cond_num c) d = Some w /\ arm_decode (w32 w) = Some (c, ABl o).
Proof. intros <- H. apply (branch_ok c true o); unfold joff_ok in H; lia. Qed.

Ltac enc1 ::=
  lazymatch goal with
  | |- exists w, k (e_movw _ _ _) _ = Some w /\ _ => apply (enc_movw AL); regs4
  | |- exists w, k (e_movt _ _ _) _ = Some w /\ _ => apply (enc_movt AL); regs4
  | |- exists w, k _ ?pos = Some w /\ arm_decode (w32 w) = Some (?c, ?i) =>
      apply (asm_enc c i pos); [cbn [arm_operands_ok]; unfold vreg in *; repeat split;
        try reflexivity; try regs4; try (right; lia); try (left; repeat split; lia)|try reflexivity]
  | |- exists w, e_b _ _ = Some w /\ arm_decode (w32 w) = Some (?c, _) =>
      apply (enc_b c); [lia|unfold joff_ok in *; lia]
  | |- exists w, e_bl _ _ = Some w /\ arm_decode (w32 w) = Some (?c, _) =>
      apply (enc_bl c); [lia|unfold joff_ok in *; lia]
  end.

Lemma arm_emit_code e pos i ws :
  arm_emit e pos i = Some ws -> regs_ok i -> jumps_ok e pos i ->
  p_op i = OP_define \/ arm_size (e_hard e) i <> None ->
  length ws = length (arm_insns e pos i) /\
  forall m a, words_at m a ws -> code_at m a (arm_insns e pos i).
Proof.
  unfold arm_emit, arm_insns, regs_ok, jumps_ok, arm_size, vreg, mov32_insns, arm_bin_insns, mov32.
  intros He (Hd & H0 & H1 & Hr) Hj Hz.
  destruct (p_op i) eqn:Eop; try discriminate; cbn [uses_dest uses_src0 uses_src1] in *;
  repeat match goal with H : true = true -> _ |- _ => specialize (H eq_refl) end;
  repeat match goal with H : false = true -> _ |- _ => clear H end;
  repeat match type of He with
  | (if ?c then _ else _) = _ => destruct c eqn:?
  | (match ?c with _ => _ end) = _ => destruct c eqn:?
  end; try discriminate;
  repeat match goal with H : forall o, Some _ = Some o -> _ |- _ => specialize (H _ eq_refl) end;
  try (destruct Hz as [Hz|Hz]; [discriminate Hz|];
       repeat match type of Hz with context [if ?c then _ else _] => destruct c eqn:? end;
       try congruence);
  refine (emits_some _ _ _ _ _ He); clear He;
  lazymatch goal with
  | |- encs _ (arm_soft_div _ _ _ _) _ => apply div_encs; unfold vreg; regs4
  | |- encs _ (_ ++ _) _ => idtac
  | |- _ => idtac
  end;
  cbn [app encs];
  repeat match goal with |- _ /\ _ => split end; try exact I;
  try (lazymatch goal with |- exists w, k (if _ then _ else _) _ = _ /\ _ => apply enc_k_if; intros; specialize (Hr eq_refl) end);
  try enc1.
  all: try (cbn [arm_get_cond]; enc1).
Qed.
