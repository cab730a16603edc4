(** What the ARM code emitted for each IR operator computes. *)
From Verif.Base Require Import Int32 Mem MemProofs Bits.
From Verif.Ir Require Import Ph2 Ph2Sem.
From Verif.Ir Require Export Regs.
From Verif.Arm Require Import ArmISA ArmEnc ArmEncProofs ArmGen ArmExec.


(** the code [is], placed at [a], takes the register file [x] to [x'] and memory
    [m] to [m'], and ends right behind the code *)
Definition runs2 (m : mem) (a : Z) (is : list (cond * ainstr)) (x : Z -> Z) (f : flags)
    (x' : Z -> Z) (m' : mem) : Prop :=
  exists f', arm_star (mkarm a x f m) (mkarm (a + 4 * Z.of_nat (length is)) x' f' m').
Definition runs m a is x f x' := runs2 m a is x f x' m.

Ltac start a := replace (mkarm a) with (mkarm (a + 0)) by (f_equal; lia).
Ltac fin := cbn [length]; match goal with
  | |- arm_star (mkarm ?p ?x ?f ?m) (mkarm ?q _ _ _) => replace q with p by lia; apply arm_star_refl end.

Ltac autox := unfold a_r0, a_r1, a_r2, a_r3, a_r4, a_r5, a_r6, a_r7, a_r8, a_r9,
  a_r10, a_r12, a_sp, a_lr, a_pc, vreg in *; xsimp.
Ltac prestac := unfold pres, visible; intros; autox; try reflexivity; try lia.

Notation rR rm := (OReg rm LSL 0).

Definition cond_of_op (o : opcode) : cond :=
  match o with OP_eq => EQ | OP_neq => NE | OP_lt => LT | OP_geq => GE | OP_gt => GT | _ => LE end.

Definition arm_bin_insns (o : opcode) (rd rn rm : Z) : list (cond * ainstr) :=
  match o with
  | OP_add => [(AL, ADp ADD false rd rn (rR rm))]
  | OP_sub => [(AL, ADp SUB false rd rn (rR rm))]
  | OP_mul => [(AL, AMul rd rm rn)]
  | OP_div => [(AL, ASdiv rd rn rm)]
  | OP_mod => [(AL, ASdiv 8 rn rm); (AL, AMul 8 8 rm); (AL, ADp SUB false rd rn (rR 8))]
  | OP_lshift => [(AL, ADp MOV false rd 0 (ORsr rn LSL rm))]
  | OP_rshift => [(AL, ADp MOV false rd 0 (ORsr rn ASR rm))]
  | OP_eq | OP_neq | OP_gt | OP_lt | OP_geq | OP_leq =>
      [(AL, ADp CMP true 0 rn (rR rm)); (AL, ADp MOV false rd 0 (OImm 0 0));
       (cond_of_op o, ADp MOV false rd 0 (OImm 1 0))]
  | OP_bit_and => [(AL, ADp AND false rd rn (rR rm))]
  | OP_bit_or => [(AL, ADp ORR false rd rn (rR rm))]
  | OP_bit_xor => [(AL, ADp EOR false rd rn (rR rm))]
  | OP_negate => [(AL, ADp RSB false rd rn (OImm 0 0))]
  | OP_bit_not => [(AL, ADp MVN false rd 0 (rR rn))]
  | OP_log_not => [(AL, ADp TEQ true 0 rn (OImm 0 0)); (NE, ADp MOV false rd 0 (OImm 0 0));
                   (EQ, ADp MOV false rd 0 (OImm 1 0))]
  | _ => []
  end.

Section BinOps.
  Variables (m : mem) (a rd rn rm : Z) (x : Z -> Z) (f : flags).
  Hypothesis Hrd : vreg rd.
  Hypothesis Hr1 : vreg rn.
  Hypothesis Hr2 : vreg rm.
  Hypothesis Ux1 : is_u32 (x rn).
  Hypothesis Ux2 : is_u32 (x rm).

  Definition result (is : list (cond * ainstr)) (v : Z) : Prop :=
    exists x', runs m a is x f x' /\ x' rd = w32 v /\ pres x x' rd.

  Ltac oneop := unfold vreg in *; intros Hc Ha; cbn [arm_bin_insns] in Hc, Ha;
     eexists; split; [eexists; start a; cbn [arm_bin_insns length] in *; repeat stp; fin
                     |split; [|prestac]]; autox.

  Lemma armop_add : code_at m a (arm_bin_insns OP_add rd rn rm) -> arange a 1 ->
    result (arm_bin_insns OP_add rd rn rm) (s32 (x rn) + s32 (x rm)).
  Proof. oneop. rewrite <- (w32_add (s32 _)), !w32_s32, w32_add. reflexivity. Qed.

  Lemma armop_sub : code_at m a (arm_bin_insns OP_sub rd rn rm) -> arange a 1 ->
    result (arm_bin_insns OP_sub rd rn rm) (s32 (x rn) - s32 (x rm)).
  Proof.
    oneop. rewrite <- (w32_sub_l (s32 _)), <- (w32_sub_r _ (s32 _)), !w32_s32, w32_sub_l, w32_sub_r. reflexivity.
  Qed.

  Lemma armop_mul : code_at m a (arm_bin_insns OP_mul rd rn rm) -> arange a 1 ->
    result (arm_bin_insns OP_mul rd rn rm) (s32 (x rn) * s32 (x rm)).
  Proof.
    oneop. rewrite <- (w32_mul_l (s32 _)), <- (w32_mul_r _ (s32 _)), !w32_s32, w32_mul_l, w32_mul_r.
    f_equal. lia.
  Qed.

  Lemma nz_s32 : s32 (x rm) <> 0 -> (x rm =? 0) = false.
  Proof. intros H. destruct (s32_cases _ Ux2) as [[]|[]]; unfold is_u32 in *; lia. Qed.

  Lemma armop_div : s32 (x rm) <> 0 ->
    code_at m a (arm_bin_insns OP_div rd rn rm) -> arange a 1 ->
    result (arm_bin_insns OP_div rd rn rm) (Z.quot (s32 (x rn)) (s32 (x rm))).
  Proof. intros Hnz. oneop. rewrite nz_s32 by assumption. reflexivity. Qed.

  Lemma armop_mod : s32 (x rm) <> 0 ->
    code_at m a (arm_bin_insns OP_mod rd rn rm) -> arange a 3 ->
    result (arm_bin_insns OP_mod rd rn rm) (Z.rem (s32 (x rn)) (s32 (x rm))).
  Proof.
    intros Hnz. oneop. rewrite nz_s32 by assumption.
    rewrite w32_sub_r.
    pose proof (Z.quot_rem (s32 (x rn)) (s32 (x rm)) Hnz) as Q.
    set (q := Z.quot (s32 (x rn)) (s32 (x rm))) in *.
    set (r := Z.rem (s32 (x rn)) (s32 (x rm))) in *.
    rewrite <- w32_sub_r, w32_mul_l, <- w32_mul_r, <- (w32_s32 (x rm)), w32_mul_r, w32_sub_r.
    rewrite <- w32_sub_l, <- (w32_s32 (x rn)), w32_sub_l. f_equal. lia.
  Qed.

  Lemma armop_lshift : 0 <= s32 (x rm) < 32 ->
    code_at m a (arm_bin_insns OP_lshift rd rn rm) -> arange a 1 ->
    result (arm_bin_insns OP_lshift rd rn rm) (s32 (x rn) * 2 ^ s32 (x rm)).
  Proof.
    intros Hs. oneop.
    assert (s32 (x rm) = x rm) as E by (destruct (s32_cases _ Ux2) as [[]|[]]; unfold is_u32 in *; lia).
    rewrite E in *. rewrite (Z.mod_small (x rm) 256) by lia.
    rewrite <- (w32_mul_l (s32 _)), w32_s32, w32_mul_l. unfold shift_c.
    destruct (Z.eqb_spec (x rm) 0) as [E0|E0]; cbn [fst].
    - rewrite E0. change (2 ^ 0) with 1. rewrite Z.mul_1_r. reflexivity.
    - apply w32_idem.
  Qed.

  Lemma armop_rshift : 0 <= s32 (x rm) < 32 ->
    code_at m a (arm_bin_insns OP_rshift rd rn rm) -> arange a 1 ->
    result (arm_bin_insns OP_rshift rd rn rm) (s32 (x rn) / 2 ^ s32 (x rm)).
  Proof.
    intros Hs. oneop.
    assert (s32 (x rm) = x rm) as E by (destruct (s32_cases _ Ux2) as [[]|[]]; unfold is_u32 in *; lia).
    rewrite E in *. rewrite (Z.mod_small (x rm) 256) by lia. unfold shift_c.
    destruct (Z.eqb_spec (x rm) 0) as [E0|E0]; cbn [fst].
    - rewrite E0. change (2 ^ 0) with 1. rewrite Z.div_1_r, w32_s32. reflexivity.
    - apply w32_idem.
  Qed.

  Lemma armop_and : code_at m a (arm_bin_insns OP_bit_and rd rn rm) -> arange a 1 ->
    result (arm_bin_insns OP_bit_and rd rn rm) (Z.land (s32 (x rn)) (s32 (x rm))).
  Proof. oneop. rewrite !w32_land, !w32_s32. reflexivity. Qed.
  Lemma armop_or : code_at m a (arm_bin_insns OP_bit_or rd rn rm) -> arange a 1 ->
    result (arm_bin_insns OP_bit_or rd rn rm) (Z.lor (s32 (x rn)) (s32 (x rm))).
  Proof. oneop. rewrite !w32_lor, !w32_s32. reflexivity. Qed.
  Lemma armop_xor : code_at m a (arm_bin_insns OP_bit_xor rd rn rm) -> arange a 1 ->
    result (arm_bin_insns OP_bit_xor rd rn rm) (Z.lxor (s32 (x rn)) (s32 (x rm))).
  Proof. oneop. rewrite !w32_lxor, !w32_s32. reflexivity. Qed.

  Lemma armop_negate : code_at m a (arm_bin_insns OP_negate rd rn rm) -> arange a 1 ->
    result (arm_bin_insns OP_negate rd rn rm) (- s32 (x rn)).
  Proof.
    oneop. replace (- s32 (x rn)) with (0 - s32 (x rn)) by lia.
    rewrite <- (w32_sub_r 0 (s32 _)), w32_s32, w32_sub_r. reflexivity.
  Qed.
  Lemma armop_bitnot : code_at m a (arm_bin_insns OP_bit_not rd rn rm) -> arange a 1 ->
    result (arm_bin_insns OP_bit_not rd rn rm) (Z.lnot (s32 (x rn))).
  Proof.
    oneop. unfold notw, Z.lnot. apply w32_cong. destruct (s32_mod (x rn)) as [q ->].
    exists (1 + q). lia.
  Qed.

  (** [cmp; mov rd,#0; mov<c> rd,#1] *)
  Lemma armop_cmp o (b : bool) :
    arm_bin_insns o rd rn rm =
      [(AL, ADp CMP true 0 rn (rR rm)); (AL, ADp MOV false rd 0 (OImm 0 0));
       (cond_of_op o, ADp MOV false rd 0 (OImm 1 0))] ->
    cond_ok (cond_of_op o) (cmpf (x rn) (x rm)) = b ->
    code_at m a (arm_bin_insns o rd rn rm) -> arange a 3 ->
    result (arm_bin_insns o rd rn rm) (if b then 1 else 0).
  Proof.
    intros -> Hb Hc Ha. unfold result, runs. unfold vreg in *. destruct b.
    - eexists. split; [eexists; start a; cbn [length] in *|].
      + stp; [assumption|assumption|]. stp. stp. fin.
      + split; [autox; reflexivity|prestac].
    - eexists. split; [eexists; start a; cbn [length] in *|].
      + stp; [assumption|assumption|]. stp. skp; [exact Hb|]. fin.
      + split; [autox; reflexivity|prestac].
  Qed.

  Lemma armop_eq : code_at m a (arm_bin_insns OP_eq rd rn rm) -> arange a 3 ->
    result (arm_bin_insns OP_eq rd rn rm) (if s32 (x rn) =? s32 (x rm) then 1 else 0).
  Proof. apply armop_cmp; [reflexivity|]. rewrite s32_eqb by assumption. apply cmpf_EQ; assumption. Qed.
  Lemma armop_neq : code_at m a (arm_bin_insns OP_neq rd rn rm) -> arange a 3 ->
    result (arm_bin_insns OP_neq rd rn rm) (if s32 (x rn) =? s32 (x rm) then 0 else 1).
  Proof.
    replace (if s32 (x rn) =? s32 (x rm) then 0 else 1) with (if negb (s32 (x rn) =? s32 (x rm)) then 1 else 0)
      by (destruct (s32 (x rn) =? s32 (x rm)); reflexivity).
    apply armop_cmp; [reflexivity|]. rewrite s32_eqb by assumption. apply cmpf_NE; assumption. Qed.
  Lemma armop_lt : code_at m a (arm_bin_insns OP_lt rd rn rm) -> arange a 3 ->
    result (arm_bin_insns OP_lt rd rn rm) (if s32 (x rn) <? s32 (x rm) then 1 else 0).
  Proof. apply armop_cmp; [reflexivity|]. apply cmpf_LT; assumption. Qed.
  Lemma armop_gt : code_at m a (arm_bin_insns OP_gt rd rn rm) -> arange a 3 ->
    result (arm_bin_insns OP_gt rd rn rm) (if s32 (x rm) <? s32 (x rn) then 1 else 0).
  Proof. apply armop_cmp; [reflexivity|]. apply cmpf_GT; assumption. Qed.
  Lemma armop_leq : code_at m a (arm_bin_insns OP_leq rd rn rm) -> arange a 3 ->
    result (arm_bin_insns OP_leq rd rn rm) (if s32 (x rn) <=? s32 (x rm) then 1 else 0).
  Proof. apply armop_cmp; [reflexivity|]. apply cmpf_LE; assumption. Qed.
  Lemma armop_geq : code_at m a (arm_bin_insns OP_geq rd rn rm) -> arange a 3 ->
    result (arm_bin_insns OP_geq rd rn rm) (if s32 (x rm) <=? s32 (x rn) then 1 else 0).
  Proof. apply armop_cmp; [reflexivity|]. apply cmpf_GE; assumption. Qed.

  Lemma armop_lognot : code_at m a (arm_bin_insns OP_log_not rd rn rm) -> arange a 3 ->
    result (arm_bin_insns OP_log_not rd rn rm) (if s32 (x rn) =? 0 then 1 else 0).
  Proof.
    unfold vreg in *. intros Hc Ha. cbn [arm_bin_insns] in Hc |- *.
    assert ((s32 (x rn) =? 0) = (x rn =? 0)) as ->
      by (destruct (s32_cases _ Ux1) as [[]|[]]; unfold is_u32 in *; lia).
    assert (rn <> 15) as Hn15 by lia.
    destruct (ex_teq 0 rn (a + 0) x f m Hn15 Ux1) as (f' & E & Z').
    unfold result, runs. destruct (x rn =? 0) eqn:Ez.
    - eexists. split; [eexists; start a; cbn [length] in *|].
      + stp_with ltac:(exact E). skp; [cbn; rewrite Z'; reflexivity|]. stp. fin.
      + split; [autox; reflexivity|prestac].
    - eexists. split; [eexists; start a; cbn [length] in *|].
      + stp_with ltac:(exact E). stp_with ltac:(apply ex_dp; [cbn; rewrite Z'; reflexivity|side..]).
        skp; [cbn; rewrite Z'; reflexivity|]. fin.
      + split; [autox; reflexivity|prestac].
  Qed.
End BinOps.
