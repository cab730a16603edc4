(** What the RISC-V code emitted for each IR instruction computes. *)
From Verif.Base Require Import Int32 Mem Bits.
From Verif.Ir Require Import Ph2 Ph2Sem.
From Verif.Ir Require Export Regs.
From Verif.Rv Require Import RvISA RvEnc RvEncProofs RvGen RvExec.


(** [runs m a is x x']: the code [is], placed at [a], takes the register file
    [x] to [x'], leaves memory alone and ends right behind the code. *)
Definition runs (m : mem) (a : Z) (is : list rvinstr) (x x' : Z -> Z) : Prop :=
  rv_star (mkrv a x m) (mkrv (a + 4 * Z.of_nat (length is)) x' m).

Ltac start a := replace (mkrv a) with (mkrv (a + 0)) by (f_equal; lia).
Ltac fin := cbn [length]; match goal with
  | |- rv_star (mkrv ?p ?x ?m) (mkrv ?q _ _) => replace q with p by lia; apply rv_star_refl end.

Ltac zred := repeat match goal with
  | |- context [if ?c =? 0 then _ else _] =>
      lazymatch c with Zpos _ => idtac | _ => is_var c end;
      replace (c =? 0) with false by (symmetry; apply Z.eqb_neq; regs5)
  | |- context [if 0 =? 0 then _ else _] => change (0 =? 0) with true; cbv iota
  end; cbv iota.

Ltac autox := unfold r_zero, r_ra, r_sp, r_gp, r_t0, r_t1, r_t2, r_t3, r_t4, r_t5,
  r_a0, r_a1, r_a2, r_a3, r_a4, r_a5, r_a6, r_a7 in *; zred; xsimp.

Ltac prestac := unfold pres, visible; intros; autox; try reflexivity; try lia.

Lemma b2w (b : bool) : w32 (if b then 1 else 0) = if b then 1 else 0.
Proof. destruct b; reflexivity. Qed.

Lemma w32_sub_0 a b : is_u32 a -> is_u32 b -> w32 (a - b) = 0 <-> a = b.
Proof. unfold w32, is_u32; lia. Qed.

Lemma s32_eq a b : is_u32 a -> is_u32 b -> (s32 a =? s32 b) = (a =? b).
Proof.
  intros Ha Hb. destruct (s32_cases a Ha) as [[]|[]], (s32_cases b Hb) as [[]|[]]; unfold is_u32 in *; lia.
Qed.

Lemma s32_0 a : is_u32 a -> (s32 a =? 0) = (a =? 0).
Proof. intros Ha. destruct (s32_cases a Ha) as [[]|[]]; unfold is_u32 in *; lia. Qed.

(** single-instruction and short comparison sequences; [hard] selects the M
    extension for multiplication and division *)
Definition rv_bin_insns (o : opcode) (rd rs1 rs2 : Z) : list rvinstr :=
  match o with
  | OP_add => [IR ADD rd rs1 rs2]
  | OP_sub => [IR SUB rd rs1 rs2]
  | OP_mul => [IR MUL rd rs1 rs2]
  | OP_div => [IR DIV rd rs1 rs2]
  | OP_mod => [IR REM rd rs1 rs2]
  | OP_lshift => [IR SLL rd rs1 rs2]
  | OP_rshift => [IR SRA rd rs1 rs2]
  | OP_eq => [IR SUB rd rs1 rs2; IR SLTU rd 0 rd; II XORI rd rd 1]
  | OP_neq => [IR SUB rd rs1 rs2; IR SLTU rd 0 rd]
  | OP_gt => [IR SLT rd rs2 rs1]
  | OP_geq => [IR SLT rd rs1 rs2; II XORI rd rd 1]
  | OP_lt => [IR SLT rd rs1 rs2]
  | OP_leq => [IR SLT rd rs2 rs1; II XORI rd rd 1]
  | OP_bit_and => [IR AND rd rs1 rs2]
  | OP_bit_or => [IR OR rd rs1 rs2]
  | OP_bit_xor => [IR XOR rd rs1 rs2]
  | OP_negate => [IR SUB rd 0 rs1]
  | OP_bit_not => [II XORI rd rs1 (-1)]
  | OP_log_not => [IR SLTU rd 0 rs1; II XORI rd rd 1]
  | _ => []
  end.

Ltac run1 := unfold runs; cbn [rv_bin_insns length] in *;
  match goal with |- context [mkrv ?a _ _] => start a end; repeat stp; fin.

Section BinOps.
  Variables (m : mem) (a rd rs1 rs2 : Z) (x : Z -> Z).
  Hypothesis Hrd : 10 <= rd < 18.
  Hypothesis Hr1 : 10 <= rs1 < 18.
  Hypothesis Hr2 : 10 <= rs2 < 18.
  Hypothesis Ux1 : is_u32 (x rs1).
  Hypothesis Ux2 : is_u32 (x rs2).

  Definition result (is : list rvinstr) (v : Z) : Prop :=
    exists x', runs m a is x x' /\ x' rd = w32 v /\ pres x x' rd.

  Ltac prep o :=
    intros Hc Ha; cbn [rv_bin_insns] in Hc, Ha;
    eexists; split; [run1|split; [|prestac; rewrite ?xset_other by lia; reflexivity]];
    autox; cbn [rop_eval iop_eval].

  Ltac oneop := intros Hc Ha; eexists; split; [run1|split; [|prestac]]; autox;
     cbn [rop_eval iop_eval].

  Lemma rvop_add : code_at m a (rv_bin_insns OP_add rd rs1 rs2) -> arange a 1 ->
    result (rv_bin_insns OP_add rd rs1 rs2) (s32 (x rs1) + s32 (x rs2)).
  Proof.
    oneop. rewrite <- (w32_add (s32 _)), !w32_s32, w32_add. reflexivity.
  Qed.

  Lemma rvop_sub : code_at m a (rv_bin_insns OP_sub rd rs1 rs2) -> arange a 1 ->
    result (rv_bin_insns OP_sub rd rs1 rs2) (s32 (x rs1) - s32 (x rs2)).
  Proof.
    oneop. rewrite <- (w32_sub_l (s32 _)), <- (w32_sub_r _ (s32 _)), !w32_s32, w32_sub_l, w32_sub_r. reflexivity.
  Qed.

  Lemma rvop_mul : code_at m a (rv_bin_insns OP_mul rd rs1 rs2) -> arange a 1 ->
    result (rv_bin_insns OP_mul rd rs1 rs2) (s32 (x rs1) * s32 (x rs2)).
  Proof.
    oneop. rewrite <- (w32_mul_l (s32 _)), <- (w32_mul_r _ (s32 _)), !w32_s32, w32_mul_l, w32_mul_r. reflexivity.
  Qed.

  Lemma rvop_div : s32 (x rs2) <> 0 ->
    code_at m a (rv_bin_insns OP_div rd rs1 rs2) -> arange a 1 ->
    result (rv_bin_insns OP_div rd rs1 rs2) (Z.quot (s32 (x rs1)) (s32 (x rs2))).
  Proof.
    intros Hnz. oneop. rewrite <- Z.eqb_neq, s32_0 in Hnz by assumption. rewrite Hnz. reflexivity.
  Qed.

  Lemma rvop_mod : s32 (x rs2) <> 0 ->
    code_at m a (rv_bin_insns OP_mod rd rs1 rs2) -> arange a 1 ->
    result (rv_bin_insns OP_mod rd rs1 rs2) (Z.rem (s32 (x rs1)) (s32 (x rs2))).
  Proof.
    intros Hnz. oneop. rewrite <- Z.eqb_neq, s32_0 in Hnz by assumption. rewrite Hnz. reflexivity.
  Qed.

  Lemma rvop_lshift : 0 <= s32 (x rs2) < 32 ->
    code_at m a (rv_bin_insns OP_lshift rd rs1 rs2) -> arange a 1 ->
    result (rv_bin_insns OP_lshift rd rs1 rs2) (s32 (x rs1) * 2 ^ s32 (x rs2)).
  Proof.
    intros Hs. oneop.
    assert (s32 (x rs2) = x rs2) as E by (destruct (s32_cases _ Ux2) as [[]|[]]; unfold is_u32 in *; lia).
    rewrite E in *. rewrite (Z.mod_small (x rs2) 32) by lia.
    rewrite <- (w32_mul_l (s32 _)), w32_s32, w32_mul_l. reflexivity.
  Qed.

  Lemma rvop_rshift : 0 <= s32 (x rs2) < 32 ->
    code_at m a (rv_bin_insns OP_rshift rd rs1 rs2) -> arange a 1 ->
    result (rv_bin_insns OP_rshift rd rs1 rs2) (s32 (x rs1) / 2 ^ s32 (x rs2)).
  Proof.
    intros Hs. oneop.
    assert (s32 (x rs2) = x rs2) as E by (destruct (s32_cases _ Ux2) as [[]|[]]; unfold is_u32 in *; lia).
    rewrite E in *. rewrite (Z.mod_small (x rs2) 32) by lia. reflexivity.
  Qed.

  Lemma rvop_and : code_at m a (rv_bin_insns OP_bit_and rd rs1 rs2) -> arange a 1 ->
    result (rv_bin_insns OP_bit_and rd rs1 rs2) (Z.land (s32 (x rs1)) (s32 (x rs2))).
  Proof. oneop. rewrite !w32_land, !w32_s32. reflexivity. Qed.
  Lemma rvop_or : code_at m a (rv_bin_insns OP_bit_or rd rs1 rs2) -> arange a 1 ->
    result (rv_bin_insns OP_bit_or rd rs1 rs2) (Z.lor (s32 (x rs1)) (s32 (x rs2))).
  Proof. oneop. rewrite !w32_lor, !w32_s32. reflexivity. Qed.
  Lemma rvop_xor : code_at m a (rv_bin_insns OP_bit_xor rd rs1 rs2) -> arange a 1 ->
    result (rv_bin_insns OP_bit_xor rd rs1 rs2) (Z.lxor (s32 (x rs1)) (s32 (x rs2))).
  Proof. oneop. rewrite !w32_lxor, !w32_s32. reflexivity. Qed.

  Lemma rvop_lt : code_at m a (rv_bin_insns OP_lt rd rs1 rs2) -> arange a 1 ->
    result (rv_bin_insns OP_lt rd rs1 rs2) (if s32 (x rs1) <? s32 (x rs2) then 1 else 0).
  Proof. oneop. reflexivity. Qed.
  Lemma rvop_gt : code_at m a (rv_bin_insns OP_gt rd rs1 rs2) -> arange a 1 ->
    result (rv_bin_insns OP_gt rd rs1 rs2) (if s32 (x rs2) <? s32 (x rs1) then 1 else 0).
  Proof. oneop. reflexivity. Qed.

  Lemma rvop_leq : code_at m a (rv_bin_insns OP_leq rd rs1 rs2) -> arange a 2 ->
    result (rv_bin_insns OP_leq rd rs1 rs2) (if s32 (x rs1) <=? s32 (x rs2) then 1 else 0).
  Proof.
    oneop. destruct (Z.ltb_spec (s32 (x rs2)) (s32 (x rs1))), (Z.leb_spec (s32 (x rs1)) (s32 (x rs2)));
      try lia; reflexivity.
  Qed.
  Lemma rvop_geq : code_at m a (rv_bin_insns OP_geq rd rs1 rs2) -> arange a 2 ->
    result (rv_bin_insns OP_geq rd rs1 rs2) (if s32 (x rs2) <=? s32 (x rs1) then 1 else 0).
  Proof.
    oneop. destruct (Z.ltb_spec (s32 (x rs1)) (s32 (x rs2))), (Z.leb_spec (s32 (x rs2)) (s32 (x rs1)));
      try lia; reflexivity.
  Qed.
  Lemma rvop_neq : code_at m a (rv_bin_insns OP_neq rd rs1 rs2) -> arange a 2 ->
    result (rv_bin_insns OP_neq rd rs1 rs2) (if s32 (x rs1) =? s32 (x rs2) then 0 else 1).
  Proof.
    oneop. rewrite s32_eq by assumption.
    pose proof (w32_sub_0 _ _ Ux1 Ux2). pose proof (w32_range (x rs1 - x rs2)).
    unfold is_u32 in *.
    destruct (Z.eqb_spec (x rs1) (x rs2)), (Z.ltb_spec 0 (w32 (x rs1 - x rs2))); try lia; reflexivity.
  Qed.
  Lemma rvop_eq : code_at m a (rv_bin_insns OP_eq rd rs1 rs2) -> arange a 3 ->
    result (rv_bin_insns OP_eq rd rs1 rs2) (if s32 (x rs1) =? s32 (x rs2) then 1 else 0).
  Proof.
    oneop. rewrite s32_eq by assumption.
    pose proof (w32_sub_0 _ _ Ux1 Ux2). pose proof (w32_range (x rs1 - x rs2)).
    unfold is_u32 in *.
    destruct (Z.eqb_spec (x rs1) (x rs2)), (Z.ltb_spec 0 (w32 (x rs1 - x rs2))); try lia; reflexivity.
  Qed.

  Lemma rvop_negate : code_at m a (rv_bin_insns OP_negate rd rs1 rs2) -> arange a 1 ->
    result (rv_bin_insns OP_negate rd rs1 rs2) (- s32 (x rs1)).
  Proof.
    oneop. replace (- s32 (x rs1)) with (0 - s32 (x rs1)) by lia.
    rewrite <- (w32_sub_r 0 (s32 _)), w32_s32, w32_sub_r. reflexivity.
  Qed.
  Lemma rvop_bitnot : code_at m a (rv_bin_insns OP_bit_not rd rs1 rs2) -> arange a 1 ->
    result (rv_bin_insns OP_bit_not rd rs1 rs2) (Z.lnot (s32 (x rs1))).
  Proof.
    oneop. change (w32 (-1)) with 4294967295. rewrite lxor_m1 by assumption.
    unfold Z.lnot. apply w32_cong. destruct (s32_mod (x rs1)) as [q ->]. exists (1 + q). lia.
  Qed.
  Lemma rvop_lognot : code_at m a (rv_bin_insns OP_log_not rd rs1 rs2) -> arange a 2 ->
    result (rv_bin_insns OP_log_not rd rs1 rs2) (if s32 (x rs1) =? 0 then 1 else 0).
  Proof.
    oneop. rewrite s32_0 by assumption. unfold is_u32 in *.
    destruct (Z.eqb_spec (x rs1) 0), (Z.ltb_spec 0 (x rs1)); try lia; reflexivity.
  Qed.
End BinOps.
