(** The emulated division and modulo of src/arm-codegen.c:325-384. *)
From Verif.Base Require Import Int32 Mem MemProofs Bits.
From Verif.Ir Require Import Ph2 Ph2Sem.
From Verif.Arm Require Import ArmISA ArmEnc ArmEncProofs ArmGen ArmExec ArmOps.

Definition pair_mask (rn rm : Z) : Z := Z.lor (2 ^ rn) (2 ^ rm).

Definition div_insns (md : bool) (rd rn rm : Z) : list (cond * ainstr) :=
  [ (AL, AStmdb true 13 (pair_mask rn rm));
    (AL, ADp MOV false 8 0 (OReg rn ASR 31));
    (AL, ADp ADD false rn rn (rR 8)); (AL, ADp EOR false rn rn (rR 8));
    (AL, ADp MOV false 9 0 (OReg rm ASR 31));
    (AL, ADp ADD false rm rm (rR 9)); (AL, ADp EOR false rm rm (rR 9));
    (if md then (AL, ADp MOV false 10 0 (rR 8)) else (AL, ADp EOR false 10 8 (rR 9)));
    (AL, ADp MOV false 8 0 (OImm 0 0)); (AL, ADp MOV false 9 0 (OImm 1 0));
    (AL, ADp CMP true 0 rm (OImm 0 0)); (EQ, AB 44);
    (AL, ADp CMP true 0 rn (OImm 0 0)); (EQ, AB 36);
    (AL, ADp CMP true 0 rm (rR rn));
    (CC, ADp MOV false rm 0 (OReg rm LSL 1)); (CC, ADp MOV false 9 0 (OReg 9 LSL 1));
    (CC, AB (-20));
    (AL, ADp CMP true 0 rn (rR rm));
    (CS, ADp SUB false rn rn (rR rm)); (CS, ADp ADD false 8 8 (rR 9));
    (AL, ADp MOV true 9 0 (OReg 9 LSR 1)); (CC, ADp MOV false rm 0 (OReg rm LSR 1));
    (CC, AB (-28));
    (AL, ADp MOV false 9 0 (rR rn));
    (AL, ALdmia true 13 (pair_mask rn rm));
    (AL, ADp MOV false rd 0 (rR (if md then 9 else 8)));
    (AL, ADp CMP true 0 10 (OImm 0 0)); (NE, ADp RSB false rd rd (OImm 0 0)) ].

Lemma vreg_cases r : vreg r -> r = 0 \/ r = 1 \/ r = 2 \/ r = 3 \/ r = 4 \/ r = 5 \/ r = 6 \/ r = 7.
Proof. unfold vreg. lia. Qed.
Ltac enum r H := let H' := fresh in pose proof (vreg_cases r H) as H';
  repeat (destruct H' as [H'|H']); subst r.

Lemma mask_regs rn rm : vreg rn -> vreg rm -> regs_of (pair_mask rn rm) =
  if rn =? rm then [rn] else [Z.min rn rm; Z.max rn rm].
Proof. intros H1 H2. enum rn H1; enum rm H2; reflexivity. Qed.
Lemma mask_ok rn rm : vreg rn -> vreg rm ->
  0 < pair_mask rn rm < 32768 /\ bit (pair_mask rn rm) 13 = false.
Proof. intros H1 H2. enum rn H1; enum rm H2; vm_compute; intuition congruence. Qed.
Lemma mask_model rn rm : vreg rn -> vreg rm -> ior (ishl 1 rn) (ishl 1 rm) = pair_mask rn rm.
Proof. intros H1 H2. enum rn H1; enum rm H2; reflexivity. Qed.

(** emission *)
Lemma asm_enc c i pos w : arm_operands_ok c i -> w = arm_asm c i ->
  exists v, k w pos = Some v /\ arm_decode (w32 v) = Some (c, i).
Proof. intros H ->. apply arm_asm_ok. exact H. Qed.

Ltac enc1 :=
  lazymatch goal with
  | |- exists w, k _ ?pos = Some w /\ arm_decode (w32 w) = Some (?c, ?i) =>
      apply (asm_enc c i pos); [cbn [arm_operands_ok]; unfold vreg in *; repeat split;
        try reflexivity; try regs4; try (right; lia)|try reflexivity]
  end.

Lemma div_encs md rd rn rm pos : vreg rd -> vreg rn -> vreg rm ->
  encs pos (arm_soft_div md rd rn rm) (div_insns md rd rn rm).
Proof.
  intros Hd Hn Hm. destruct (mask_ok rn rm Hn Hm) as [M1 M2].
  pose proof (mask_model rn rm Hn Hm) as EM.
  unfold arm_soft_div, div_insns. rewrite EM. cbn [encs].
  repeat match goal with |- _ /\ _ => split end; try exact I; destruct md; enc1.
  all: try (left; repeat split; lia).
  all: try (intros _; exact M2).
Qed.

(** ** execution *)
Definition uabs (w : Z) : Z := Z.abs (s32 w).

Lemma abs_seq w : is_u32 w ->
  w32 (Z.lxor (w32 (w + w32 (s32 w / 2 ^ 31))) (w32 (s32 w / 2 ^ 31))) = uabs w.
Proof.
  intros U. unfold uabs. change (2 ^ 31) with 2147483648.
  destruct (s32_cases w U) as [[H E]|[H E]]; rewrite E; unfold is_u32 in U.
  - rewrite Z.div_small by lia. change (w32 0) with 0. rewrite Z.add_0_r, Z.lxor_0_r.
    rewrite w32_idem, w32_id by (unfold is_u32; lia). lia.
  - replace ((w - 4294967296) / 2147483648) with (-1) by lia.
    change (w32 (-1)) with 4294967295. rewrite lxor_m1 by apply w32_range.
    unfold w32. lia.
Qed.

Definition rsign (w : Z) : Z := w32 (s32 w / 2 ^ 31).

Lemma rsign_cases w : is_u32 w ->
  (s32 w < 0 /\ rsign w = 4294967295) \/ (0 <= s32 w /\ rsign w = 0).
Proof.
  intros U. unfold rsign. change (2 ^ 31) with 2147483648.
  destruct (s32_cases w U) as [[H E]|[H E]]; rewrite E; unfold is_u32 in *.
  - right. split; [lia|]. rewrite Z.div_small by lia. reflexivity.
  - left. split; [lia|]. replace ((w - 4294967296) / 2147483648) with (-1) by lia. reflexivity.
Qed.

Lemma abs_seq' w : is_u32 w ->
  w32 (Z.lxor (w32 (w + rsign w)) (rsign w)) = uabs w.
Proof. apply abs_seq. Qed.

Lemma asr31 v : fst (shift_c ASR v 31 false) = rsign v.
Proof. reflexivity. Qed.

Section Div.
  Variables (md : bool) (m : mem) (a rd rn rm : Z).
  Hypothesis Hc : code_at m a (div_insns md rd rn rm).
  Hypothesis Ha : arange a 29.
  Hypothesis Hn : vreg rn.
  Hypothesis Hm : vreg rm.
  Hypothesis Hne : rn <> rm.

  (** first loop: double the divisor until it reaches the dividend *)
  Lemma div_norm (N D : Z) : 0 < N <= 2147483648 -> 0 < D ->
    forall (n : nat) K x f, Z.of_nat n = 33 - K -> 0 <= K ->
    x rn = N -> x rm = D * 2 ^ K -> x 9 = 2 ^ K -> D * 2 ^ K < 4294967296 ->
    exists K' x' f', arm_star (mkarm (a + 56) x f m) (mkarm (a + 72) x' f' m) /\
      0 <= K' /\ x' rm = D * 2 ^ K' /\ x' 9 = 2 ^ K' /\ N <= D * 2 ^ K' /\
      D * 2 ^ K' < 4294967296 /\
      (forall q, q <> rm -> q <> 9 -> x' q = x q).
  Proof.
    unfold vreg in *.
    intros HN HD. induction n as [|n IH]; intros K x f Hk HK E7 E28 E6 Hlt.
    - assert (K = 33) by lia. subst K. change (2 ^ 33) with 8589934592 in Hlt. lia.
    - assert (0 < 2 ^ K) by (apply Z.pow_pos_nonneg; lia).
      assert (is_u32 (x rm)) as U1 by (rewrite E28; unfold is_u32; nia).
      assert (is_u32 (x rn)) as U2 by (rewrite E7; unfold is_u32; lia).
      pose proof (cmpf_CC (x rm) (x rn)) as CCv. rewrite E7, E28 in CCv.
      destruct (Z.ltb_spec (D * 2 ^ K) N) as [Hl|Hl].
      + assert (2 ^ (K + 1) = 2 * 2 ^ K) as E2 by (rewrite Z.pow_add_r by lia; lia).
        set (f1 := cmpf (x rm) (x rn)).
        assert (cond_ok CC f1 = true) as Hcc by (subst f1; rewrite E7, E28; exact CCv).
        set (x1 := aset (aset x rm (w32 (D * 2 ^ K * 2 ^ 1))) 9 (w32 (2 ^ K * 2 ^ 1))).
        destruct (IH (K + 1) x1 f1) as (K' & x' & f' & St & R).
        * lia. * lia. * subst x1. xsimp. auto.
        * subst x1. xsimp. rewrite E2. change (2 ^ 1) with 2.
          rewrite w32_idem, w32_id by (unfold is_u32; nia). lia.
        * subst x1. xsimp. rewrite E2. change (2 ^ 1) with 2.
          rewrite w32_idem, w32_id by (unfold is_u32; nia). lia.
        * rewrite E2. nia.
        * exists K', x', f'. split.
          -- stp; [exact U1|exact U2|]. fold f1.
             stp. stp. stp. xsimp. rewrite E28, E6. exact St.
          -- destruct R as (? & ? & ? & ? & ? & Hq). repeat split; auto.
             intros q H28 H6. rewrite Hq by auto. subst x1. xsimp. reflexivity.
      + exists K, x, (cmpf (x rm) (x rn)). split; [|repeat split; auto; lia].
        assert (cond_ok CC (cmpf (x rm) (x rn)) = false) as Hcc
          by (rewrite E7, E28; rewrite CCv; lia).
        stp; [exact U1|exact U2|]. skp; [exact Hcc|]. skp; [exact Hcc|]. skp; [exact Hcc|].
        apply arm_star_refl.
  Qed.

  (** second loop: restoring division *)
  Lemma div_loop (N D : Z) : 0 < D -> is_u32 N ->
    forall (n : nat) Q R x f,
    x rn = R -> x 8 = Q -> x rm = D * 2 ^ Z.of_nat n -> x 9 = 2 ^ Z.of_nat n ->
    Q * D + R = N -> 0 <= Q -> 0 <= R < 2 * (D * 2 ^ Z.of_nat n) ->
    D * 2 ^ Z.of_nat n < 4294967296 ->
    exists x' f', arm_star (mkarm (a + 72) x f m) (mkarm (a + 96) x' f' m) /\
      x' 8 = N / D /\ x' rn = N mod D /\
      (forall q, q <> rm -> q <> 9 -> q <> 8 -> q <> rn -> x' q = x q).
  Proof.
    unfold vreg in *.
    intros HD UN. induction n as [|n IH]; intros Q R x f E7 E5 E28 E6 HQR HQ HR Hlt.
    - change (2 ^ Z.of_nat 0) with 1 in *. rewrite Z.mul_1_r in *.
      unfold is_u32 in UN.
      assert (is_u32 (x rm)) as U1 by (rewrite E28; unfold is_u32; nia).
      assert (is_u32 (x rn)) as U2 by (rewrite E7; unfold is_u32; nia).
      pose proof (cmpf_CS (x rn) (x rm)) as CSv. rewrite E7, E28 in CSv.
      destruct (Z.leb_spec D R) as [Hl|Hl].
      + set (x1 := aset (aset x rn (R - D)) 8 (Q + 1)).
        destruct (ex_movs_lsr1 9 (a + 84) x1 (cmpf (x rn) (x rm)) m ltac:(lia)) as (f2 & Em & Ec).
        { subst x1. xsimp. rewrite E6. unfold is_u32; lia. }
        assert (x1 9 = 1) as E91 by (subst x1; xsimp; exact E6).
        rewrite E91 in Ec.
        eexists. eexists. split.
        { stp; [exact U2|exact U1|]. 
          assert (cond_ok CS (cmpf (x rn) (x rm)) = true) as Hcs by (rewrite E7, E28, CSv; lia).
          stp. stp. xsimp. rewrite E7, E28, E5, E6.
          rewrite E7, E28 in Em.
          stp_with ltac:(exact Em).
          skp; [cbn; rewrite Ec; reflexivity|]. skp; [cbn; rewrite Ec; reflexivity|].
          apply arm_star_refl. }
        subst x1. xsimp. split; [|split].
        * rewrite w32_id by (unfold is_u32; nia).
          apply (Z.div_unique N D (Q + 1) (R - D)); lia.
        * rewrite w32_id by (unfold is_u32; nia).
          apply (Z.mod_unique N D (Q + 1) (R - D)); lia.
        * intros. xsimp. reflexivity.
      + destruct (ex_movs_lsr1 9 (a + 84) x (cmpf (x rn) (x rm)) m ltac:(lia)) as (f2 & Em & Ec).
        { rewrite E6. unfold is_u32; lia. }
        rewrite E6 in Ec.
        eexists. eexists. split.
        { stp; [exact U2|exact U1|].
          assert (cond_ok CS (cmpf (x rn) (x rm)) = false) as Hcs by (rewrite E7, E28, CSv; lia).
          skp; [exact Hcs|]. skp; [exact Hcs|].
          stp_with ltac:(exact Em).
          skp; [cbn; rewrite Ec; reflexivity|]. skp; [cbn; rewrite Ec; reflexivity|].
          apply arm_star_refl. }
        xsimp. rewrite E5, E7. split; [|split].
        * apply (Z.div_unique N D Q R); lia.
        * apply (Z.mod_unique N D Q R); lia.
        * intros. xsimp. reflexivity.
    - assert (2 ^ Z.of_nat (S n) = 2 * 2 ^ Z.of_nat n) as E2.
      { replace (Z.of_nat (S n)) with (1 + Z.of_nat n) by lia. rewrite Z.pow_add_r by lia. lia. }
      rewrite E2 in *. set (P := 2 ^ Z.of_nat n) in *.
      assert (0 < P) by (subst P; apply Z.pow_pos_nonneg; lia).
      unfold is_u32 in UN.
      assert (is_u32 (x rm)) as U1 by (rewrite E28; unfold is_u32; nia).
      assert (is_u32 (x rn)) as U2 by (rewrite E7; unfold is_u32; nia).
      assert (2 * P / 2 = P) as EP by (replace (2 * P) with (P * 2) by lia; rewrite Z.div_mul; lia).
      assert (D * (2 * P) / 2 = D * P) as EDP
        by (replace (D * (2 * P)) with (D * P * 2) by lia; rewrite Z.div_mul; lia).
      assert ((2 * P) mod 2 = 0) as Em2 by (rewrite Z.mul_comm; apply Z_mod_mult).
      pose proof (cmpf_CS (x rn) (x rm)) as CSv. rewrite E7, E28 in CSv.
      destruct (Z.leb_spec (D * (2 * P)) R) as [Hl|Hl].
      + set (x1 := aset (aset x rn (R - D * (2 * P))) 8 (Q + 2 * P)).
        assert (x1 9 = 2 * P) as E91 by (subst x1; xsimp; exact E6).
        destruct (ex_movs_lsr1 9 (a + 84) x1 (cmpf (x rn) (x rm)) m ltac:(lia)) as (f2 & Emv & Ec).
        { rewrite E91. unfold is_u32; nia. }
        rewrite E91, Em2 in Ec. change (0 =? 1) with false in Ec.
        set (x2 := aset (aset x1 9 (2 * P / 2)) rm (D * (2 * P) / 2 ^ 1)).
        destruct (IH (Q + 2 * P) (R - D * (2 * P)) x2 f2) as (x' & f' & St & EQ & ER & Pq).
        * subst x2 x1. xsimp. apply w32_id. unfold is_u32. nia.
        * subst x2 x1. xsimp. apply w32_id. unfold is_u32. nia.
        * subst x2 x1. xsimp. change (2 ^ 1) with 2. rewrite EDP.
          apply w32_id. unfold is_u32. nia.
        * subst x2 x1. xsimp. rewrite EP. apply w32_id. unfold is_u32. nia.
        * nia. * lia. * nia. * nia.
        * exists x', f'. split; [|repeat split; auto].
          -- assert (cond_ok CS (cmpf (x rn) (x rm)) = true) as Hcs by (rewrite E7, E28, CSv; lia).
             assert (cond_ok CC f2 = true) as Hcc by (cbn; rewrite Ec; reflexivity).
             stp; [exact U2|exact U1|]. stp. stp. xsimp. rewrite E5, E6.
             replace (aset (aset x rn (x rn - x rm)) 8 (Q + 2 * P)) with x1
               by (subst x1; rewrite E7, E28; reflexivity).
             stp_with ltac:(exact Emv). stp. stp.
             rewrite E91. cbn [shift_c Z.eqb fst].
             replace (aset x1 9 (2 * P / 2) rm) with (D * (2 * P)) by (subst x1; xsimp; auto).
             exact St.
          -- intros q ? ? ? ?. rewrite Pq by auto. subst x2 x1. xsimp. reflexivity.
      + destruct (ex_movs_lsr1 9 (a + 84) x (cmpf (x rn) (x rm)) m ltac:(lia)) as (f2 & Emv & Ec).
        { rewrite E6. unfold is_u32; nia. }
        rewrite E6, Em2 in Ec. change (0 =? 1) with false in Ec.
        set (x2 := aset (aset x 9 (2 * P / 2)) rm (D * (2 * P) / 2 ^ 1)).
        destruct (IH Q R x2 f2) as (x' & f' & St & EQ & ER & Pq).
        * subst x2. xsimp. auto.
        * subst x2. xsimp. auto.
        * subst x2. xsimp. change (2 ^ 1) with 2. rewrite EDP.
          apply w32_id. unfold is_u32. nia.
        * subst x2. xsimp. rewrite EP. apply w32_id. unfold is_u32. nia.
        * assumption. * assumption. * lia. * nia.
        * exists x', f'. split; [|repeat split; auto].
          -- assert (cond_ok CS (cmpf (x rn) (x rm)) = false) as Hcs by (rewrite E7, E28, CSv; lia).
             assert (cond_ok CC f2 = true) as Hcc by (cbn; rewrite Ec; reflexivity).
             stp; [exact U2|exact U1|]. skp; [exact Hcs|]. skp; [exact Hcs|].
             stp_with ltac:(exact Emv). stp. stp.
             rewrite E6. cbn [shift_c Z.eqb fst].
             replace (aset x 9 (2 * P / 2) rm) with (D * (2 * P)) by (xsimp; auto).
             exact St.
          -- intros q ? ? ? ?. rewrite Pq by auto. subst x2. xsimp. reflexivity.
  Qed.

  (** unsigned core: quotient in r8, remainder in rn; for a zero divisor the
      quotient is 0 and the remainder the dividend *)
  Lemma div_core x f N D : is_u32 N -> N <= 2147483648 -> is_u32 D -> D <= 2147483648 ->
    x rn = N -> x rm = D -> x 8 = 0 -> x 9 = 1 ->
    exists x' f', arm_star (mkarm (a + 40) x f m) (mkarm (a + 96) x' f' m) /\
      x' 8 = (if D =? 0 then 0 else N / D) /\ x' rn = (if D =? 0 then N else N mod D) /\
      (forall q, q <> rm -> q <> 9 -> q <> 8 -> q <> rn -> x' q = x q).
  Proof.
    unfold vreg in *.
    intros UN LN UD LD E7 E28 E5 E6. unfold is_u32 in *.
    assert (is_u32 (x rm)) as U1 by (rewrite E28; unfold is_u32; lia).
    assert (is_u32 (x rn)) as U2 by (rewrite E7; unfold is_u32; lia).
    assert (is_u32 0) as U0 by (unfold is_u32; lia).
    pose proof (cmpf_EQ (x rm) 0 U1 U0) as EQv. pose proof (cmpf_EQ (x rn) 0 U2 U0) as EQv'.
    destruct (Z.eqb_spec D 0) as [HD|HD].
    { exists x. eexists. split; [|repeat split; auto].
      stp; [exact U1|exact U0|]. stp_with ltac:(apply ex_b; rewrite EQv, E28; apply Z.eqb_eq; exact HD).
      apply arm_star_refl. }
    assert (cond_ok EQ (cmpf (x rm) 0) = false) as Hq by (rewrite EQv, E28; lia).
    destruct (Z.eqb_spec N 0) as [->|HN].
    { exists x. eexists. split.
      - stp; [exact U1|exact U0|]. skp; [exact Hq|].
        stp; [exact U2|exact U0|]. stp_with ltac:(apply ex_b; rewrite EQv', E7; reflexivity).
        apply arm_star_refl.
      - rewrite Z.div_0_l, Z.mod_0_l by lia. repeat split; auto. }
    assert (cond_ok EQ (cmpf (x rn) 0) = false) as Hq' by (rewrite EQv', E7; lia).
    destruct (div_norm N D ltac:(lia) ltac:(lia) 33 0 x (cmpf (x rn) 0)) as (K & x1 & f1 & St & HK & F28 & F6 & HNK & HDK & Fq).
    + reflexivity. + lia. + auto. + rewrite E28. lia. + auto. + change (2 ^ 0) with 1. lia.
    + destruct (div_loop N D ltac:(lia) UN (Z.to_nat K) 0 N x1 f1) as (x2 & f2 & St2 & G5 & G7 & Gq).
      * rewrite Fq by lia. auto.
      * rewrite Fq by lia. auto.
      * rewrite Z2Nat.id by lia. auto.
      * rewrite Z2Nat.id by lia. auto.
      * lia. * lia. * rewrite Z2Nat.id by lia. lia. * rewrite Z2Nat.id by lia. lia.
      * exists x2, f2. split; [|repeat split; auto].
        -- stp; [exact U1|exact U0|]. skp; [exact Hq|].
           stp; [exact U2|exact U0|]. skp; [exact Hq'|].
           eapply arm_star_trans; [exact St|exact St2].
        -- intros q ? ? ? ?. rewrite Gq, Fq by auto. reflexivity.
  Qed.
End Div.

(** ** the words saved below the stack pointer *)
Definition div_spill (rn rm A B : Z) : list (Z * Z) :=
  if rn =? rm then [(-4, A)]
  else if rn <? rm then [(-8, A); (-4, B)] else [(-8, B); (-4, A)].

Lemma ldw_stw_off m b d e v : 0 <= d -> 0 <= e -> d + 4 <= e \/ e + 4 <= d -> d < 4096 -> e < 4096 ->
  ldw (stw m (b + d) v) (b + e) = ldw m (b + e).
Proof.
  intros. apply word_read_back. intros i j Hi Hj.
  rewrite <- !Z.add_assoc. apply w32_add_neq; lia.
Qed.

Lemma ex_stmdb rn rm pc x f m : vreg rn -> vreg rm -> x 13 mod 4 = 0 ->
  arm_exec (AL, AStmdb true 13 (pair_mask rn rm)) (mkarm pc x f m) =
  ANext (mkarm (w32 (pc + 4)) (aset x 13 (x 13 - (if rn =? rm then 4 else 8))) f
               (apply_spill m (x 13) (div_spill rn rm (x rn) (x rm)))).
Proof.
  intros Hn Hm H4. unfold arm_exec. cbn [fst snd af cond_ok arm_exec1 apc ax am].
  rewrite (mask_regs rn rm Hn Hm). unfold div_spill.
  destruct (Z.eqb_spec rn rm) as [->|Hne].
  - cbn [length st_regs]. change (4 * Z.of_nat 1) with 4.
    replace ((x 13 - 4) mod 4 =? 0) with true by lia. reflexivity.
  - cbn [length st_regs]. change (4 * Z.of_nat 2) with 8.
    replace ((x 13 - 8) mod 4 =? 0) with true by lia.
    replace (x 13 - 8 + 4) with (x 13 + -4) by lia. replace (x 13 - 8) with (x 13 + -8) at 2 by lia.
    destruct (Z.ltb_spec rn rm).
    + rewrite Z.min_l, Z.max_r by lia. reflexivity.
    + rewrite Z.min_r, Z.max_l by lia. reflexivity.
Qed.

(** the reload: [m] still holds the spilled words *)
Lemma ex_ldmia rn rm pc x f m0 sp A B : vreg rn -> vreg rm -> rn <> rm -> sp mod 4 = 0 ->
  x 13 = w32 (sp - 8) ->
  exists x', arm_exec (AL, ALdmia true 13 (pair_mask rn rm))
               (mkarm pc x f (apply_spill m0 sp (div_spill rn rm A B))) =
    ANext (mkarm (w32 (pc + 4)) x' f (apply_spill m0 sp (div_spill rn rm A B))) /\
    x' rn = w32 A /\ x' rm = w32 B /\ x' 13 = w32 sp /\
    forall q, q <> rn -> q <> rm -> q <> 13 -> x' q = x q.
Proof.
  intros Hn Hm Hne H4 H13. unfold vreg in *.
  eexists. split.
  - unfold arm_exec. cbn [fst snd af cond_ok arm_exec1 apc ax am].
    rewrite (mask_regs rn rm Hn Hm). rewrite H13.
    replace (w32 (sp - 8) mod 4 =? 0) with true by (unfold w32; lia).
    replace (rn =? rm) with false by lia. cbn [length ld_regs]. reflexivity.
  - assert (forall v0 v1, ldw (stw (stw m0 (sp + -8) v0) (sp + -4) v1) (w32 (sp - 8)) = w32 v0) as L0.
    { intros. rewrite ldw_w32. replace (sp - 8) with (sp + -8 + 0) by lia.
      replace (sp + -4) with (sp + -8 + 4) by lia. rewrite ldw_stw_off by lia.
      replace (sp + -8) with (sp + -8 + 0) at 1 by lia. apply ldw_stw_same. }
    assert (forall v0 v1, ldw (stw (stw m0 (sp + -8) v0) (sp + -4) v1) (w32 (sp - 8) + 4) = w32 v1) as L1.
    { intros. rewrite (ldw_cong _ _ (sp + -4)) by (rewrite w32_add_l; f_equal; lia). apply ldw_stw_same. }
    assert (w32 (w32 (sp - 8) + 4 * Z.of_nat 2) = w32 sp) as L2.
    { change (4 * Z.of_nat 2) with 8. rewrite w32_add_l. f_equal. lia. }
    unfold div_spill. replace (rn =? rm) with false by lia.
    destruct (Z.ltb_spec rn rm).
    + rewrite Z.min_l, Z.max_r by lia. cbn [apply_spill fold_left fst snd]. rewrite L0, L1.
      repeat split; intros; xsimp; rewrite ?w32_idem; auto.
    + rewrite Z.min_r, Z.max_l by lia. cbn [apply_spill fold_left fst snd]. rewrite L0, L1.
      repeat split; intros; xsimp; rewrite ?w32_idem; auto.
Qed.

Lemma sgn_result (md : bool) A B sg : is_u32 A -> is_u32 B -> s32 B <> 0 ->
  sg = (if md then rsign A else Z.lxor (rsign A) (rsign B)) ->
  let v := if md then uabs A mod uabs B else uabs A / uabs B in
  is_u32 v /\ (sg = 0 \/ sg = 4294967295) /\
  w32 (if sg =? 0 then v else - v) =
  w32 (if md then Z.rem (s32 A) (s32 B) else Z.quot (s32 A) (s32 B)).
Proof.
  intros UA' UB' Hnz Esg v.
  assert (UA : 0 <= uabs A <= 2147483648)
    by (unfold uabs; pose proof (s32_range A); unfold is_i32 in *; lia).
  assert (UB : 0 <= uabs B <= 2147483648)
    by (unfold uabs; pose proof (s32_range B); unfold is_i32 in *; lia).
  assert (NB : uabs B <> 0) by (unfold uabs; lia).
  split; [|split].
  - subst v. unfold is_u32. destruct md.
    + pose proof (Z.mod_pos_bound (uabs A) (uabs B)). lia.
    + assert (uabs A / uabs B <= uabs A) by (apply Z.div_le_upper_bound; nia).
      pose proof (Z.div_pos (uabs A) (uabs B)). lia.
  - subst sg. destruct (rsign_cases A UA') as [[L ->]|[L ->]], (rsign_cases B UB') as [[L' ->]|[L' ->]];
      destruct md; cbn; auto.
  - f_equal. subst v. unfold uabs in *. destruct md.
    + rewrite Z.rem_mod by assumption. subst sg.
      destruct (rsign_cases A UA') as [[L ->]|[L ->]]; cbn [Z.eqb].
      * rewrite Z.sgn_neg by lia. lia.
      * destruct (Z.eq_dec (s32 A) 0) as [->|].
        -- rewrite Z.abs_0, Z.mod_0_l by lia. reflexivity.
        -- rewrite Z.sgn_pos by lia. lia.
    + rewrite Z.quot_div by assumption.
      destruct (Z.eq_dec (s32 A) 0) as [E0|].
      { rewrite E0, Z.abs_0, Z.div_0_l by lia. destruct (sg =? 0); reflexivity. }
      subst sg. destruct (rsign_cases A UA') as [[L ->]|[L ->]], (rsign_cases B UB') as [[L' ->]|[L' ->]];
        cbn; rewrite ?(Z.sgn_neg (s32 A)), ?(Z.sgn_neg (s32 B)), ?(Z.sgn_pos (s32 A)), ?(Z.sgn_pos (s32 B)) by lia; lia.
Qed.

Section DivOk.
  Variables (md : bool) (m : mem) (a rd rn rm : Z) (x : Z -> Z) (f : flags).
  Let m' := apply_spill m (x 13) (div_spill rn rm (x rn) (x rm)).
  Hypothesis Hc : code_at m a (div_insns md rd rn rm).
  Hypothesis Hc' : code_at m' a (div_insns md rd rn rm).
  Hypothesis Ha : arange a 29.
  Hypothesis Hd : vreg rd.
  Hypothesis Hn : vreg rn.
  Hypothesis Hm : vreg rm.
  Hypothesis H4 : x 13 mod 4 = 0.
  Hypothesis U13 : is_u32 (x 13).
  Hypothesis Un : is_u32 (x rn).
  Hypothesis Um : is_u32 (x rm).

  Definition div_result (v : Z) : Prop :=
    exists x', runs2 m a (div_insns md rd rn rm) x f x' m' /\ x' rd = w32 v /\ pres x x' rd.

  (** the tail, from word 25 on: [x1] is the register file after the division *)
  Lemma div_tail x1 f1 sg v : arm_star (mkarm a x f m) (mkarm (a + 96) x1 f1 m') ->
    (forall q, q <> rn -> q <> rm -> q <> 8 -> q <> 9 -> q <> 10 -> q <> 13 -> x1 q = x q) ->
    x1 13 = w32 (x 13 - 8) -> rn <> rm ->
    x1 10 = sg -> is_u32 sg -> (if md then x1 rn else x1 8) = v -> is_u32 v ->
    div_result (if sg =? 0 then v else - v).
  Proof.
    unfold vreg in *. intros St Hq H13 Hne H10 Usg Hv Uv.
    set (x2 := aset x1 9 (x1 rn)).
    assert (x2 13 = w32 (x 13 - 8)) as H13' by (subst x2; xsimp; exact H13).
    destruct (ex_ldmia rn rm (a + 100) x2 f1 m (x 13) (x rn) (x rm) Hn Hm Hne H4 H13')
      as (x3 & Ex & R1 & R2 & R3 & R4). fold m' in Ex.
    assert (x3 (if md then 9 else 8) = v) as Hiv.
    { destruct md; rewrite R4 by lia; subst x2; xsimp; [rewrite Hv; apply w32_id; exact Uv|exact Hv]. }
    set (x4 := aset x3 rd v).
    assert (x4 10 = sg) as H10' by (subst x4; xsimp; rewrite R4 by lia; subst x2; xsimp; exact H10).
    assert (is_u32 0) as U0 by (unfold is_u32; lia).
    assert (is_u32 (x4 10)) as U10 by (rewrite H10'; exact Usg).
    pose proof (cmpf_NE (x4 10) 0 U10 U0) as Hne10. rewrite H10' in Hne10.
    assert (pres x x4 rd) as P4.
    { intros q Vq Nq. unfold visible in Vq. subst x4. rewrite aset_other by lia.
      destruct (Z.eq_dec q 13) as [->|]; [rewrite R3; apply w32_id; exact U13|].
      destruct (Z.eq_dec q rn) as [->|]; [rewrite R1; apply w32_id; exact Un|].
      destruct (Z.eq_dec q rm) as [->|]; [rewrite R2; apply w32_id; exact Um|].
      rewrite R4 by assumption. subst x2. rewrite aset_other by lia. apply Hq; lia. }
    assert (rd <> 15) as Hd15 by lia.
    destruct (Z.eqb_spec sg 0) as [E0|E0].
    - exists x4. split; [|split; [subst x4; xsimp; reflexivity|exact P4]].
      eexists. eapply arm_star_trans; [exact St|].
      stp. fold x2. stp_with ltac:(exact Ex).
      stp_with ltac:(apply ex_dp; [side|side|side|side|destruct md; cbn; lia]).
      match goal with |- arm_star (mkarm _ (aset _ _ ?t) _ _) _ => replace t with v
        by (destruct md; symmetry; exact Hiv) end.
      fold x4. stp; [exact U10|exact U0|]. skp; [rewrite H10'; exact Hne10|]. change (length (div_insns md rd rn rm)) with 29%nat. fin.
    - exists (aset x4 rd (0 - x4 rd)). split; [|split].
      + eexists. eapply arm_star_trans; [exact St|].
        stp. fold x2. stp_with ltac:(exact Ex).
        stp_with ltac:(apply ex_dp; [side|side|side|side|destruct md; cbn; lia]).
        match goal with |- arm_star (mkarm _ (aset _ _ ?t) _ _) _ => replace t with v
          by (destruct md; symmetry; exact Hiv) end.
        fold x4. stp; [exact U10|exact U0|].
        stp_with ltac:(apply ex_dp; [rewrite H10'; exact Hne10|side..]). change (length (div_insns md rd rn rm)) with 29%nat. fin.
      + xsimp. subst x4. xsimp. rewrite w32_sub_r. reflexivity.
      + intros q Vq Nq. rewrite aset_other by assumption. apply P4; assumption.
  Qed.

  Lemma div_ok : rn <> rm -> s32 (x rm) <> 0 ->
    div_result (if md then Z.rem (s32 (x rn)) (s32 (x rm)) else Z.quot (s32 (x rn)) (s32 (x rm))).
  Proof.
    unfold vreg in *. intros Hne Hnz.
    set (A := x rn) in *. set (B := x rm) in *.
    set (sg := if md then rsign A else Z.lxor (rsign A) (rsign B)).
    destruct (sgn_result md A B sg Un Um Hnz eq_refl) as (Uv & Csg & Ev).
    assert (UA : 0 <= uabs A <= 2147483648)
      by (unfold uabs; pose proof (s32_range A); unfold is_i32 in *; lia).
    assert (UB : 0 <= uabs B <= 2147483648)
      by (unfold uabs; pose proof (s32_range B); unfold is_i32 in *; lia).
    assert (NB : uabs B <> 0) by (unfold uabs; lia).
    set (y := aset (aset (aset (aset (aset (aset (aset (aset (aset (aset x 13 (x 13 - 8))
        8 (rsign A)) rn (A + rsign A)) rn (Z.lxor (w32 (A + rsign A)) (rsign A)))
        9 (rsign B)) rm (B + rsign B)) rm (Z.lxor (w32 (B + rsign B)) (rsign B))) 10 sg) 8 0) 9 1).
    assert (forall r, w32 (rsign r) = rsign r) as Wr by (intros; apply w32_idem).
    destruct (div_core md m' a rd rn rm Hc' Ha Hn Hm Hne y f (uabs A) (uabs B))
      as (x1 & f1 & St & E5 & E7 & Eq).
    - unfold is_u32; lia. - lia. - unfold is_u32; lia. - lia.
    - subst y. xsimp. apply abs_seq; assumption.
    - subst y. xsimp. apply abs_seq; assumption.
    - subst y. xsimp. reflexivity.
    - subst y. xsimp. reflexivity.
    - replace (uabs B =? 0) with false in * by lia.
      assert (Usg : is_u32 sg) by (unfold is_u32; lia).
      assert (E10 : x1 10 = sg).
      { rewrite Eq by lia. subst y. xsimp. apply w32_id; assumption. }
      pose proof (div_tail x1 f1 sg (if md then uabs A mod uabs B else uabs A / uabs B)) as T.
      destruct T as (x' & R & Er & P).
      + start a. stp_with ltac:(apply ex_stmdb; [exact Hn|exact Hm|exact H4]).
        replace (rn =? rm) with false by lia. fold m'.
        stp. rewrite asr31. xsimp. fold A.
        stp. xsimp. fold A. rewrite Wr.
        stp. xsimp. rewrite Wr.
        stp. rewrite asr31. xsimp. fold B.
        stp. xsimp. fold B. rewrite Wr.
        stp. xsimp. rewrite Wr.
        assert (nth_error (div_insns md rd rn rm) 7 = Some (AL, ADp (if md then MOV else EOR) false 10
                  (if md then 0 else 8) (rR (if md then 8 else 9)))) as N7
          by (destruct md; reflexivity).
        eapply star_at; [exact Hc'|exact Ha|exact N7|lia|reflexivity| |].
        { apply ex_dp; [reflexivity|destruct md; reflexivity|lia|destruct md; lia|cbn; destruct md; lia]. }
        pcs.
        match goal with |- arm_star (mkarm _ (aset _ 10 ?t) _ _) _ => replace t with sg end.
        2:{ subst sg. destruct md; cbn [xop yval]; xsimp; rewrite ?Wr; reflexivity. }
        stp. stp. exact St.
      + intros q ? ? ? ? ? ?. rewrite Eq by assumption. subst y. xsimp. reflexivity.
      + rewrite Eq by lia. subst y. xsimp. reflexivity.
      + exact Hne. + exact E10. + exact Usg. + destruct md; assumption. + exact Uv.
      + exists x'. split; [exact R|]. split; [|exact P]. rewrite Er. exact Ev.
  Qed.
End DivOk.

(** ** both operands in one register *)
Section DivSame.
  Variables (md : bool) (m : mem) (a rd r : Z) (x : Z -> Z) (f : flags).
  Let A := x r.
  Let m' := apply_spill m (x 13) (div_spill r r A A).
  Hypothesis Hc : code_at m a (div_insns md rd r r).
  Hypothesis Hc' : code_at m' a (div_insns md rd r r).
  Hypothesis Ha : arange a 29.
  Hypothesis Hd : vreg rd.
  Hypothesis Hr : vreg r.
  Hypothesis H4 : x 13 mod 4 = 0.
  Hypothesis U13 : is_u32 (x 13).
  Hypothesis Ur : is_u32 A.

  Lemma uabs_uabs : uabs (uabs A) = uabs A.
  Proof.
    unfold uabs. pose proof (s32_range A) as R. unfold is_i32 in R.
    assert (is_u32 (Z.abs (s32 A))) as U by (unfold is_u32; lia).
    destruct (s32_cases _ U) as [[? E]|[? E]]; rewrite E; lia.
  Qed.

  (** the quotient x/x comes out as -1 for every negative x but INT_MIN; x%x is 0 *)
  Lemma div_same : s32 A <> 0 ->
    div_result md m a rd r r x f
      (if md then 0 else if (s32 A <? 0) && negb (s32 A =? -2147483648) then -1 else 1).
  Proof.
    unfold vreg in *. intros Hnz. unfold div_result. fold A. fold m'.
    assert (UA : 0 <= uabs A <= 2147483648)
      by (unfold uabs; pose proof (s32_range A); unfold is_i32 in *; lia).
    assert (NA : uabs A <> 0) by (unfold uabs; lia).
    assert (UU : is_u32 (uabs A)) by (unfold is_u32; lia).
    set (sg := if md then rsign A else Z.lxor (rsign A) (rsign (uabs A))).
    assert (forall r, w32 (rsign r) = rsign r) as Wr by (intros; apply w32_idem).
    assert ((sg = 0 \/ sg = 4294967295) /\
      (md = false -> (sg =? 0) = negb ((s32 A <? 0) && negb (s32 A =? -2147483648)))) as [Csg Isg].
    { subst sg. destruct (rsign_cases A Ur) as [[L E]|[L E]], (rsign_cases (uabs A) UU) as [[L' E']|[L' E']];
        rewrite E, E'; destruct md; cbn; (split; [auto|intros; try discriminate]);
        unfold uabs in L'; pose proof (s32_range A) as RA; unfold is_i32 in RA; try lia;
        assert (is_u32 (Z.abs (s32 A))) as U by (unfold is_u32; lia);
        destruct (s32_cases _ U) as [[? E2]|[? E2]]; rewrite E2 in L'; lia. }
    assert (is_u32 0) as U0 by (unfold is_u32; lia).
    set (y := aset (aset (aset (aset (aset (aset (aset (aset (aset (aset x 13 (x 13 - 4))
        8 (rsign A)) r (A + rsign A)) r (Z.lxor (w32 (A + rsign A)) (rsign A)))
        9 (rsign (uabs A))) r (uabs A + rsign (uabs A))) r
        (Z.lxor (w32 (uabs A + rsign (uabs A))) (rsign (uabs A)))) 10 sg) 8 0) 9 1).
    assert (y r = uabs A) as Er.
    { subst y. xsimp. unfold rsign. rewrite abs_seq by assumption. apply uabs_uabs. }
    assert (is_u32 (y r)) as Uyr by (rewrite Er; exact UU).
    pose proof (cmpf_EQ (y r) 0 Uyr U0) as HEQ.
    assert (cond_ok EQ (cmpf (y r) 0) = false) as HEQ' by (rewrite HEQ, Er; lia).
    assert (cond_ok CC (cmpf (y r) (y r)) = false) as HCC
      by (rewrite cmpf_CC by assumption; lia).
    assert (cond_ok CS (cmpf (y r) (y r)) = true) as HCS
      by (rewrite cmpf_CS; lia).
    set (y2 := aset (aset y r (y r - y r)) 8 (w32 0 + w32 1)).
    assert (y2 9 = 1) as E91 by (subst y2 y; xsimp; reflexivity).
    destruct (ex_movs_lsr1 9 (a + 84) y2 (cmpf (y r) (y r)) m' ltac:(lia)) as (f2 & Em & Ec).
    { rewrite E91. unfold is_u32. lia. }
    rewrite E91 in Ec. rewrite E91 in Em. change (1 / 2) with 0 in Em.
    set (y3 := aset (aset y2 9 0) 9 (w32 0)).
    assert (y3 13 = w32 (x 13 - 4)) as E13 by (subst y3 y2 y; xsimp; reflexivity).
    assert (exists x3, arm_exec (AL, ALdmia true 13 (pair_mask r r)) (mkarm (a + 100) y3 f2 m') =
      ANext (mkarm (a + 104) x3 f2 m') /\ x3 r = A /\ x3 13 = x 13 /\
      (forall q, q <> r -> q <> 13 -> x3 q = y3 q)) as (x3 & Ex & G1 & G2 & G3).
    { eexists. split.
      - unfold arm_exec. cbn [fst snd af cond_ok arm_exec1 apc ax am].
        rewrite (mask_regs r r Hr Hr), Z.eqb_refl, E13.
        replace (w32 (x 13 - 4) mod 4 =? 0) with true by (unfold w32; lia).
        cbn [length ld_regs]. pcs. reflexivity.
      - split; [|split].
        + xsimp. rewrite ldw_w32. subst m'. unfold div_spill. rewrite Z.eqb_refl.
          cbn [apply_spill fold_left fst snd]. replace (x 13 - 4) with (x 13 + -4) by lia.
          rewrite ldw_stw_same, w32_idem. apply w32_id; exact Ur.
        + xsimp. change (4 * Z.of_nat 1) with 4. rewrite w32_add_l.
          replace (x 13 - 4 + 4) with (x 13) by lia. apply w32_id; exact U13.
        + intros. xsimp. reflexivity. }
    set (v := if md then 0 else 1).
    assert (x3 (if md then 9 else 8) = v) as Hiv.
    { subst v. destruct md; rewrite G3 by lia; subst y3 y2; xsimp; reflexivity. }
    set (x4 := aset x3 rd v).
    assert (x4 10 = sg) as H10'.
    { subst x4. xsimp. rewrite G3 by lia. subst y3 y2 y. xsimp. apply w32_id.
      unfold is_u32; lia. }
    assert (is_u32 (x4 10)) as U10 by (rewrite H10'; unfold is_u32; lia).
    pose proof (cmpf_NE (x4 10) 0 U10 U0) as Hne10. rewrite H10' in Hne10.
    assert (pres x x4 rd) as P4.
    { intros q Vq Nq. unfold visible in Vq. subst x4. rewrite aset_other by lia.
      destruct (Z.eq_dec q 13) as [->|]; [exact G2|].
      destruct (Z.eq_dec q r) as [->|]; [exact G1|].
      rewrite G3 by assumption. subst y3 y2 y. xsimp. reflexivity. }
    assert (Pre : forall T, arm_star (mkarm (a + 108) x4 f2 m') T -> arm_star (mkarm a x f m) T).
    { intros T HT. start a.
      stp_with ltac:(apply ex_stmdb; [exact Hr|exact Hr|exact H4]).
      rewrite Z.eqb_refl. fold A. fold m'.
      stp. rewrite asr31. xsimp. fold A.
      stp. xsimp. fold A. rewrite Wr.
      stp. xsimp. rewrite Wr.
      stp. rewrite asr31. xsimp. rewrite abs_seq' by assumption.
      stp. xsimp. rewrite abs_seq' by assumption. rewrite Wr.
      stp. xsimp. rewrite Wr.
      assert (nth_error (div_insns md rd r r) 7 = Some (AL, ADp (if md then MOV else EOR) false 10
                (if md then 0 else 8) (rR (if md then 8 else 9)))) as N7
        by (destruct md; reflexivity).
      eapply star_at; [exact Hc'|exact Ha|exact N7|lia|reflexivity| |].
      { apply ex_dp; [reflexivity|destruct md; reflexivity|lia|destruct md; lia|cbn; destruct md; lia]. }
      pcs.
      match goal with |- arm_star (mkarm _ (aset _ 10 ?t) _ _) _ => replace t with sg end.
      2:{ subst sg. destruct md; cbn [xop yval]; xsimp; rewrite ?Wr; reflexivity. }
      stp. stp. fold y.
      stp; [exact Uyr|exact U0|]. skp; [exact HEQ'|]. stp; [exact Uyr|exact U0|]. skp; [exact HEQ'|].
      stp; [exact Uyr|exact Uyr|]. skp; [exact HCC|]. skp; [exact HCC|]. skp; [exact HCC|].
      stp; [exact Uyr|exact Uyr|]. stp. stp.
      match goal with |- arm_star (mkarm _ (aset _ 8 ?t) _ _) _ => replace t with (w32 0 + w32 1)
        by (subst y; xsimp; reflexivity) end. fold y2.
      stp_with ltac:(exact Em). skp; [cbn; rewrite Ec; reflexivity|]. skp; [cbn; rewrite Ec; reflexivity|].
      stp. replace (aset y2 9 0 r) with (w32 0)
        by (xsimp; subst y2; xsimp; rewrite Z.sub_diag; reflexivity). fold y3.
      stp_with ltac:(exact Ex).
      stp_with ltac:(apply ex_dp; [side|side|lia|side|destruct md; cbn; lia]).
      match goal with |- arm_star (mkarm _ (aset _ _ ?t) _ _) _ => replace t with v
        by (destruct md; symmetry; exact Hiv) end.
      exact HT. }
    destruct (Z.eqb_spec sg 0) as [E0|E0].
    - exists x4. split; [|split; [|exact P4]].
      + eexists. apply Pre. stp; [exact U10|exact U0|]. skp; [rewrite H10'; exact Hne10|].
        change (length (div_insns md rd r r)) with 29%nat. fin.
      + subst x4 v. xsimp. destruct md; [reflexivity|]. specialize (Isg eq_refl).
        destruct ((s32 A <? 0) && negb (s32 A =? -2147483648)); [discriminate|reflexivity].
    - exists (aset x4 rd (0 - x4 rd)). split; [|split].
      + eexists. apply Pre. stp; [exact U10|exact U0|].
        stp_with ltac:(apply ex_dp; [rewrite H10'; exact Hne10|side|lia|lia|side]).
        change (length (div_insns md rd r r)) with 29%nat. fin.
      + xsimp. subst x4 v. xsimp. destruct md; [reflexivity|]. specialize (Isg eq_refl).
        destruct ((s32 A <? 0) && negb (s32 A =? -2147483648)); [reflexivity|discriminate].
      + intros q Vq Nq. rewrite aset_other by assumption. apply P4; assumption.
  Qed.
End DivSame.
