(** The emulated multiplication, division and modulo of riscv-codegen.c. *)
From Verif.Base Require Import Int32 Mem Bits.
From Verif.Ir Require Import Ph2 Ph2Sem.
From Verif.Rv Require Import RvISA RvEnc RvEncProofs RvGen RvExec RvOps.

Definition mul_insns (rd rs1 rs2 : Z) : list rvinstr :=
  [ II ADDI 5 0 0; II ADDI 6 0 0; II ADDI 28 rs1 0; II ADDI 29 rs2 0;
    IB BEQ 28 0 32; IB BEQ 29 0 28; II ANDI 6 29 1; IB BEQ 6 0 8;
    IR ADD 5 5 28; II SLLI 28 28 1; II SRLI 29 29 1; IJAL 0 (-28);
    II ADDI rd 5 0 ].

Definition div_insns (is_mod : bool) (rd rs1 rs2 : Z) : list rvinstr :=
  [ II ADDI 7 rs1 0; II ADDI 28 rs2 0;
    II SRAI 5 7 31; IR ADD 7 7 5; IR XOR 7 7 5;
    II SRAI 6 28 31; IR ADD 28 28 6; IR XOR 28 28 6;
    IR XOR 30 5 (if is_mod then 0 else 6);
    II ADDI 5 0 0; II ADDI 6 0 1;
    IB BEQ 28 0 52; IB BEQ 7 0 48;
    IB BEQ 7 28 20; IB BLTU 7 28 16;
    II SLLI 28 28 1; II SLLI 6 6 1; IJAL 0 (-16);
    IB BLTU 7 28 12; IR SUB 7 7 28; IR ADD 5 5 6;
    II SRLI 6 6 1; II SRLI 28 28 1; IB BNE 6 0 (-20);
    II ADDI rd (if is_mod then 7 else 5) 0; IB BEQ 30 0 8; IR SUB rd 0 rd ].

Lemma mul_encs pos rd rs1 rs2 : reg5 rd -> reg5 rs1 -> reg5 rs2 ->
  encs pos (rv_soft_mul rd rs1 rs2) (mul_insns rd rs1 rs2).
Proof. intros. unfold rv_soft_mul, mul_insns. encs_tac. Qed.

Lemma div_encs pos md rd rs1 rs2 : reg5 rd -> reg5 rs1 -> reg5 rs2 ->
  encs pos (rv_soft_div md rd rs1 rs2) (div_insns md rd rs1 rs2).
Proof.
  intros. unfold rv_soft_div, div_insns. destruct md; cbv zeta; encs_tac.
Qed.

(** registers the emulation may clobber *)
Definition scratch (q : Z) : Prop := q = 5 \/ q = 6 \/ q = 7 \/ 28 <= q <= 30.
Definition same_but_scratch (x x' : Z -> Z) : Prop := forall q, ~ scratch q -> x' q = x q.

Ltac fin ::= cbn [length mul_insns div_insns]; match goal with
  | |- rv_star (mkrv ?p ?x ?m) (mkrv ?q _ _) => replace q with p by lia; apply rv_star_refl end.
Ltac sbs := unfold same_but_scratch, scratch in *; intros; xsimp; auto.

Ltac bcase c := (* decide a branch condition *)
  cbn [bop_eval]; autox; destruct c.

Lemma ret_pc (b : bool) (p q : Z) x m :
  mkrv (if b then p else q) x m = if b then mkrv p x m else mkrv q x m.
Proof. destruct b; reflexivity. Qed.

Section Mul.
  Variables (m : mem) (a rd rs1 rs2 : Z).
  Hypothesis Hc : code_at m a (mul_insns rd rs1 rs2).
  Hypothesis Ha : arange a 13.

  Lemma mul_loop : forall B, 0 <= B < 4294967296 ->
    forall acc A x, is_u32 A -> x 5 = acc -> x 28 = A -> x 29 = B -> is_u32 acc ->
    exists x', rv_star (mkrv (a + 16) x m) (mkrv (a + 48) x' m)
      /\ x' 5 = w32 (acc + A * B) /\ same_but_scratch x x'.
  Proof.
    induction B as [B IH] using (well_founded_induction (Z.lt_wf 0)).
    - intros HB acc A x UA E5 E28 E29 Uacc.
      destruct (Z.eq_dec A 0) as [->|HA].
      { exists x. split; [|split; [rewrite E5; rewrite Z.mul_0_l, Z.add_0_r, w32_id; auto|sbs]].
        stp. cbn [bop_eval]. autox. rewrite E28. change (0 =? 0) with true. cbv iota.
        apply rv_star_refl. }
      destruct (Z.eq_dec B 0) as [->|HB0].
      { exists x. split; [|split; [rewrite E5; rewrite Z.mul_0_r, Z.add_0_r, w32_id; auto|sbs]].
        stp. cbn [bop_eval]. autox. rewrite E28.
        replace (A =? 0) with false by lia.
        stp. cbn [bop_eval]. autox. rewrite E29. change (0 =? 0) with true. cbv iota.
        apply rv_star_refl. }
      set (x1 := xset x 6 (B mod 2)).
      set (acc1 := if B mod 2 =? 0 then acc else w32 (acc + A)).
      set (x2 := if B mod 2 =? 0 then x1 else xset x1 5 (acc + A)).
      set (x3 := xset (xset x2 28 (A * 2 ^ 1)) 29 (B / 2 ^ 1)).
      destruct (IH (B / 2) ltac:(lia) ltac:(lia) acc1 (w32 (A * 2)) x3) as (x' & St & E' & P').
      + apply w32_range.
      + subst x3 x2 acc1 x1. destruct (B mod 2 =? 0); xsimp; auto.
      + subst x3. xsimp. reflexivity.
      + subst x3. xsimp. change (2 ^ 1) with 2. apply w32_id. unfold is_u32. lia.
      + subst acc1. destruct (B mod 2 =? 0); auto using w32_range.
      + exists x'. split; [|split].
        * stp. cbn [bop_eval]. autox. rewrite E28. replace (A =? 0) with false by lia.
          stp. cbn [bop_eval]. autox. rewrite E29. replace (B =? 0) with false by lia.
          stp. cbn [iop_eval]. autox. rewrite E29. change (w32 1) with 1. rewrite land_1.
          stp. cbn [bop_eval]. autox. rewrite (w32_id (B mod 2)) by (unfold is_u32; lia).
          fold x1.
          subst x2 x3. destruct (B mod 2 =? 0) eqn:Eb.
          -- stp. cbn [iop_eval]. autox.
             stp. cbn [iop_eval]. autox.
             assert (x1 28 = A) as -> by (subst x1; xsimp; auto).
             assert (x1 29 = B) as -> by (subst x1; xsimp; auto).
             stp. exact St.
          -- stp. cbn [rop_eval]. autox.
             assert (x1 28 = A) as -> by (subst x1; xsimp; auto).
             assert (x1 5 = acc) as -> by (subst x1; xsimp; auto).
             stp. cbn [iop_eval]. autox.
             assert (x1 28 = A) as -> by (subst x1; xsimp; auto).
             stp. cbn [iop_eval]. autox.
             assert (x1 29 = B) as -> by (subst x1; xsimp; auto).
             stp. exact St.
        * rewrite E'. subst acc1. unfold is_u32 in *.
          destruct (Z.eqb_spec (B mod 2) 0) as [Eb|Eb].
          -- rewrite <- w32_add_r, w32_mul_l, w32_add_r. f_equal.
             replace B with (2 * (B / 2)) at 2 by lia. lia.
          -- rewrite w32_add_l, <- w32_add_r, w32_mul_l, w32_add_r. f_equal.
             replace B with (2 * (B / 2) + 1) at 2 by lia. lia.
        * intros q Hq. rewrite P' by assumption. subst x3 x2 x1.
          unfold scratch in Hq. destruct (B mod 2 =? 0); xsimp; reflexivity.
  Qed.

  Lemma mul_ok x : 10 <= rd < 18 -> 10 <= rs1 < 18 -> 10 <= rs2 < 18 ->
    is_u32 (x rs1) -> is_u32 (x rs2) ->
    exists x', runs m a (mul_insns rd rs1 rs2) x x'
      /\ x' rd = w32 (s32 (x rs1) * s32 (x rs2)) /\ pres x x' rd.
  Proof.
    intros Hd H1 H2 U1 U2.
    set (x1 := xset (xset (xset (xset x 5 0) 6 0) 28 (x rs1 + 0)) 29 (x rs2 + 0)).
    destruct (mul_loop (x rs2) U2 0 (x rs1) x1 U1) as (x' & St & E' & P').
    - subst x1. xsimp. reflexivity.
    - subst x1. xsimp. rewrite Z.add_0_r. apply w32_id; auto.
    - subst x1. xsimp. rewrite Z.add_0_r. apply w32_id; auto.
    - unfold is_u32; lia.
    - exists (xset x' rd (x' 5 + 0)). split; [|split].
      + unfold runs. start a.
        stp. cbn [iop_eval]. autox. stp. cbn [iop_eval]. autox.
        stp. cbn [iop_eval]. autox. stp. cbn [iop_eval]. autox.
        eapply rv_star_trans; [exact St|].
        stp. cbn [iop_eval]. autox. fin.
      + xsimp. rewrite E', Z.add_0_r, w32_idem, Z.add_0_l.
        rewrite <- (w32_mul_l (s32 _)), <- (w32_mul_r _ (s32 _)), !w32_s32, w32_mul_l, w32_mul_r.
        reflexivity.
      + intros q Hq Hne. xsimp. rewrite P' by (unfold scratch, visible in *; lia).
        subst x1. unfold visible in Hq. xsimp. reflexivity.
  Qed.
End Mul.

(** ** division *)
Definition uabs (w : Z) : Z := Z.abs (s32 w).

Lemma abs_seq w : is_u32 w ->
  w32 (Z.lxor (w32 (w + w32 (s32 w / 2 ^ 31))) (w32 (s32 w / 2 ^ 31))) = uabs w.
Proof.
  intros U. unfold uabs. change (2 ^ 31) with 2147483648.
  destruct (s32_cases w U) as [[H E]|[H E]]; rewrite E; unfold is_u32 in U.
  - rewrite Z.div_small by lia. change (w32 0) with 0. rewrite Z.add_0_r, Z.lxor_0_r.
    rewrite w32_idem, w32_id by (unfold is_u32; lia). lia.
  - replace ((w - 4294967296) / 2147483648) with (-1) by lia.
    change (w32 (-1)) with 4294967295. rewrite lxor_m1 by apply w32_range.
    unfold w32. lia.
Qed.

Section Div.
  Variables (md : bool) (m : mem) (a rd rs1 rs2 : Z).
  Hypothesis Hc : code_at m a (div_insns md rd rs1 rs2).
  Hypothesis Ha : arange a 27.

  (** first loop: double the divisor until it reaches the dividend *)
  Lemma div_norm (N D : Z) : 0 < N <= 2147483648 -> 0 < D ->
    forall (n : nat) K x, Z.of_nat n = 33 - K -> 0 <= K ->
    x 7 = N -> x 28 = D * 2 ^ K -> x 6 = 2 ^ K -> D * 2 ^ K < 4294967296 ->
    exists K' x', rv_star (mkrv (a + 52) x m) (mkrv (a + 72) x' m) /\
      0 <= K' /\ x' 28 = D * 2 ^ K' /\ x' 6 = 2 ^ K' /\ N <= D * 2 ^ K' /\
      D * 2 ^ K' < 4294967296 /\
      (forall q, q <> 28 -> q <> 6 -> x' q = x q).
  Proof.
    intros HN HD. induction n as [|n IH]; intros K x Hn HK E7 E28 E6 Hlt.
    - assert (K = 33) by lia. subst K. change (2 ^ 33) with 8589934592 in Hlt. lia.
    - assert (0 < 2 ^ K) by (apply Z.pow_pos_nonneg; lia).
      destruct (Z.eq_dec N (D * 2 ^ K)) as [He|Hne].
      { exists K, x. split; [|repeat split; auto; lia].
        stp. cbn [bop_eval]. autox. rewrite E7, E28.
        replace (N =? D * 2 ^ K) with true by lia. apply rv_star_refl. }
      destruct (Z.ltb_spec N (D * 2 ^ K)) as [Hl|Hl].
      { exists K, x. split; [|repeat split; auto; lia].
        stp. cbn [bop_eval]. autox. rewrite E7, E28.
        replace (N =? D * 2 ^ K) with false by lia.
        stp. cbn [bop_eval]. autox. rewrite E7, E28.
        replace (N <? D * 2 ^ K) with true by lia. apply rv_star_refl. }
      assert (2 ^ (K + 1) = 2 * 2 ^ K) as E2 by (rewrite Z.pow_add_r by lia; lia).
      set (x1 := xset (xset x 28 (D * 2 ^ K * 2 ^ 1)) 6 (2 ^ K * 2 ^ 1)).
      destruct (IH (K + 1) x1) as (K' & x' & St & R).
      + lia. + lia. + subst x1. xsimp. auto.
      + subst x1. xsimp. rewrite E2. change (2 ^ 1) with 2.
        rewrite w32_id by (unfold is_u32; nia). lia.
      + subst x1. xsimp. rewrite E2. change (2 ^ 1) with 2.
        rewrite w32_id by (unfold is_u32; nia). lia.
      + rewrite E2. nia.
      + exists K', x'. split.
        * stp. cbn [bop_eval]. autox. rewrite E7, E28.
          replace (N =? D * 2 ^ K) with false by lia.
          stp. cbn [bop_eval]. autox. rewrite E7, E28.
          replace (N <? D * 2 ^ K) with false by lia.
          stp. cbn [iop_eval]. autox. rewrite E28.
          stp. cbn [iop_eval]. autox. rewrite E6.
          stp. exact St.
        * destruct R as (? & ? & ? & ? & ? & Hq). repeat split; auto.
          intros q H28 H6. rewrite Hq by auto. subst x1. xsimp. reflexivity.
  Qed.

  (** second loop: restoring division *)
  Lemma div_loop (N D : Z) : 0 < D -> is_u32 N ->
    forall (n : nat) Q R x, 
    x 7 = R -> x 5 = Q -> x 28 = D * 2 ^ Z.of_nat n -> x 6 = 2 ^ Z.of_nat n ->
    Q * D + R = N -> 0 <= Q -> 0 <= R < 2 * (D * 2 ^ Z.of_nat n) ->
    D * 2 ^ Z.of_nat n < 4294967296 ->
    exists x', rv_star (mkrv (a + 72) x m) (mkrv (a + 96) x' m) /\
      x' 5 = N / D /\ x' 7 = N mod D /\
      (forall q, q <> 28 -> q <> 6 -> q <> 5 -> q <> 7 -> x' q = x q).
  Proof.
    intros HD UN. induction n as [|n IH]; intros Q R x E7 E5 E28 E6 HQR HQ HR Hlt.
    - change (2 ^ Z.of_nat 0) with 1 in *. rewrite Z.mul_1_r in *.
      unfold is_u32 in UN.
      destruct (Z.ltb_spec R D) as [Hl|Hl].
      + eexists. split.
        { stp. cbn [bop_eval]. autox. rewrite E7, E28. replace (R <? D) with true by lia.
          stp. cbn [iop_eval]. autox. rewrite E6. 
          stp. cbn [iop_eval]. autox. rewrite E28.
          stp. cbn [bop_eval]. autox. change (w32 (1 / 2 ^ 1)) with 0. cbn [negb Z.eqb].
          apply rv_star_refl. }
        xsimp. rewrite E5, E7. split; [|split].
        * apply (Z.div_unique N D Q R); lia.
        * apply (Z.mod_unique N D Q R); lia.
        * intros. xsimp. reflexivity.
      + eexists. split.
        { stp. cbn [bop_eval]. autox. rewrite E7, E28. replace (R <? D) with false by lia.
          stp. cbn [rop_eval]. autox. rewrite E7, E28.
          stp. cbn [rop_eval]. autox. rewrite E5, E6.
          stp. cbn [iop_eval]. autox. rewrite E6. 
          stp. cbn [iop_eval]. autox. rewrite E28.
          stp. cbn [bop_eval]. autox. change (w32 (1 / 2 ^ 1)) with 0. cbn [negb Z.eqb].
          apply rv_star_refl. }
        xsimp. split; [|split].
        * rewrite w32_id by (unfold is_u32; nia).
          apply (Z.div_unique N D (Q + 1) (R - D)); lia.
        * rewrite w32_id by (unfold is_u32; nia).
          apply (Z.mod_unique N D (Q + 1) (R - D)); lia.
        * intros. xsimp. reflexivity.
    - assert (2 ^ Z.of_nat (S n) = 2 * 2 ^ Z.of_nat n) as E2.
      { replace (Z.of_nat (S n)) with (1 + Z.of_nat n) by lia. rewrite Z.pow_add_r by lia. lia. }
      rewrite E2 in *. set (P := 2 ^ Z.of_nat n) in *.
      assert (0 < P) by (subst P; apply Z.pow_pos_nonneg; lia).
      unfold is_u32 in UN.
      destruct (Z.ltb_spec R (D * (2 * P))) as [Hl|Hl].
      + set (x1 := xset (xset x 6 (2 * P / 2 ^ 1)) 28 (D * (2 * P) / 2 ^ 1)).
        destruct (IH Q R x1) as (x' & St & EQ & ER & Pq).
        * subst x1. xsimp. auto.
        * subst x1. xsimp. auto.
        * subst x1. xsimp. change (2 ^ 1) with 2.
          replace (D * (2 * P) / 2) with (D * P) by (replace (D * (2 * P)) with (D * P * 2) by lia; rewrite Z.div_mul; lia).
          apply w32_id. unfold is_u32. nia.
        * subst x1. xsimp. change (2 ^ 1) with 2.
          replace (2 * P / 2) with P by (replace (2 * P) with (P * 2) by lia; rewrite Z.div_mul; lia).
          apply w32_id. unfold is_u32. nia.
        * assumption. * assumption. * lia. * nia.
        * exists x'. split; [|repeat split; auto].
          -- stp. cbn [bop_eval]. autox. rewrite E7, E28.
             replace (R <? D * (2 * P)) with true by lia.
             stp. cbn [iop_eval]. autox. rewrite E6.
             stp. cbn [iop_eval]. autox. rewrite E28.
             stp. cbn [bop_eval]. autox.
             replace (w32 (2 * P / 2 ^ 1) =? 0) with false.
             2:{ symmetry. apply Z.eqb_neq. change (2 ^ 1) with 2.
                 replace (2 * P / 2) with P by (replace (2 * P) with (P * 2) by lia; rewrite Z.div_mul; lia).
                 rewrite w32_id by (unfold is_u32; nia). lia. }
             cbn [negb]. exact St.
          -- intros q ? ? ? ?. rewrite Pq by auto. subst x1. xsimp. reflexivity.
      + set (x1 := xset (xset (xset (xset x 7 (R - D * (2 * P))) 5 (Q + 2 * P)) 6 (2 * P / 2 ^ 1)) 28 (D * (2 * P) / 2 ^ 1)).
        destruct (IH (Q + 2 * P) (R - D * (2 * P)) x1) as (x' & St & EQ & ER & Pq).
        * subst x1. xsimp. apply w32_id. unfold is_u32. nia.
        * subst x1. xsimp. apply w32_id. unfold is_u32. nia.
        * subst x1. xsimp. change (2 ^ 1) with 2.
          replace (D * (2 * P) / 2) with (D * P) by (replace (D * (2 * P)) with (D * P * 2) by lia; rewrite Z.div_mul; lia).
          apply w32_id. unfold is_u32. nia.
        * subst x1. xsimp. change (2 ^ 1) with 2.
          replace (2 * P / 2) with P by (replace (2 * P) with (P * 2) by lia; rewrite Z.div_mul; lia).
          apply w32_id. unfold is_u32. nia.
        * nia. * lia. * nia. * nia.
        * exists x'. split; [|repeat split; auto].
          -- stp. cbn [bop_eval]. autox. rewrite E7, E28.
             replace (R <? D * (2 * P)) with false by lia.
             stp. cbn [rop_eval]. autox. rewrite E7, E28.
             stp. cbn [rop_eval]. autox. rewrite E5, E6.
             stp. cbn [iop_eval]. autox. rewrite E6.
             stp. cbn [iop_eval]. autox. rewrite E28.
             stp. cbn [bop_eval]. autox.
             replace (w32 (2 * P / 2 ^ 1) =? 0) with false.
             2:{ symmetry. apply Z.eqb_neq. change (2 ^ 1) with 2.
                 replace (2 * P / 2) with P by (replace (2 * P) with (P * 2) by lia; rewrite Z.div_mul; lia).
                 rewrite w32_id by (unfold is_u32; nia). lia. }
             cbn [negb]. exact St.
          -- intros q ? ? ? ?. rewrite Pq by auto. subst x1. xsimp. reflexivity.
  Qed.

  (** unsigned core: quotient in t0, remainder in t2; for a zero divisor the
      quotient is 0 and the remainder the dividend *)
  Lemma div_core x N D : is_u32 N -> N <= 2147483648 -> is_u32 D -> D <= 2147483648 ->
    x 7 = N -> x 28 = D -> x 5 = 0 -> x 6 = 1 ->
    exists x', rv_star (mkrv (a + 44) x m) (mkrv (a + 96) x' m) /\
      x' 5 = (if D =? 0 then 0 else N / D) /\ x' 7 = (if D =? 0 then N else N mod D) /\
      (forall q, q <> 28 -> q <> 6 -> q <> 5 -> q <> 7 -> x' q = x q).
  Proof.
    intros UN LN UD LD E7 E28 E5 E6. unfold is_u32 in *.
    destruct (Z.eqb_spec D 0) as [->|HD].
    { exists x. split; [|repeat split; auto].
      stp. cbn [bop_eval]. autox. rewrite E28. cbn [Z.eqb]. apply rv_star_refl. }
    destruct (Z.eqb_spec N 0) as [->|HN].
    { exists x. split.
      - stp. cbn [bop_eval]. autox. rewrite E28. replace (D =? 0) with false by lia.
        stp. cbn [bop_eval]. autox. rewrite E7. cbn [Z.eqb]. apply rv_star_refl.
      - rewrite Z.div_0_l, Z.mod_0_l by lia. repeat split; auto. }
    destruct (div_norm N D ltac:(lia) ltac:(lia) 33 0 x) as (K & x1 & St & HK & F28 & F6 & HNK & HDK & Fq).
    + reflexivity. + lia. + auto. + rewrite E28. lia. + auto. + change (2 ^ 0) with 1. lia.
    + destruct (div_loop N D ltac:(lia) UN (Z.to_nat K) 0 N x1) as (x2 & St2 & G5 & G7 & Gq).
      * rewrite Fq by lia. auto.
      * rewrite Fq by lia. auto.
      * rewrite Z2Nat.id by lia. auto.
      * rewrite Z2Nat.id by lia. auto.
      * lia. * lia. * rewrite Z2Nat.id by lia. lia. * rewrite Z2Nat.id by lia. lia.
      * exists x2. split; [|repeat split; auto].
        -- stp. cbn [bop_eval]. autox. rewrite E28. replace (D =? 0) with false by lia.
           stp. cbn [bop_eval]. autox. rewrite E7. replace (N =? 0) with false by lia.
           eapply rv_star_trans; [exact St|exact St2].
        -- intros q ? ? ? ?. rewrite Gq, Fq by auto. reflexivity.
  Qed.

  Definition rsign (w : Z) : Z := w32 (s32 w / 2 ^ 31).

  Lemma rsign_cases w : is_u32 w ->
    (s32 w < 0 /\ rsign w = 4294967295) \/ (0 <= s32 w /\ rsign w = 0).
  Proof.
    intros U. unfold rsign. change (2 ^ 31) with 2147483648.
    destruct (s32_cases w U) as [[H E]|[H E]]; rewrite E; unfold is_u32 in *.
    - right. split; [lia|]. rewrite Z.div_small by lia. reflexivity.
    - left. split; [lia|]. replace ((w - 4294967296) / 2147483648) with (-1) by lia. reflexivity.
  Qed.

  Lemma div_ok x : 10 <= rd < 18 -> 10 <= rs1 < 18 -> 10 <= rs2 < 18 ->
    is_u32 (x rs1) -> is_u32 (x rs2) -> s32 (x rs2) <> 0 ->
    exists x', runs m a (div_insns md rd rs1 rs2) x x'
      /\ x' rd = w32 (if md then Z.rem (s32 (x rs1)) (s32 (x rs2))
                      else Z.quot (s32 (x rs1)) (s32 (x rs2)))
      /\ pres x x' rd.
  Proof.
    intros Hd H1 H2 U1 U2 Hnz.
    set (A := x rs1) in *. set (B := x rs2) in *.
    set (sg := if md then rsign A else Z.lxor (rsign A) (rsign B)).
    assert (Hsg : is_u32 sg /\ (sg = 0 \/ sg = 4294967295) /\
             (sg = 0 <-> if md then 0 <= s32 A else (0 <= s32 A <-> 0 <= s32 B))).
    { subst sg. destruct (rsign_cases A U1) as [[L ->]|[L ->]], (rsign_cases B U2) as [[L' ->]|[L' ->]];
      destruct md; cbn [Z.lxor Pos.lxor]; unfold is_u32; repeat split; intros; try lia; auto;
      try (cbn; lia). }
    destruct Hsg as (Usg & Csg & Isg).
    set (x0 := xset (xset x 7 A) 28 B).
    set (y := xset (xset (xset (xset (xset (xset (xset (xset (xset x0 5 (s32 A / 2 ^ 31))
             7 (A + rsign A)) 7 (Z.lxor (w32 (A + rsign A)) (rsign A)))
             6 (s32 B / 2 ^ 31)) 28 (B + rsign B)) 28 (Z.lxor (w32 (B + rsign B)) (rsign B)))
             30 sg) 5 0) 6 (0 + 1)).
    assert (UA : 0 <= uabs A <= 2147483648).
    { unfold uabs. pose proof (s32_range A). unfold is_i32 in *. lia. }
    assert (UB : 0 <= uabs B <= 2147483648).
    { unfold uabs. pose proof (s32_range B). unfold is_i32 in *. lia. }
    assert (NB : uabs B <> 0) by (unfold uabs; lia).
    destruct (div_core y (uabs A) (uabs B)) as (x' & St & E5 & E7 & Eq).
    - unfold is_u32; lia. - lia. - unfold is_u32; lia. - lia.
    - subst y. xsimp. apply abs_seq; assumption.
    - subst y. xsimp. apply abs_seq; assumption.
    - subst y. xsimp. reflexivity.
    - subst y. xsimp. reflexivity.
    - replace (uabs B =? 0) with false in * by lia.
      assert (E30 : x' 30 = sg).
      { rewrite Eq by lia. subst y. xsimp. apply w32_id; assumption. }
      set (v := if md then uabs A mod uabs B else uabs A / uabs B).
      assert (Ev : x' (if md then 7 else 5) = v) by (subst v; destruct md; auto).
      assert (Uv : is_u32 v).
      { subst v. unfold is_u32. destruct md.
        - pose proof (Z.mod_pos_bound (uabs A) (uabs B)). lia.
        - assert (uabs A / uabs B <= uabs A) by (apply Z.div_le_upper_bound; nia).
          pose proof (Z.div_pos (uabs A) (uabs B)). lia. }
      assert (Pre : forall T, rv_star (mkrv (a + 96) x' m) T -> rv_star (mkrv a x m) T).
      { intros T HT. start a.
        stp. cbn [iop_eval]. autox. stp. cbn [iop_eval]. autox.
        stp. cbn [iop_eval]. autox. rewrite Z.add_0_r, (w32_id (x rs1)) by assumption.
        stp. cbn [rop_eval]. autox. rewrite (w32_id (x rs1)) by assumption.
        stp. cbn [rop_eval]. autox.
        stp. cbn [iop_eval]. autox. rewrite Z.add_0_r, (w32_id (x rs2)) by assumption.
        stp. cbn [rop_eval]. autox. rewrite (w32_id (x rs2)) by assumption.
        stp. cbn [rop_eval]. autox.
        stp. cbn [rop_eval].
        match goal with |- rv_star (mkrv _ (xset _ 30 ?t) _) _ => replace t with sg end.
        2:{ subst sg. destruct md; autox.
            - rewrite Z.lxor_0_r. reflexivity.
            - reflexivity. }
        stp. cbn [iop_eval]. autox.
        stp. cbn [iop_eval]. autox.
        eapply rv_star_trans; [|exact HT].
        subst y x0. fold A B. rewrite !Z.add_0_r. exact St. }
      destruct Csg as [Z0|Z1].
      + exists (xset x' rd (v + 0)). split; [|split].
        * apply Pre. stp. cbn [iop_eval].
          replace ((if md then 7 else 5) =? 0) with false by (destruct md; reflexivity).
          cbv iota. rewrite Ev.
          stp. cbn [bop_eval]. autox. rewrite E30, Z0. cbn [Z.eqb]. fin.
        * xsimp. apply proj1 in Isg. specialize (Isg Z0).
          rewrite Z.add_0_r. f_equal. subst v. unfold uabs. destruct md.
          -- rewrite Z.rem_mod by assumption. destruct (Z.eq_dec (s32 A) 0) as [->|].
             ++ rewrite Z.abs_0, Z.mod_0_l by lia. reflexivity.
             ++ rewrite Z.sgn_pos by lia. lia.
          -- rewrite Z.quot_div by assumption.
             destruct (Z.eq_dec (s32 A) 0) as [E0|].
             { rewrite E0, Z.abs_0, Z.div_0_l by lia. reflexivity. }
             destruct (Z.lt_ge_cases (s32 A) 0), (Z.lt_ge_cases (s32 B) 0); try lia;
             rewrite ?(Z.sgn_neg (s32 A)), ?(Z.sgn_neg (s32 B)), ?(Z.sgn_pos (s32 A)), ?(Z.sgn_pos (s32 B)) by lia; lia.
        * intros q Hq Hne. unfold visible in Hq. xsimp. rewrite Eq by lia. subst y x0. xsimp. reflexivity.
      + exists (xset (xset x' rd (v + 0)) rd (0 - v)). split; [|split].
        * apply Pre. stp. cbn [iop_eval].
          replace ((if md then 7 else 5) =? 0) with false by (destruct md; reflexivity).
          cbv iota. rewrite Ev.
          stp. cbn [bop_eval]. autox. rewrite E30, Z1. cbn [Z.eqb].
          stp. cbn [rop_eval]. autox. rewrite Z.add_0_r, (w32_id v) by assumption. fin.
        * xsimp.
          assert (~ (if md then 0 <= s32 A else (0 <= s32 A <-> 0 <= s32 B))) as Hs.
          { intros C. apply Isg in C. lia. }
          f_equal. subst v. unfold uabs. destruct md.
          -- rewrite Z.rem_mod by assumption. rewrite Z.sgn_neg by lia. lia.
          -- rewrite Z.quot_div by assumption.
             destruct (Z.eq_dec (s32 A) 0) as [E0|].
             { rewrite E0, Z.abs_0, Z.div_0_l by lia. reflexivity. }
             destruct (Z.lt_ge_cases (s32 A) 0), (Z.lt_ge_cases (s32 B) 0); try lia;
             rewrite ?(Z.sgn_neg (s32 A)), ?(Z.sgn_neg (s32 B)), ?(Z.sgn_pos (s32 A)), ?(Z.sgn_pos (s32 B)) by lia; lia.
        * intros q Hq Hne. unfold visible in Hq. xsimp. rewrite Eq by lia. subst y x0. xsimp. reflexivity.
  Qed.
End Div.
