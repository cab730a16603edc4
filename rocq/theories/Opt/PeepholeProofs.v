(** Correctness of the peephole pass on straight-line code. *)
From Verif.Base Require Import Int32 Mem.
From Verif.Ir Require Import Ph2 Ph2Sem Regs.
From Verif.Opt Require Import Peephole.

Definition control (o : opcode) : bool :=
  match o with OP_branch | OP_jump | OP_call | OP_indirect | OP_return => true | _ => false end.

Definition reads (i : ph2) (r : Z) : bool :=
  (uses_src0 (p_op i) && (p_src0 i =? r)) || (uses_src1 (p_op i) && (p_src1 i =? r)).
Definition writes (i : ph2) (r : Z) : bool := uses_dest (p_op i) && (p_dest i =? r).

(** register [r] is read by [l] before it is overwritten *)
Fixpoint needed (r : Z) (l : list ph2) : bool :=
  match l with
  | [] => false
  | i :: l' => reads i r || (negb (writes i r) && needed r l')
  end.

(** split the match at the head of hypothesis H *)
Ltac hsplit H := cbv zeta in H; cbn [c_unop] in H;
  repeat match type of H with
  | (match ?e with _ => _ end) = _ => destruct e eqn:?; try discriminate H
  end.

Section Run.
  Variables (p : program) (L : layout) (C : conv) (os : osspec) (gp : Z) (ck : mem -> bool).

  Fixpoint run_insns (l : list ph2) (s : st) : option st :=
    match l with
    | [] => Some s
    | i :: r => match exec p L C os gp ck s i (s_pt s) with
                | Ok [] s' => run_insns r s'
                | _ => None
                end
    end.

  (** the words an operator leaves below the stack pointer depend on the operator and
      its operands only, and only division leaves any *)
  Definition spill_regular : Prop :=
    forall i j a b, p_op i = p_op j -> p_src0 i = p_src0 j -> p_src1 i = p_src1 j ->
      c_spill C i a b = c_spill C j a b /\
      (p_op i <> OP_div -> p_op i <> OP_mod -> c_spill C i a b = []).
  Hypothesis SP : spill_regular.

  (** same state but for the registers in [D] *)
  Record agree (D : Z -> Prop) (s1 s2 : st) : Prop := {
    ag_pt : s_pt s2 = s_pt s1; ag_sp : s_sp s2 = s_sp s1; ag_mem : s_mem s2 = s_mem s1;
    ag_stk : s_stk s2 = s_stk s1;
    ag_latch : forall v, s_latch s1 = Some v -> s_latch s2 = Some v;
    ag_reg : forall r, ~ D r -> s_reg s2 r = s_reg s1 r }.

  Lemma agree_weaken (D E : Z -> Prop) s1 s2 : (forall r, D r -> E r) -> agree D s1 s2 -> agree E s1 s2.
  Proof. intros H []. constructor; auto. Qed.

  Lemma agree_rg D s1 s2 r : agree D s1 s2 -> ~ D r -> rg s2 r = rg s1 r.
  Proof. intros A H. unfold rg. rewrite (ag_reg _ _ _ A r H). reflexivity. Qed.

  (** one instruction, run from agreeing states *)
  Lemma exec_agree D s1 s2 i s1' :
    control (p_op i) = false -> agree D s1 s2 -> (forall r, D r -> reads i r = false) ->
    exec p L C os gp ck s1 i (s_pt s1) = Ok [] s1' ->
    exists s2', exec p L C os gp ck s2 i (s_pt s2) = Ok [] s2' /\
      agree (fun r => D r /\ writes i r = false) s1' s2'.
  Proof.
    intros Hc A Hr Hx. pose proof A as [Apt Asp Amem Astk Al Areg].
    assert (S0 : uses_src0 (p_op i) = true -> rg s2 (p_src0 i) = rg s1 (p_src0 i)).
    { intros U. apply (agree_rg _ _ _ _ A). intros HD. specialize (Hr _ HD). unfold reads in Hr.
      rewrite U, Z.eqb_refl in Hr. discriminate. }
    assert (S1 : uses_src1 (p_op i) = true -> rg s2 (p_src1 i) = rg s1 (p_src1 i)).
    { intros U. apply (agree_rg _ _ _ _ A). intros HD. specialize (Hr _ HD). unfold reads in Hr.
      rewrite U, Z.eqb_refl in Hr. cbn in Hr. rewrite orb_true_r in Hr. discriminate. }
    unfold exec in *. unfold writes.
    destruct (p_op i) eqn:Eop; try discriminate Hc;
      cbn [uses_src0 uses_src1 uses_dest andb] in *;
      try specialize (S0 eq_refl); try specialize (S1 eq_refl);
      repeat match goal with H : false = true -> _ |- _ => clear H end;
      rewrite ?S0, ?S1, ?Asp, ?Amem; cbn [c_unop] in *;
      hsplit Hx;
      inversion Hx; subst s1'; clear Hx;
      (eexists; split; [reflexivity|]);
      (constructor; cbn [s_pt s_sp s_mem s_stk s_latch s_reg]; auto;
       try (intros v0 Hv0; discriminate Hv0);
       try (intros r Hnr; unfold rset; destruct (Z.eqb_spec r (p_dest i)) as [->|N]; [reflexivity|];
            apply Areg; intros HD; apply Hnr; split; [exact HD|apply Z.eqb_neq; congruence]);
       try (intros r Hnr; apply Areg; intros HD; apply Hnr; split; [exact HD|reflexivity])).
  Qed.

  Lemma exec_latch s i s' : control (p_op i) = false ->
    exec p L C os gp ck s i (s_pt s) = Ok [] s' -> s_pt s' = s_pt s /\ s_sp s' = s_sp s /\ s_stk s' = s_stk s.
  Proof.
    intros Hc Hx. unfold exec in Hx.
    destruct (p_op i) eqn:Eop; try discriminate Hc; cbn [c_unop] in Hx;
      hsplit Hx;
      inversion Hx; subst s'; auto.
  Qed.

  (** assign, as a function of the state *)
  Lemma exec_assign s i : p_op i = OP_assign ->
    exec p L C os gp ck s i (s_pt s) =
      match rg s (p_src0 i) with
      | Some a => if (0 <=? p_dest i) && (p_dest i <? 8)
                  then Ok [] (mkst (s_pt s) (rset (s_reg s) (p_dest i) a) (s_sp s) (s_mem s) (s_stk s) None)
                  else UB
      | None => UB end.
  Proof. intros E. unfold exec. rewrite E. reflexivity. Qed.

  (** removing a self-move *)
  Lemma self_move_agree D s1 s2 n s1' : self_move n = true -> agree D s1 s2 ->
    (forall r v, s_reg s1 r = Some v -> is_u32 v) ->
    exec p L C os gp ck s1 n (s_pt s1) = Ok [] s1' -> agree D s1' s2.
  Proof.
    unfold self_move, opeq. intros H A Hu Hx.
    destruct (opcode_eq_dec (p_op n) OP_assign) as [E|]; [|discriminate].
    apply Z.eqb_eq in H. rewrite exec_assign in Hx by exact E. unfold rg in Hx.
    rewrite <- H in Hx.
    destruct ((0 <=? p_dest n) && (p_dest n <? 8)) eqn:Ed; [|discriminate].
    destruct (s_reg s1 (p_dest n)) as [v|] eqn:Ev; [|discriminate].
    inversion Hx; subst. pose proof A as [].
    constructor; cbn; auto; [discriminate|].
    intros r Hr. unfold rset. destruct (Z.eqb_spec r (p_dest n)) as [->|]; auto.
    rewrite ag_reg0 by assumption. rewrite Ev, w32_id by eauto. reflexivity.
  Qed.

  (** registers hold 32-bit values; kept by execution *)
  Definition regs32 (s : st) : Prop := forall r v, s_reg s r = Some v -> is_u32 v.
  Lemma exec_regs32 s i s' : control (p_op i) = false -> regs32 s ->
    exec p L C os gp ck s i (s_pt s) = Ok [] s' -> regs32 s'.
  Proof.
    intros Hc Hu Hx. unfold exec in Hx.
    destruct (p_op i) eqn:Eop; try discriminate Hc; cbn [c_unop] in Hx;
      hsplit Hx;
      inversion Hx; subst s'; cbn; auto;
      intros r0 v0; cbn; unfold rset; destruct (r0 =? p_dest i);
        intros HH; try (inversion HH; subst; apply w32_range); eauto.
  Qed.

  (** What insn_fusion needs in order to be right: in the "add zero / subtract zero /
      multiply by one" patterns the constant's register is not both operands. *)
  Definition no_alias (i n : ph2) : Prop :=
    p_op i = OP_load_constant -> ~ (p_src0 n = p_dest i /\ p_src1 n = p_dest i).

  Ltac opeqs := unfold opeq in *; repeat match goal with
    | H : context [opcode_eq_dec ?a ?b] |- _ => destruct (opcode_eq_dec a b); cbn [andb orb] in H; try discriminate H
    end.

  Definition fz (D : Z -> Prop) (i n : ph2) : Z -> Prop :=
    fun r => (D r \/ r = p_dest i) /\ r <> p_dest n.

  Lemma fuse_agree D s1 s2 i n i' sa s1' :
    insn_fusion i n = Some i' -> no_alias i n -> agree D s1 s2 -> regs32 s1 ->
    (forall r, D r -> reads i r = false) ->
    (forall r, D r -> r <> p_dest i -> reads n r = false) ->
    exec p L C os gp ck s1 i (s_pt s1) = Ok [] sa ->
    exec p L C os gp ck sa n (s_pt sa) = Ok [] s1' ->
    exists s2', exec p L C os gp ck s2 i' (s_pt s2) = Ok [] s2' /\ agree (fz D i n) s1' s2'.
  Proof.
    intros Hf Hna A Hu32 Hri Hrn Hx Hy. unfold insn_fusion in Hf.
    destruct (opeq (p_op n) OP_assign && is_fusible_insn i && (p_dest i =? p_src0 n)) eqn:E1.
    - (* ALU; mv *)
      inversion Hf; subst i'; clear Hf.
      apply andb_prop in E1. destruct E1 as [E1 E3]. apply andb_prop in E1. destruct E1 as [E1 E2].
      apply Z.eqb_eq in E3. opeqs. rewrite exec_assign in Hy by assumption. rewrite <- E3 in Hy.
      assert (control (p_op i) = false) as Hci
        by (unfold is_fusible_insn in E2; destruct (p_op i); try discriminate; reflexivity).
      destruct (exec_agree D s1 s2 i sa Hci A Hri Hx) as (sb & Hb & Ab).
      destruct (exec_latch _ _ _ Hci Hx) as (P1 & P2 & P3).
      unfold is_fusible_insn in E2.
      destruct (rg sa (p_dest i)) as [v|] eqn:Ev; [|discriminate].
      destruct ((0 <=? p_dest n) && (p_dest n <? 8)) eqn:Edn; [|discriminate].
      inversion Hy; subst s1'; clear Hy.
      (* i writes w32 of some value into p_dest i *)
      assert (exists w m', exec p L C os gp ck s1 i (s_pt s1) =
                 Ok [] (mkst (s_pt s1) (rset (s_reg s1) (p_dest i) w) (s_sp s1) m' (s_stk s1) None) /\
               exec p L C os gp ck s2 (set_dest i (p_dest n)) (s_pt s2) =
                 Ok [] (mkst (s_pt s2) (rset (s_reg s2) (p_dest n) w) (s_sp s2) m' (s_stk s2) None))
        as (w & m' & X1 & X2).
      { clear Ab Hb sb. pose proof A as [Apt Asp Amem Astk Al Areg].
        assert (S0 : uses_src0 (p_op i) = true -> rg s2 (p_src0 i) = rg s1 (p_src0 i)).
        { intros U. apply (agree_rg _ _ _ _ A). intros HD. specialize (Hri _ HD). unfold reads in Hri.
          rewrite U, Z.eqb_refl in Hri. discriminate. }
        assert (S1 : uses_src1 (p_op i) = true -> rg s2 (p_src1 i) = rg s1 (p_src1 i)).
        { intros U. apply (agree_rg _ _ _ _ A). intros HD. specialize (Hri _ HD). unfold reads in Hri.
          rewrite U, Z.eqb_refl in Hri. cbn in Hri. rewrite orb_true_r in Hri. discriminate. }
        assert (SPi : forall a b, c_spill C (set_dest i (p_dest n)) a b = c_spill C i a b)
          by (intros; apply SP; reflexivity).
        unfold exec in *. cbn [set_dest p_op p_src0 p_src1 p_dest] in *.
        fold (set_dest i (p_dest n)).
        destruct (p_op i) eqn:Eop; try discriminate E2; cbn [uses_src0 uses_src1] in *;
          try specialize (S0 eq_refl); try specialize (S1 eq_refl);
      repeat match goal with H : false = true -> _ |- _ => clear H end;
          rewrite ?S0, ?S1, ?Asp, ?Amem, ?Edn, ?Apt, ?Astk; cbn [c_unop] in *;
          hsplit Hx;
          rewrite ?SPi;
          repeat match goal with H : existsb _ _ = false |- _ => rewrite H end;
          eexists _, _; split; reflexivity. }
      exists (mkst (s_pt s2) (rset (s_reg s2) (p_dest n) w) (s_sp s2) m' (s_stk s2) None).
      split; [exact X2|].
      rewrite Hx in X1. inversion X1; subst sa. unfold rg in Ev. cbn in Ev. unfold rset in Ev at 1.
      rewrite Z.eqb_refl in Ev. destruct ((0 <=? p_dest i) && (p_dest i <? 8)); [|discriminate].
      inversion Ev; subst v. pose proof A as [Apt Asp Amem Astk Al Areg].
      constructor; cbn; auto.
      + intros r Hr. unfold rset, fz in *.
        destruct (Z.eqb_spec r (p_dest n)); [rewrite w32_idem; reflexivity|].
        destruct (Z.eqb_spec r (p_dest i)) as [->|N]; [exfalso; apply Hr; split; auto|].
        apply Areg. intros HD. apply Hr. split; auto.
    - (* constant patterns *)
      clear E1.
      assert (p_op i = OP_load_constant) as Eli.
      { destruct (opcode_eq_dec (p_op i) OP_load_constant) as [|N]; auto. exfalso.
        unfold opeq in Hf. destruct (opcode_eq_dec (p_op i) OP_load_constant); [contradiction|].
        cbn in Hf. discriminate. }
      specialize (Hna Eli).
      unfold exec in Hx. rewrite Eli in Hx.
      destruct ((0 <=? p_dest i) && (p_dest i <? 8)) eqn:Edi; [|discriminate].
      inversion Hx; subst sa; clear Hx. set (sa := mkst _ _ _ _ _ _) in *.
      assert (RD : rg sa (p_dest i) = Some (w32 (p_src0 i))).
      { unfold rg. rewrite Edi. cbn. unfold rset. rewrite Z.eqb_refl. reflexivity. }
      assert (RO : forall r, r <> p_dest i -> rg sa r = rg s1 r).
      { intros r N. unfold rg. cbn. unfold rset. destruct (Z.eqb_spec r (p_dest i)); [contradiction|reflexivity]. }
      assert (R2 : forall r, r <> p_dest i -> reads n r = true -> rg s2 r = rg s1 r).
      { intros r N Hrr. apply (agree_rg _ _ _ _ A). intros HD. rewrite (Hrn r HD N) in Hrr. discriminate. }
      pose proof A as [Apt Asp Amem Astk Al Areg].
      assert (Hbin : (p_op n = OP_add \/ p_op n = OP_sub \/ p_op n = OP_mul) ->
        exists a b v, rg sa (p_src0 n) = Some a /\ rg sa (p_src1 n) = Some b /\
          (0 <=? p_dest n) && (p_dest n <? 8) = true /\ c_binop (p_op n) (s32 a) (s32 b) = Some v /\
          s1' = mkst (s_pt sa) (rset (s_reg sa) (p_dest n) v) (s_sp sa) (s_mem sa) (s_stk sa) None).
      { intros Ho.
        assert (Esp : forall a b, c_spill C n a b = []).
        { intros a b. apply (SP n n a b); auto; destruct Ho as [Ho|[Ho|Ho]]; rewrite Ho; discriminate. }
        unfold exec in Hy.
        destruct Ho as [Ho|[Ho|Ho]]; rewrite Ho in *; cbn [c_unop] in Hy;
        (destruct (rg sa (p_src0 n)) as [a|]; [|discriminate];
         destruct ((0 <=? p_dest n) && (p_dest n <? 8)); [|discriminate];
         destruct (rg sa (p_src1 n)) as [b|]; [|discriminate];
         rewrite Esp in Hy; cbn [existsb apply_spill fold_left] in Hy;
         cbn [c_binop] in *; inversion Hy; subst s1';
         eexists a, b, _; repeat split; reflexivity). }
      assert (Hrd0 : (p_op n = OP_add \/ p_op n = OP_sub \/ p_op n = OP_mul) ->
        reads n (p_src0 n) = true /\ reads n (p_src1 n) = true).
      { unfold reads. rewrite !Z.eqb_refl.
        intros [Ho|[Ho|Ho]]; rewrite Ho; cbn; rewrite orb_true_r; auto. }
      (* the state left by the replacement when it writes [w32 v] *)
      assert (Hfin : forall v, agree (fz D i n)
          (mkst (s_pt sa) (rset (s_reg sa) (p_dest n) v) (s_sp sa) (s_mem sa) (s_stk sa) None)
          (mkst (s_pt s2) (rset (s_reg s2) (p_dest n) v) (s_sp s2) (s_mem s2) (s_stk s2) None)).
      { intros v. constructor; cbn; auto.
        intros r Hr. unfold rset, fz in *.
        destruct (Z.eqb_spec r (p_dest n)); [reflexivity|].
        destruct (Z.eqb_spec r (p_dest i)) as [->|N]; [exfalso; apply Hr; split; auto|].
        apply Areg. intros HD. apply Hr. split; auto. }
      assert (Hset : forall v w, w32 v = w32 w -> rset (s_reg s2) (p_dest n) v = rset (s_reg s2) (p_dest n) w)
        by (intros v w E; unfold rset; rewrite E; reflexivity).
      unfold opeq in Hf. rewrite Eli in Hf.
      destruct (opcode_eq_dec OP_load_constant OP_load_constant) as [_|]; [|contradiction]. cbn [andb] in Hf.
      destruct (Z.eqb_spec (p_src0 i) 0) as [E0|N0]; cbn [andb] in Hf.
      + destruct (opcode_eq_dec (p_op n) OP_add) as [En|Nn]; cbn [andb] in Hf.
        * (* add zero *)
          destruct (Hbin (or_introl En)) as (a & b & v & Ra & Rb & Ed & Ev & ->).
          destruct (Hrd0 (or_introl En)) as [Q0 Q1].
          rewrite En in Ev. cbn in Ev. inversion Ev; subst v; clear Ev.
          destruct (Z.eqb_spec (p_dest i) (p_src0 n)) as [E2|N2]; cbn [orb] in Hf.
          -- inversion Hf; subst i'; clear Hf. rewrite <- E2 in *. rewrite RD in Ra. inversion Ra; subst a.
             assert (p_src1 n <> p_dest i) as N3 by (intros E3; apply Hna; auto).
             eexists. split.
             { rewrite exec_assign by reflexivity. cbn [set_op p_src0 p_dest]. rewrite Ed.
               rewrite R2, <- RO, Rb by auto. rewrite (Hset b (s32 (w32 (p_src0 i)) + s32 b)); [reflexivity|].
               rewrite E0. change (s32 (w32 0)) with 0. cbn [Z.add]. rewrite w32_s32. reflexivity. }
             apply Hfin.
          -- destruct (Z.eqb_spec (p_dest i) (p_src1 n)) as [E3|N3]; cbn [orb] in Hf.
             2:{ exfalso. destruct (opcode_eq_dec (p_op n) OP_sub); [congruence|].
                 destruct (opcode_eq_dec (p_op n) OP_mul); [congruence|]. cbn in Hf.
                 destruct (p_src0 i =? 1) eqn:?; [lia|]. cbn in Hf. discriminate. }
             inversion Hf; subst i'; clear Hf. rewrite <- E3 in *. rewrite RD in Rb. inversion Rb; subst b.
             eexists. split.
             { rewrite exec_assign by reflexivity. cbn [set_op p_src0 p_dest]. rewrite Ed.
               rewrite R2, <- RO, Ra by auto. rewrite (Hset a (s32 a + s32 (w32 (p_src0 i)))); [reflexivity|].
               rewrite E0. change (s32 (w32 0)) with 0. rewrite Z.add_0_r, w32_s32. reflexivity. }
             apply Hfin.
        * destruct (opcode_eq_dec (p_op n) OP_sub) as [En|Ns]; cbn [andb] in Hf.
          -- destruct (Hbin (or_intror (or_introl En))) as (a & b & v & Ra & Rb & Ed & Ev & ->).
             destruct (Hrd0 (or_intror (or_introl En))) as [Q0 Q1].
             rewrite En in Ev. cbn in Ev. inversion Ev; subst v; clear Ev.
             destruct (Z.eqb_spec (p_dest i) (p_src1 n)) as [E3|N3]; cbn [orb] in Hf.
             ++ inversion Hf; subst i'; clear Hf. rewrite <- E3 in *. rewrite RD in Rb. inversion Rb; subst b.
                assert (p_src0 n <> p_dest i) as N2 by (intros E2; apply Hna; auto).
                eexists. split.
                { rewrite exec_assign by reflexivity. cbn [set_op p_src0 p_dest]. rewrite Ed.
                  rewrite R2, <- RO, Ra by auto. rewrite (Hset a (s32 a - s32 (w32 (p_src0 i)))); [reflexivity|].
                  rewrite E0. change (s32 (w32 0)) with 0. rewrite Z.sub_0_r, w32_s32. reflexivity. }
                apply Hfin.
             ++ destruct (Z.eqb_spec (p_dest i) (p_src0 n)) as [E2|N2]; cbn [orb] in Hf.
                2:{ exfalso. destruct (opcode_eq_dec (p_op n) OP_mul); [congruence|]. cbn in Hf.
                    destruct (p_src0 i =? 1) eqn:?; [lia|]. cbn in Hf. discriminate. }
                inversion Hf; subst i'; clear Hf. rewrite <- E2 in *. rewrite RD in Ra. inversion Ra; subst a.
                eexists. split.
                { unfold exec. cbn [set_op p_op p_src0 p_dest c_unop]. rewrite Ed.
                  rewrite R2, <- RO, Rb by auto.
                  rewrite (Hset (- s32 b) (s32 (w32 (p_src0 i)) - s32 b)); [reflexivity|].
                  rewrite E0. change (s32 (w32 0)) with 0. reflexivity. }
                apply Hfin.
          -- destruct (opcode_eq_dec (p_op n) OP_mul) as [En|Nm]; cbn [andb] in Hf.
             2:{ exfalso. destruct (p_src0 i =? 1) eqn:?; [lia|]. cbn in Hf. discriminate. }
             destruct (Hbin (or_intror (or_intror En))) as (a & b & v & Ra & Rb & Ed & Ev & ->).
             rewrite En in Ev. cbn in Ev. inversion Ev; subst v; clear Ev.
             destruct ((p_dest i =? p_src0 n) || (p_dest i =? p_src1 n)) eqn:E2; cbn [andb] in Hf.
             2:{ exfalso. destruct (p_src0 i =? 1) eqn:?; [lia|]. cbn in Hf. discriminate. }
             inversion Hf; subst i'; clear Hf.
             eexists. split.
             { unfold exec. cbn [set_op p_op p_src0 p_dest]. rewrite Ed.
               rewrite (Hset 0 (s32 a * s32 b)); [reflexivity|].
               apply orb_prop in E2. destruct E2 as [E2|E2]; apply Z.eqb_eq in E2; rewrite <- E2 in *.
               - rewrite RD in Ra. inversion Ra; subst a. rewrite E0. reflexivity.
               - rewrite RD in Rb. inversion Rb; subst b. rewrite E0. change (s32 (w32 0)) with 0.
                 rewrite Z.mul_0_r. reflexivity. }
             apply Hfin.
      + destruct (Z.eqb_spec (p_src0 i) 1) as [E0|N1]; cbn [andb] in Hf; [|discriminate].
        destruct (opcode_eq_dec (p_op n) OP_mul) as [En|Nm]; cbn [andb] in Hf; [|discriminate].
        destruct (Hbin (or_intror (or_intror En))) as (a & b & v & Ra & Rb & Ed & Ev & ->).
        destruct (Hrd0 (or_intror (or_intror En))) as [Q0 Q1].
        rewrite En in Ev. cbn in Ev. inversion Ev; subst v; clear Ev.
        destruct (Z.eqb_spec (p_dest i) (p_src0 n)) as [E2|N2]; cbn [orb] in Hf.
        * inversion Hf; subst i'; clear Hf. rewrite <- E2 in *. rewrite RD in Ra. inversion Ra; subst a.
          assert (p_src1 n <> p_dest i) as N3 by (intros E3; apply Hna; auto).
          eexists. split.
          { rewrite exec_assign by reflexivity. cbn [set_op p_src0 p_dest]. rewrite Ed.
            rewrite R2, <- RO, Rb by auto. rewrite (Hset b (s32 (w32 (p_src0 i)) * s32 b)); [reflexivity|].
            rewrite E0. change (s32 (w32 1)) with 1. rewrite Z.mul_1_l, w32_s32. reflexivity. }
          apply Hfin.
        * destruct (Z.eqb_spec (p_dest i) (p_src1 n)) as [E3|N3]; cbn [orb] in Hf; [|discriminate].
          inversion Hf; subst i'; clear Hf. rewrite <- E3 in *. rewrite RD in Rb. inversion Rb; subst b.
          eexists. split.
          { rewrite exec_assign by reflexivity. cbn [set_op p_src0 p_dest]. rewrite Ed.
            rewrite R2, <- RO, Ra by auto. rewrite (Hset a (s32 a * s32 (w32 (p_src0 i)))); [reflexivity|].
            rewrite E0. change (s32 (w32 1)) with 1. rewrite Z.mul_1_r, w32_s32. reflexivity. }
          apply Hfin.
  Qed.

  (** the conditions under which the pass is right, over all adjacent pairs *)
  Definition sites_ok (l : list ph2) : Prop :=
    forall l1 i n l2 i', l = l1 ++ i :: n :: l2 -> insn_fusion i n = Some i' ->
      no_alias i n /\ (p_dest i <> p_dest n -> needed (p_dest i) l2 = false).

  (** the temporaries removed by some fusion *)
  Definition temp_of (l : list ph2) (r : Z) : Prop :=
    exists l1 i n l2 i', l = l1 ++ i :: n :: l2 /\ insn_fusion i n = Some i' /\
      r = p_dest i /\ p_dest i <> p_dest n.

  Lemma sites_tail i l : sites_ok (i :: l) -> sites_ok l.
  Proof. intros H l1 a b l2 i' -> Hf. apply (H (i :: l1) a b l2 i'); auto. Qed.
  Lemma temp_cons i l r : temp_of l r -> temp_of (i :: l) r.
  Proof. intros (l1 & a & b & l2 & i' & -> & H). exists (i :: l1), a, b, l2, i'. split; auto. Qed.

  Lemma needed_cons r i l : needed r (i :: l) = false -> reads i r = false /\ (writes i r = false -> needed r l = false).
  Proof.
    cbn. intros H. apply orb_false_iff in H. destruct H as [H1 H2]. split; auto.
    intros H. rewrite H in H2. exact H2.
  Qed.

  Lemma fuse_writes i n i' : insn_fusion i n = Some i' ->
    uses_dest (p_op n) = true /\ (control (p_op i) = false /\ control (p_op n) = false).
  Proof.
    unfold insn_fusion, opeq, is_fusible_insn. intros H.
    destruct (opcode_eq_dec (p_op n) OP_assign) as [E|]; cbn [andb] in H.
    - rewrite E in *. split; [reflexivity|]. split; [|reflexivity].
      destruct (p_op i) eqn:Ei; try reflexivity; cbn in H; discriminate H.
    - destruct (opcode_eq_dec (p_op i) OP_load_constant) as [Ei|]; cbn [andb] in H; [|discriminate].
      rewrite Ei. cbn.
      destruct (opcode_eq_dec (p_op n) OP_add) as [En|]; [rewrite En; auto|].
      destruct (opcode_eq_dec (p_op n) OP_sub) as [En|]; [rewrite En; auto|].
      destruct (opcode_eq_dec (p_op n) OP_mul) as [En|]; [rewrite En; auto|].
      rewrite !andb_false_r in H. cbn in H. discriminate.
  Qed.

  Theorem peep_ok : forall k l, (length l <= k)%nat -> forall (D T : Z -> Prop) s1 s2 s1',
    Forall (fun i => control (p_op i) = false) l -> sites_ok l ->
    (forall r, D r -> needed r l = false) -> (forall r, D r -> T r) -> (forall r, temp_of l r -> T r) ->
    agree D s1 s2 -> regs32 s1 -> run_insns l s1 = Some s1' ->
    exists s2', run_insns (peep l) s2 = Some s2' /\ agree T s1' s2'.
  Proof.
    induction k as [|k IH]; intros l Hk D T s1 s2 s1' Hc Hs HD HDT HT A Hu Hr.
    { destruct l; cbn in Hk; [|lia]. cbn in *. inversion Hr; subst. exists s2.
      split; [reflexivity|]. eapply (agree_weaken D T); [exact HDT|exact A]. }
    destruct l as [|i [|n r]].
    - cbn in *. inversion Hr; subst. exists s2. split; [reflexivity|]. eapply (agree_weaken D T); [exact HDT|exact A].
    - cbn [peep run_insns] in *.
      destruct (exec p L C os gp ck s1 i (s_pt s1)) as [[|]sa| |] eqn:Ex; try discriminate.
      inversion Hr; subst s1'. inversion Hc; subst.
      destruct (exec_agree D s1 s2 i sa) as (sb & Eb & Ab); auto.
      { intros q Hq. apply (needed_cons _ _ _ (HD q Hq)). }
      rewrite Eb. exists sb. split; auto. eapply agree_weaken; [|exact Ab]. cbn. intuition.
    - change (peep (i :: n :: r)) with
        (if self_move n then i :: peep r
         else match insn_fusion i n with Some i' => i' :: peep r | None => i :: peep (n :: r) end).
      cbn [run_insns] in Hr.
      destruct (exec p L C os gp ck s1 i (s_pt s1)) as [[|]sa| |] eqn:Ex; try discriminate.
      inversion Hc as [|? ? Ci Hc']; subst. inversion Hc' as [|? ? Cn Hc'']; subst.
      pose proof (exec_regs32 _ _ _ Ci Hu Ex) as Hua.
      destruct (self_move n) eqn:Esm.
      + destruct (exec p L C os gp ck sa n (s_pt sa)) as [[|]sn| |] eqn:En; try discriminate.
        destruct (exec_agree D s1 s2 i sa) as (sb & Eb & Ab); auto.
        { intros q Hq. apply (needed_cons _ _ _ (HD q Hq)). }
        pose proof (self_move_agree _ _ _ _ _ Esm Ab Hua En) as An.
        pose proof (exec_regs32 _ _ _ Cn Hua En) as Hun.
        cbn [run_insns]. rewrite Eb.
        (* a self-move reads what it writes, so a dead register is not the one moved *)
        apply (IH r ltac:(cbn in Hk; lia) (fun q => (D q /\ writes i q = false)) T sn sb s1'); auto.
        * apply (sites_tail n), (sites_tail i). exact Hs.
        * intros q [Hq Hw]. destruct (needed_cons _ _ _ (HD q Hq)) as [_ H1]. specialize (H1 Hw).
          destruct (needed_cons _ _ _ H1) as [H2 H3]. apply H3.
          unfold self_move, opeq in Esm. destruct (opcode_eq_dec (p_op n) OP_assign) as [En'|]; [|discriminate].
          cbn in Esm. apply Z.eqb_eq in Esm. unfold reads, writes in *. rewrite En' in *. cbn in *.
          rewrite orb_false_r in H2. rewrite Esm. exact H2.
        * intros q [Hq _]. auto.
        * intros q Hq. apply HT, temp_cons, temp_cons, Hq.
      + destruct (insn_fusion i n) as [i'|] eqn:Ef.
        * destruct (exec p L C os gp ck sa n (s_pt sa)) as [[|]sn| |] eqn:En; try discriminate.
          destruct (Hs [] i n r i' eq_refl Ef) as [Hna Hnd].
          destruct (fuse_writes _ _ _ Ef) as (Wn & _).
          destruct (fuse_agree D s1 s2 i n i' sa sn) as (sb & Eb & Ab); auto.
          { intros q Hq. apply (needed_cons _ _ _ (HD q Hq)). }
          { intros q Hq Nq. destruct (needed_cons _ _ _ (HD q Hq)) as [_ H1].
            apply (needed_cons q n r). apply H1. unfold writes. replace (p_dest i =? q) with false by lia.
            apply andb_false_r. }
          pose proof (exec_regs32 _ _ _ Cn Hua En) as Hun.
          cbn [run_insns]. rewrite Eb.
          apply (IH r ltac:(cbn in Hk; lia) (fz D i n) T sn sb s1'); auto.
          -- apply (sites_tail n), (sites_tail i). exact Hs.
          -- intros q [[Hq| ->] Nq].
             ++ destruct (Z.eq_dec q (p_dest i)) as [->|Ni]; [apply Hnd; exact Nq|].
                destruct (needed_cons _ _ _ (HD q Hq)) as [_ H1].
                destruct (needed_cons q n r) as [_ H2].
                { apply H1. unfold writes. replace (p_dest i =? q) with false by lia. apply andb_false_r. }
                apply H2. unfold writes. replace (p_dest n =? q) with false by lia. apply andb_false_r.
             ++ apply Hnd. exact Nq.
          -- intros q [[Hq| ->] Nq]; auto. apply HT.
             exists [], i, n, r, i'. repeat split; auto.
          -- intros q Hq. apply HT, temp_cons, temp_cons, Hq.
        * destruct (exec_agree D s1 s2 i sa) as (sb & Eb & Ab); auto.
          { intros q Hq. apply (needed_cons _ _ _ (HD q Hq)). }
          cbn [run_insns]. rewrite Eb.
          apply (IH (n :: r) ltac:(cbn in *; lia) (fun q => D q /\ writes i q = false) T sa sb s1'); auto.
          -- apply (sites_tail i). exact Hs.
          -- intros q [Hq Hw]. apply (needed_cons _ _ _ (HD q Hq)). exact Hw.
          -- intros q [Hq _]. auto.
          -- intros q Hq. apply HT, temp_cons, Hq.
  Qed.
End Run.

(** what the pass cannot touch: everything but the pure instructions of the patterns *)
Definition pure_op (o : opcode) : bool :=
  match o with
  | OP_assign | OP_load_constant | OP_load_data_address | OP_load | OP_global_load
  | OP_add | OP_sub | OP_mul | OP_div | OP_mod | OP_lshift | OP_rshift
  | OP_bit_and | OP_bit_or | OP_bit_xor | OP_log_and | OP_log_or | OP_log_not | OP_negate => true
  | _ => false
  end.

Lemma fuse_pure i n i' : insn_fusion i n = Some i' ->
  pure_op (p_op i) = true /\ pure_op (p_op n) = true /\ pure_op (p_op i') = true.
Proof.
  unfold insn_fusion, opeq, is_fusible_insn. intros H.
  destruct (opcode_eq_dec (p_op n) OP_assign) as [E|]; cbn [andb] in H.
  - rewrite E in *. destruct (p_op i) eqn:Ei; cbn in H;
      repeat match type of H with context [if ?c then _ else _] => destruct c end;
      inversion H; subst; cbn; rewrite ?Ei; auto.
  - destruct (opcode_eq_dec (p_op i) OP_load_constant) as [Ei|]; cbn [andb] in H; [|discriminate].
    rewrite Ei.
    destruct (opcode_eq_dec (p_op n) OP_add) as [En|];
    [|destruct (opcode_eq_dec (p_op n) OP_sub) as [En|];
      [|destruct (opcode_eq_dec (p_op n) OP_mul) as [En|]]]; try rewrite En;
      rewrite ?andb_false_r in H; cbn [andb] in H; try discriminate H;
      repeat match type of H with (if ?c then _ else _) = _ => destruct c end;
      try discriminate H; inversion H; subst; cbn; auto.
Qed.

Lemma peep_effects : forall k l, (length l <= k)%nat ->
  filter (fun i => negb (pure_op (p_op i))) (peep l) = filter (fun i => negb (pure_op (p_op i))) l.
Proof.
  induction k as [|k IH]; intros l Hk.
  { destruct l; cbn in Hk; [reflexivity|lia]. }
  destruct l as [|i [|n r]]; try reflexivity.
  change (peep (i :: n :: r)) with
    (if self_move n then i :: peep r
     else match insn_fusion i n with Some i' => i' :: peep r | None => i :: peep (n :: r) end).
  destruct (self_move n) eqn:E.
  - unfold self_move, opeq in E. destruct (opcode_eq_dec (p_op n) OP_assign) as [En|]; [|discriminate].
    cbn [filter]. rewrite En. cbn [pure_op negb]. rewrite IH by (cbn in Hk; lia). reflexivity.
  - destruct (insn_fusion i n) as [i'|] eqn:Ef.
    + destruct (fuse_pure _ _ _ Ef) as (H1 & H2 & H3). cbn [filter]. rewrite H1, H2, H3. cbn.
      apply IH. cbn in Hk; lia.
    + assert (Hn : filter (fun i => negb (pure_op (p_op i))) (peep (n :: r)) =
                  filter (fun i => negb (pure_op (p_op i))) (n :: r)) by (apply IH; cbn in *; lia).
      set (F := filter (fun i => negb (pure_op (p_op i)))) in *.
      assert (Hc : forall x, F (i :: x) = if negb (pure_op (p_op i)) then i :: F x else F x) by reflexivity.
      rewrite !Hc, Hn. reflexivity.
Qed.
