(** One IR instruction and the RISC-V code emitted for it: registers, memory. *)
From Verif.Base Require Import Int32 Mem MemProofs Bits.
From Verif.Ir Require Import Ph2 Ph2Sem Layout.
From Verif.Rv Require Import RvISA RvEnc RvEncProofs RvGen RvExec RvOps RvSoft RvEmit.

(** RISC-V conventions: the return address is at the bottom of the frame, a
    loaded char is sign-extended, exit is system call 93. *)
Definition rv_conv : conv := mkconv (fun _ => 0) (sext 8) 93 (fun _ _ _ => []).

Section Sim.
  Variable p : program.
  Variable L : layout.
  Variable os : osspec.
  Variable gp : Z.
  Variable ck : mem -> bool.
  Variable e : env.
  Variables (cs : Z) (ws : list Z).
  Hypothesis Hgp : is_u32 gp.
  Hypothesis HLc : l_code L = cs.
  Hypothesis HLe : l_code_end L = cs + 4 * Z.of_nat (length ws).
  Hypothesis Hcs : 0 <= cs /\ cs + 4 * Z.of_nat (length ws) < 4294967296.
  Hypothesis HLd : l_data L = e_data e.

  Notation exec := (exec p L rv_conv os gp ck).

  (** correspondence of an IR state and a register file / memory *)
  Record mcore (s : st) (x : Z -> Z) (m : mem) : Prop := {
    mc_reg : forall i v, rg s i = Some v -> x (i + 10) = v /\ is_u32 v;
    mc_sp : x 2 = s_sp s;
    mc_spu : is_u32 (s_sp s);
    mc_gp : x 3 = gp;
    mc_mem : m = s_mem s;
    mc_code : words_at m cs ws;
    mc_latch : forall v, s_latch s = Some v -> x 5 = v /\ is_u32 v }.

  Lemma rg_some s i v : rg s i = Some v -> 0 <= i < 8 /\ s_reg s i = Some v.
  Proof.
    unfold rg. destruct (Z.leb_spec 0 i), (Z.ltb_spec i 8); cbn; try discriminate. auto with zarith.
  Qed.
  Lemma rg_in s i : 0 <= i < 8 -> rg s i = s_reg s i.
  Proof. unfold rg. intros. destruct (Z.leb_spec 0 i), (Z.ltb_spec i 8); cbn; auto; lia. Qed.

  Definition st_def (s : st) (nxt : point) (d v : Z) : st :=
    mkst nxt (rset (s_reg s) d v) (s_sp s) (s_mem s) (s_stk s) None.
  Definition st_mem (s : st) (nxt : point) (m : mem) : st :=
    mkst nxt (s_reg s) (s_sp s) m (s_stk s) None.

  Lemma mcore_def s x m nxt d v x' : mcore s x m -> vreg d ->
    x' (d + 10) = w32 v -> pres x x' (d + 10) -> mcore (st_def s nxt d v) x' m.
  Proof.
    intros [] Hd E P. unfold vreg in Hd. constructor; cbn [st_def s_reg s_sp s_mem s_latch s_pt s_stk]; auto.
    - intros i w H. apply rg_some in H. destruct H as [Hi H]. cbn in H. unfold rset in H.
      destruct (Z.eqb_spec i d) as [->|N].
      + inversion H; subst. rewrite E. split; [reflexivity|apply w32_range].
      + rewrite P; [|unfold visible; lia|lia].
        apply mc_reg0. rewrite rg_in by assumption. exact H.
    - rewrite P; auto; unfold visible; lia.
    - rewrite P; auto; unfold visible; lia.
    - discriminate.
  Qed.

  Lemma touches_in a n d : touches_code L a n = false -> 0 <= d < n ->
    ~ (cs <= w32 (a + d) < cs + 4 * Z.of_nat (length ws)).
  Proof.
    unfold touches_code. intros H Hd Hc.
    assert (existsb (fun d => (l_code L <=? w32 (a + d)) && (w32 (a + d) <? l_code_end L))
             (map Z.of_nat (seq 0 (Z.to_nat n))) = true) as H'; [|congruence].
    apply existsb_exists. exists d. split.
    - apply in_map_iff. exists (Z.to_nat d). split; [lia|]. apply in_seq. lia.
    - rewrite HLc, HLe. lia.
  Qed.

  Lemma code_stw m a v : touches_code L a 4 = false -> words_at m cs ws ->
    words_at (stw m a v) cs ws.
  Proof.
    intros Ht. apply words_at_ext. intros d Hd. apply ldb_stw_other.
    intros d' Hd'. pose proof (touches_in _ _ d' Ht ltac:(lia)) as N.
    rewrite (w32_id (cs + d)) by (unfold is_u32; lia). lia.
  Qed.
  Lemma code_stb m a v : touches_code L a 1 = false -> words_at m cs ws ->
    words_at (stb m a v) cs ws.
  Proof.
    intros Ht. apply words_at_ext. intros d Hd. apply ldb_stb_other.
    pose proof (touches_in _ _ 0 Ht ltac:(lia)) as N. rewrite Z.add_0_r in N.
    rewrite (w32_id (cs + d)) by (unfold is_u32; lia). lia.
  Qed.

  Lemma mcore_mem s x m nxt m' x' : mcore s x m -> words_at m' cs ws ->
    (forall q, visible q -> x' q = x q) -> mcore (st_mem s nxt m') x' m'.
  Proof.
    intros [] Hw P. constructor; cbn [st_mem s_reg s_sp s_mem s_latch s_pt s_stk]; auto.
    - intros i w H. apply rg_some in H. destruct H as [Hi H]. cbn in H.
      rewrite P by (unfold visible; lia). apply mc_reg0. rewrite rg_in by assumption. exact H.
    - rewrite P; auto; unfold visible; lia.
    - rewrite P; auto; unfold visible; lia.
    - discriminate.
  Qed.

  (** non-control instructions *)
  Definition simple (o : opcode) : bool :=
    match o with
    | OP_branch | OP_jump | OP_call | OP_indirect | OP_return => false
    | _ => true
    end.

  (** the data-flow part of the outcome of one step *)
  Definition good (s' : st) (a n : Z) (x : Z -> Z) (r : rvstate) (m : mem) : Prop :=
    exists x' m', rv_star r (mkrv (a + n) x' m') /\ mcore s' x' m' /\ x' 1 = x 1.

  Lemma good_def s nxt d v x m a is :
    mcore s x m -> vreg d ->
    (exists x', runs m a is x x' /\ x' (d + 10) = w32 v /\ pres x x' (d + 10)) ->
    good (st_def s nxt d v) a (4 * Z.of_nat (length is)) x (mkrv a x m) m.
  Proof.
    intros Hm Hd (x' & Hr & E & P). exists x', m. split; [exact Hr|]. split.
    - eapply mcore_def; eauto.
    - unfold vreg in Hd. apply P; [unfold visible; lia|lia].
  Qed.

  Lemma dst_ok_vreg d : (0 <=? d) && (d <? 8) = true -> vreg d.
  Proof. unfold vreg. lia. Qed.

  Lemma ldw_sp m a b : w32 a = w32 b -> w32 (ldw m a) = w32 (ldw m b).
  Proof. intros H. rewrite (ldw_cong m a b H). reflexivity. Qed.

  Ltac pfin := prestac; rewrite ?xset_other by (unfold vreg in *; lia); try reflexivity.

  (** the single-register constant forms *)
  Lemma li_def m a d v x : 10 <= d < 18 ->
    code_at m a (li_insns d v) -> arange a 2 ->
    exists x', runs m a (li_insns d v) x x' /\ x' d = w32 v /\ pres x x' d.
  Proof.
    intros Hd Hc Ha. unfold li_insns in *. eexists. split; [|split].
    - unfold runs. start a. stp. stp. fin.
    - cbn [iop_eval]. autox. rewrite w32_add_l. apply lui_addi.
    - prestac.
  Qed.

  Lemma addi_def m a d q v x : 10 <= d < 18 ->
    code_at m a [II ADDI d q v] -> arange a 1 ->
    exists x', runs m a [II ADDI d q v] x x' /\
       x' d = w32 ((if q =? 0 then 0 else x q) + v) /\ pres x x' d.
  Proof.
    intros Hd Hc Ha. eexists. split; [|split].
    - unfold runs. start a. stp. fin.
    - cbn [iop_eval]. autox. reflexivity.
    - prestac.
  Qed.

  Lemma li_add_def m a d q v x : 10 <= d < 18 -> q = 2 \/ q = 3 ->
    code_at m a (li_insns 5 v ++ [IR ADD d q 5]) -> arange a 3 ->
    exists x', runs m a (li_insns 5 v ++ [IR ADD d q 5]) x x' /\
       x' d = w32 (x q + v) /\ pres x x' d.
  Proof.
    intros Hd Hq Hc Ha. unfold li_insns in *. cbn [app] in *. eexists. split; [|split].
    - unfold runs. start a. stp. stp. stp. fin.
    - cbn [iop_eval rop_eval]. autox. rewrite w32_add_l, lui_addi, w32_add_r. reflexivity.
    - prestac.
  Qed.

  Lemma li_load_def m a d q v x : 10 <= d < 18 -> q = 2 \/ q = 3 ->
    code_at m a (li_insns 5 v ++ [IR ADD 5 q 5; IL LW d 5 0]) -> arange a 4 ->
    exists x', runs m a (li_insns 5 v ++ [IR ADD 5 q 5; IL LW d 5 0]) x x' /\
       x' d = w32 (ldw m (x q + v)) /\ pres x x' d.
  Proof.
    intros Hd Hq Hc Ha. unfold li_insns in *. cbn [app] in *. eexists. split; [|split].
    - unfold runs. start a. stp. stp. stp. stp. fin.
    - cbn [iop_eval rop_eval lop_eval]. autox. apply ldw_sp.
      rewrite Z.add_0_r, w32_idem, w32_add_l, lui_addi, w32_add_r. reflexivity.
    - prestac.
  Qed.

  Lemma load_def m a o d q v x : 10 <= d < 18 -> 0 < q ->
    code_at m a [IL o d q v] -> arange a 1 ->
    exists x', runs m a [IL o d q v] x x' /\
       x' d = w32 (lop_eval o m (x q + v)) /\ pres x x' d.
  Proof.
    intros Hd Hq Hc Ha. eexists. split; [|split].
    - unfold runs. start a. stp. fin.
    - autox. reflexivity.
    - prestac.
  Qed.

  Lemma store_run m a o q r v x : 0 < q -> 0 < r ->
    code_at m a [IS o q r v] -> arange a 1 ->
    rv_star (mkrv a x m) (mkrv (a + 4) x (sop_eval o m (x q + v) (x r))).
  Proof.
    intros Hq Hr Hc Ha. start a. stp. autox. fin.
  Qed.

  Lemma li_store_run m a q r v x : q = 2 \/ q = 3 -> 10 <= r < 18 ->
    code_at m a (li_insns 5 v ++ [IR ADD 5 q 5; IS SW 5 r 0]) -> arange a 4 ->
    exists x', rv_star (mkrv a x m) (mkrv (a + 16) x' (stw m (x q + v) (x r))) /\
      forall q, visible q -> x' q = x q.
  Proof.
    intros Hq Hr Hc Ha. unfold li_insns in *. cbn [app] in *. eexists. split.
    - start a. stp. stp. stp. stp. cbn [iop_eval rop_eval sop_eval]. autox.
      rewrite (stw_cong m _ (x q + v) _ (x r)); [fin| |reflexivity].
      rewrite Z.add_0_r, w32_idem, w32_add_l, lui_addi, w32_add_r. reflexivity.
    - prestac.
  Qed.

  Theorem sim_simple s i nxt t s' a pos x m :
    simple (p_op i) = true -> mcore s x m ->
    exec s i nxt = Ok t s' ->
    (forall c, callee_of p (p_func i) = Some c ->
       exists o, e_fn e (p_func i) = Some o /\ l_faddr L c = e_code e + o) ->
    (regs_ok i -> code_at m a (rv_insns e pos i)) ->
    arange a (length (rv_insns e pos i)) ->
    t = [] /\ s_pt s' = nxt /\ s_stk s' = s_stk s /\
    good s' a (4 * Z.of_nat (length (rv_insns e pos i))) x (mkrv a x m) m.
  Proof.
    intros Hs Hm He Hf Hc Ha.
    pose proof Hm as Hm'. destruct Hm' as [Mr Msp Mspu Mgp Mmem Mcode Ml].
    unfold Ph2Sem.exec in He. unfold regs_ok, rv_insns in *.
    destruct (p_op i) eqn:Eop; try discriminate Hs; cbn [uses_dest uses_src0 uses_src1] in *;
    repeat match type of He with
    | context [match rg s ?j with _ => _ end] =>
        let E := fresh "Er" in let v := fresh "v" in destruct (rg s j) as [v|] eqn:E; [|discriminate];
        let R := fresh "Rr" in let U := fresh "Uu" in
        pose proof (rg_some _ _ _ E) as R; destruct (Mr _ _ E) as [? U]
    | (if (0 <=? ?d) && (?d <? 8) then _ else _) = _ =>
        let E := fresh "Ed" in destruct ((0 <=? d) && (d <? 8)) eqn:E; [apply dst_ok_vreg in E|discriminate]
    end; cbn [c_unop c_binop] in He; try discriminate He;
    repeat match type of He with
    | context [match rg s ?j with _ => _ end] =>
        let E := fresh "Er" in let v := fresh "v" in destruct (rg s j) as [v|] eqn:E; [|discriminate];
        let R := fresh "Rr" in let U := fresh "Uu" in
        pose proof (rg_some _ _ _ E) as R; destruct (Mr _ _ E) as [? U]
    | (if touches_code ?L ?d ?n then _ else _) = _ =>
        let E := fresh "Et" in destruct (touches_code L d n) eqn:E; [discriminate|]
    end; 
    try (specialize (Hc ltac:(unfold vreg in *; repeat split; intros; try discriminate; tauto))).
    Ltac dfin He := injection He as <- <-; split; [reflexivity|]; split; [reflexivity|];
      split; [reflexivity|]; apply good_def; [assumption|assumption|].
    Ltac mfin He := injection He as <- <-; split; [reflexivity|]; split; [reflexivity|];
      split; [reflexivity|].
    - (* assign *) dfin He. destruct (addi_def m a (p_dest i + 10) (p_src0 i + 10) 0 x) as (x' & R & E & P);
        auto; [unfold vreg in *; lia|].
      exists x'. split; [exact R|]. split; [|exact P]. rewrite E.
      destruct (Z.eqb_spec (p_src0 i + 10) 0); [lia|]. rewrite Z.add_0_r. congruence.
    - (* load_constant *) dfin He. destruct (out12 (p_src0 i)).
      + apply li_def; auto. unfold vreg in *; lia.
      + destruct (addi_def m a (p_dest i + 10) 0 (p_src0 i) x) as (x' & R & E & P);
          auto; [unfold vreg in *; lia|].
        exists x'. split; [exact R|]. split; [|exact P]. rewrite E. reflexivity.
    - (* load_data_address *) dfin He.
      destruct (li_def m a (p_dest i + 10) (iadd (e_data e) (p_src0 i)) x) as (x' & R & E & P);
        auto; [unfold vreg in *; lia|].
      exists x'. split; [exact R|]. split; [|exact P]. rewrite E, HLd. apply w32_wrap.
    - (* address_of_func *)
      destruct (callee_of p (p_func i)) as [c|] eqn:Ec; [|discriminate].
      destruct (touches_code L v 4) eqn:Et; [discriminate|].
      destruct (Hf c eq_refl) as (o & Eo & El). rewrite Eo in *. mfin He.
      unfold li_insns in *. cbn [app] in *.
      eexists _, _. split; [|split].
      + start a. stp. stp. stp. fin.
      + cbn [iop_eval rop_eval sop_eval]. autox.
        match goal with |- mcore _ _ ?M => replace M with (stw (s_mem s) v (l_faddr L c)) end.
        * apply (mcore_mem s x m); auto.
          -- apply code_stw; auto. rewrite <- Mmem. exact Mcode.
          -- prestac.
        * rewrite <- Mmem. symmetry. apply stw_cong.
          -- destruct (Z.eqb_spec (p_src0 i + 10) 0); [lia|]. rewrite H. f_equal. lia.
          -- rewrite w32_add_l, lui_addi, w32_idem, El. apply w32_wrap.
      + prestac.
    - (* load_func *) mfin He.
      eexists _, _. split; [|split].
      + start a. stp. fin.
      + cbn [iop_eval]. autox. constructor; cbn [s_reg s_sp s_mem s_latch s_pt s_stk]; auto.
        * intros j w E. apply rg_some in E. destruct E as [? E]. cbn in E.
          rewrite xset_other by lia. apply Mr. rewrite rg_in by assumption. exact E.
        * intros w E. injection E as <-. rewrite xset_same by lia. rewrite Z.add_0_r.
          split; [|assumption].
          destruct (Z.eqb_spec (p_src0 i + 10) 0); [lia|]. rewrite H. apply w32_id; assumption.
      + prestac.
    - (* address_of *) dfin He. rewrite <- Msp. destruct (out12 (p_src0 i)).
      + apply li_add_def; auto. unfold vreg in *; lia.
      + apply addi_def; auto. unfold vreg in *; lia.
    - (* global_address_of *) dfin He. rewrite <- Mgp. destruct (out12 (p_src0 i)).
      + apply li_add_def; auto. unfold vreg in *; lia.
      + apply addi_def; auto. unfold vreg in *; lia.
    - (* load *) dfin He. rewrite <- Msp, <- Mmem. destruct (out12 (p_src0 i)).
      + apply li_load_def; auto. unfold vreg in *; lia.
      + apply (load_def m a LW); auto; unfold vreg in *; lia.
    - (* global_load *) dfin He. rewrite <- Mgp, <- Mmem. destruct (out12 (p_src0 i)).
      + apply li_load_def; auto. unfold vreg in *; lia.
      + apply (load_def m a LW); auto; unfold vreg in *; lia.
    - (* store *) mfin He. destruct (out12 (p_src1 i)).
      + destruct (li_store_run m a 2 (p_src0 i + 10) (p_src1 i) x) as (x' & R & P); auto; [lia|].
        eexists _, _. split; [exact R|]. split.
        * rewrite H, Msp, Mmem. rewrite Mmem in Hm, Mcode. apply (mcore_mem s x (s_mem s)); auto. apply code_stw; auto.
        * apply P. unfold visible; lia.
      + eexists _, _. split; [apply (store_run m a SW 2 (p_src0 i + 10) (p_src1 i) x); try assumption; lia|]. split; [|reflexivity].
        cbn [sop_eval]. rewrite H, Msp, Mmem. rewrite Mmem in Hm, Mcode.
        apply (mcore_mem s x (s_mem s)); auto. apply code_stw; auto.
    - (* global_store *) mfin He. destruct (out12 (p_src1 i)).
      + destruct (li_store_run m a 3 (p_src0 i + 10) (p_src1 i) x) as (x' & R & P); auto; [lia|].
        eexists _, _. split; [exact R|]. split.
        * rewrite H, Mgp, Mmem. rewrite Mmem in Hm, Mcode. apply (mcore_mem s x (s_mem s)); auto. apply code_stw; auto.
        * apply P. unfold visible; lia.
      + eexists _, _. split; [apply (store_run m a SW 3 (p_src0 i + 10) (p_src1 i) x); try assumption; lia|]. split; [|reflexivity].
        cbn [sop_eval]. rewrite H, Mgp, Mmem. rewrite Mmem in Hm, Mcode.
        apply (mcore_mem s x (s_mem s)); auto. apply code_stw; auto.
    - (* read *) destruct (p_src1 i =? 1) eqn:E1; [|destruct (p_src1 i =? 4) eqn:E4; [|discriminate]].
      + dfin He. destruct (load_def m a LB (p_dest i + 10) (p_src0 i + 10) 0 x) as (x' & R & E & P);
          auto; [unfold vreg in *; lia|lia|]. exists x'. split; [exact R|]. split; [|exact P].
        rewrite E. cbn. rewrite Z.add_0_r, H, Mmem. reflexivity.
      + dfin He. destruct (load_def m a LW (p_dest i + 10) (p_src0 i + 10) 0 x) as (x' & R & E & P);
          auto; [unfold vreg in *; lia|lia|]. exists x'. split; [exact R|]. split; [|exact P].
        rewrite E. cbn [lop_eval]. rewrite Z.add_0_r, H, Mmem. reflexivity.
    - (* write *) destruct (p_dest i =? 1) eqn:E1; [|destruct (p_dest i =? 4) eqn:E4; [|discriminate]].
      + destruct (touches_code L v 1) eqn:Et; [discriminate|]. mfin He.
        eexists _, _. split; [apply (store_run m a SB (p_src0 i + 10) (p_src1 i + 10) 0 x); try assumption; lia|]. split; [|reflexivity].
        cbn [sop_eval]. rewrite Z.add_0_r, H, H0, Mmem in *. apply (mcore_mem s x (s_mem s)); auto.
        apply code_stb; auto.
      + destruct (touches_code L v 4) eqn:Et; [discriminate|]. mfin He.
        eexists _, _. split; [apply (store_run m a SW (p_src0 i + 10) (p_src1 i + 10) 0 x); try assumption; lia|]. split; [|reflexivity].
        cbn [sop_eval]. rewrite Z.add_0_r, H, H0, Mmem in *. apply (mcore_mem s x (s_mem s)); auto.
        apply code_stw; auto.
    Ltac rng := try assumption; try (unfold vreg in *; lia).
    Ltac sv := repeat match goal with H : ?f (_ + 10) = ?w |- _ => is_var w; subst w end.
    - sv; dfin He. apply rvop_add; rng.
    - sv; dfin He. apply rvop_sub; rng.
    - sv; destruct (e_hard e); dfin He; [apply rvop_mul; rng|apply mul_ok; rng].
    - sv; destruct (Z.eqb_spec (s32 (x (p_src1 i + 10))) 0) as [|Nz]; [discriminate|].
      destruct (e_hard e); dfin He; [apply rvop_div; rng|apply (div_ok false); rng].
    - sv; destruct (Z.eqb_spec (s32 (x (p_src1 i + 10))) 0) as [|Nz]; [discriminate|].
      destruct (e_hard e); dfin He; [apply rvop_mod; rng|apply (div_ok true); rng].
    - sv; destruct ((0 <=? s32 (x (p_src1 i + 10))) && (s32 (x (p_src1 i + 10)) <? 32)) eqn:Es; [|discriminate].
      dfin He. apply rvop_lshift; rng.
    - sv; destruct ((0 <=? s32 (x (p_src1 i + 10))) && (s32 (x (p_src1 i + 10)) <? 32)) eqn:Es; [|discriminate].
      dfin He. apply rvop_rshift; rng.
    - sv; dfin He. apply (rvop_lognot m a (p_dest i + 10) (p_src0 i + 10) (p_src1 i + 10)); rng.
    - sv; dfin He. apply rvop_eq; rng.
    - sv; dfin He. apply rvop_neq; rng.
    - sv; dfin He. apply rvop_lt; rng.
    - sv; dfin He. apply rvop_leq; rng.
    - sv; dfin He. apply rvop_gt; rng.
    - sv; dfin He. apply rvop_geq; rng.
    - sv; dfin He. apply rvop_or; rng.
    - sv; dfin He. apply rvop_and; rng.
    - sv; dfin He. apply rvop_xor; rng.
    - sv; dfin He. apply (rvop_bitnot m a (p_dest i + 10) (p_src0 i + 10) (p_src1 i + 10)); rng.
    - sv; dfin He. apply (rvop_negate m a (p_dest i + 10) (p_src0 i + 10) (p_src1 i + 10)); rng.
  Qed.
End Sim.
