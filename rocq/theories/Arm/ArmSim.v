(** One IR instruction and the ARM code emitted for it: registers, memory. *)
From Verif.Base Require Import Int32 Mem MemProofs Bits.
From Verif.Ir Require Import Ph2 Ph2Sem Layout.
From Verif.Arm Require Import ArmISA ArmEnc ArmEncProofs ArmGen ArmExec ArmOps ArmSoft ArmEmit.

(** ARM conventions: the return address is at the top of the frame, a loaded char
    is zero-extended, exit is system call 1, and the emulated division pushes its
    operands below the stack pointer. *)
Definition arm_spill (hard : bool) (i : ph2) (a b : Z) : list (Z * Z) :=
  match p_op i with
  | OP_div | OP_mod => if hard then [] else div_spill (p_src0 i) (p_src1 i) a b
  | _ => []
  end.
Definition arm_conv (hard : bool) : conv := mkconv (fun stk => stk) (fun c => c) 1 (arm_spill hard).

(** the emulated division is only right for operands in two registers *)
Definition div_regs_ok (hard : bool) (i : ph2) : Prop :=
  p_op i = OP_div \/ p_op i = OP_mod -> hard = false -> p_src0 i <> p_src1 i.

Section Sim.
  Variable p : program.
  Variable L : layout.
  Variable os : osspec.
  Variable gp : Z.
  Variable ck : mem -> bool.
  Variable e : env.
  Variables (cs : Z) (ws : list Z).
  Hypothesis Hgp : is_u32 gp.
  Hypothesis HLc : l_code L = cs.
  Hypothesis HLe : l_code_end L = cs + 4 * Z.of_nat (length ws).
  Hypothesis Hcs : 0 <= cs /\ cs + 4 * Z.of_nat (length ws) < 4294967296.
  Hypothesis HLd : l_data L = e_data e.

  Notation exec := (exec p L (arm_conv (e_hard e)) os gp ck).

  (** correspondence of an IR state and a register file / memory *)
  Record mcore (s : st) (x : Z -> Z) (m : mem) : Prop := {
    mc_reg : forall i v, rg s i = Some v -> x i = v /\ is_u32 v;
    mc_sp : x 13 = s_sp s;
    mc_spu : is_u32 (s_sp s);
    mc_sp4 : s_sp s mod 4 = 0;
    mc_gp : x 12 = gp;
    mc_mem : m = s_mem s;
    mc_code : words_at m cs ws;
    mc_latch : forall v, s_latch s = Some v -> x 8 = v /\ is_u32 v }.

  Lemma rg_some s i v : rg s i = Some v -> 0 <= i < 8 /\ s_reg s i = Some v.
  Proof.
    unfold rg. destruct (Z.leb_spec 0 i), (Z.ltb_spec i 8); cbn; try discriminate. auto with zarith.
  Qed.
  Lemma rg_in s i : 0 <= i < 8 -> rg s i = s_reg s i.
  Proof. unfold rg. intros. destruct (Z.leb_spec 0 i), (Z.ltb_spec i 8); cbn; auto; lia. Qed.

  Definition st_full (s : st) (nxt : point) (d v : Z) (m : mem) : st :=
    mkst nxt (rset (s_reg s) d v) (s_sp s) m (s_stk s) None.
  Definition st_def (s : st) (nxt : point) (d v : Z) : st := st_full s nxt d v (s_mem s).
  Definition st_mem (s : st) (nxt : point) (m : mem) : st :=
    mkst nxt (s_reg s) (s_sp s) m (s_stk s) None.

  Lemma mcore_full s x m nxt d v x' m' : mcore s x m -> vreg d -> words_at m' cs ws ->
    x' d = w32 v -> pres x x' d -> mcore (st_full s nxt d v m') x' m'.
  Proof.
    intros [] Hd Hw E P. unfold vreg in Hd.
    constructor; cbn [st_full s_reg s_sp s_mem s_latch s_pt s_stk]; auto.
    - intros i w H. apply rg_some in H. destruct H as [Hi H]. cbn in H. unfold rset in H.
      destruct (Z.eqb_spec i d) as [->|N].
      + inversion H; subst. rewrite E. split; [reflexivity|apply w32_range].
      + rewrite P; [|unfold visible; lia|lia].
        apply mc_reg0. rewrite rg_in by assumption. exact H.
    - rewrite P; auto; unfold visible; lia.
    - rewrite P; auto; unfold visible; lia.
    - discriminate.
  Qed.

  Lemma touches_in a n d : touches_code L a n = false -> 0 <= d < n ->
    ~ (cs <= w32 (a + d) < cs + 4 * Z.of_nat (length ws)).
  Proof.
    unfold touches_code. intros H Hd Hc.
    assert (existsb (fun d => (l_code L <=? w32 (a + d)) && (w32 (a + d) <? l_code_end L))
             (map Z.of_nat (seq 0 (Z.to_nat n))) = true) as H'; [|congruence].
    apply existsb_exists. exists d. split.
    - apply in_map_iff. exists (Z.to_nat d). split; [lia|]. apply in_seq. lia.
    - rewrite HLc, HLe. lia.
  Qed.

  Lemma code_stw m a v : touches_code L a 4 = false -> words_at m cs ws ->
    words_at (stw m a v) cs ws.
  Proof.
    intros Ht. apply words_at_ext. intros d Hd. apply ldb_stw_other.
    intros d' Hd'. pose proof (touches_in _ _ d' Ht ltac:(lia)) as N.
    rewrite (w32_id (cs + d)) by (unfold is_u32; lia). lia.
  Qed.
  Lemma code_stb m a v : touches_code L a 1 = false -> words_at m cs ws ->
    words_at (stb m a v) cs ws.
  Proof.
    intros Ht. apply words_at_ext. intros d Hd. apply ldb_stb_other.
    pose proof (touches_in _ _ 0 Ht ltac:(lia)) as N. rewrite Z.add_0_r in N.
    rewrite (w32_id (cs + d)) by (unfold is_u32; lia). lia.
  Qed.
  Lemma code_spill sp sl : forall m,
    existsb (fun ov => touches_code L (sp + fst ov) 4) sl = false -> words_at m cs ws ->
    words_at (apply_spill m sp sl) cs ws.
  Proof.
    induction sl as [|[o v] r IH]; intros m H Hw; cbn in *; [exact Hw|].
    apply orb_false_iff in H. destruct H. apply IH; [assumption|]. apply code_stw; assumption.
  Qed.

  Lemma mcore_mem s x m nxt m' x' : mcore s x m -> words_at m' cs ws ->
    (forall q, visible q -> x' q = x q) -> mcore (st_mem s nxt m') x' m'.
  Proof.
    intros [] Hw P. constructor; cbn [st_mem s_reg s_sp s_mem s_latch s_pt s_stk]; auto.
    - intros i w H. apply rg_some in H. destruct H as [Hi H]. cbn in H.
      rewrite P by (unfold visible; lia). apply mc_reg0. rewrite rg_in by assumption. exact H.
    - rewrite P; auto; unfold visible; lia.
    - rewrite P; auto; unfold visible; lia.
    - discriminate.
  Qed.

  (** non-control instructions *)
  Definition simple (o : opcode) : bool :=
    match o with
    | OP_branch | OP_jump | OP_call | OP_indirect | OP_return => false
    | _ => true
    end.

  (** the data-flow part of the outcome of one step *)
  Definition good (s' : st) (a n : Z) (x : Z -> Z) (f : flags) (m : mem) : Prop :=
    exists x' f' m', arm_star (mkarm a x f m) (mkarm (a + n) x' f' m') /\ mcore s' x' m' /\ x' 14 = x 14.

  Lemma good_def s nxt d v x f m a is :
    mcore s x m -> vreg d ->
    (exists x', runs m a is x f x' /\ x' d = w32 v /\ pres x x' d) ->
    good (st_def s nxt d v) a (4 * Z.of_nat (length is)) x f m.
  Proof.
    intros Hm Hd (x' & (f' & Hr) & E & P). exists x', f', m. split; [exact Hr|]. split.
    - pose proof Hm as []. unfold st_def. rewrite <- mc_mem0. eapply mcore_full; eauto.
    - unfold vreg in Hd. apply P; [unfold visible; lia|lia].
  Qed.

  Lemma dst_ok_vreg d : (0 <=? d) && (d <? 8) = true -> vreg d.
  Proof. unfold vreg. lia. Qed.

  Lemma ldw_sp m a b : w32 a = w32 b -> w32 (ldw m a) = w32 (ldw m b).
  Proof. intros H. rewrite (ldw_cong m a b H). reflexivity. Qed.

  Ltac mv32 := rewrite ?movw_movt.

  (** the single-register constant forms *)
  Lemma li_def m a d v x f : vreg d ->
    code_at m a (mov32_insns d v) -> arange a 2 ->
    exists x', runs m a (mov32_insns d v) x f x' /\ x' d = w32 v /\ pres x x' d.
  Proof.
    intros Hd Hc Ha. unfold vreg, mov32_insns in *. eexists. split; [|split].
    - eexists. start a. stp. stp. fin.
    - autox. apply movw_movt.
    - prestac.
  Qed.

  Lemma one_def m a d o q y x f : vreg d -> q <> 15 -> y_ok y -> is_test o = false ->
    code_at m a [(AL, ADp o false d q y)] -> arange a 1 ->
    exists x', runs m a [(AL, ADp o false d q y)] x f x' /\
       x' d = w32 (xop o (x q) (yval x y)) /\ pres x x' d.
  Proof.
    intros Hd Hq Hy Ht Hc Ha. unfold vreg in *. eexists. split; [|split].
    - eexists. start a. stp. fin.
    - autox. reflexivity.
    - prestac.
  Qed.

  Lemma neg_def m a d v x f : vreg d ->
    code_at m a (mov32_insns 8 (ineg v) ++ [(AL, ADp RSB false d 8 (OImm 0 0))]) -> arange a 3 ->
    exists x', runs m a (mov32_insns 8 (ineg v) ++ [(AL, ADp RSB false d 8 (OImm 0 0))]) x f x' /\
       x' d = w32 v /\ pres x x' d.
  Proof.
    intros Hd Hc Ha. unfold vreg, mov32_insns in *. cbn [app] in *. eexists. split; [|split].
    - eexists. start a. stp. stp. stp. fin.
    - autox. rewrite movw_movt, w32_sub_r. unfold ineg.
      rewrite <- w32_sub_r, w32_wrap, w32_sub_r. f_equal. lia.
    - prestac.
  Qed.

  Lemma li_add_def m a d q v x f : vreg d -> q = 12 \/ q = 13 ->
    code_at m a (mov32_insns 8 v ++ [(AL, ADp ADD false d q (rR 8))]) -> arange a 3 ->
    exists x', runs m a (mov32_insns 8 v ++ [(AL, ADp ADD false d q (rR 8))]) x f x' /\
       x' d = w32 (x q + v) /\ pres x x' d.
  Proof.
    intros Hd Hq Hc Ha. unfold vreg, mov32_insns in *. cbn [app] in *. eexists. split; [|split].
    - eexists. start a. stp. stp. stp. fin.
    - autox. rewrite movw_movt, w32_add_r. reflexivity.
    - prestac.
  Qed.

  Lemma li_load_def m a d q v x f : vreg d -> q = 12 \/ q = 13 ->
    code_at m a (mov32_insns 8 v ++ [(AL, ADp ADD false 8 q (rR 8)); (AL, ALdr false d 8 0)]) -> arange a 4 ->
    exists x', runs m a (mov32_insns 8 v ++ [(AL, ADp ADD false 8 q (rR 8)); (AL, ALdr false d 8 0)]) x f x' /\
       x' d = w32 (ldw m (x q + v)) /\ pres x x' d.
  Proof.
    intros Hd Hq Hc Ha. unfold vreg, mov32_insns in *. cbn [app] in *. eexists. split; [|split].
    - eexists. start a. stp. stp. stp. stp. fin.
    - autox. apply ldw_sp. rewrite Z.add_0_r, movw_movt, w32_idem, w32_add_r. reflexivity.
    - prestac.
  Qed.

  Lemma load_def m a b d q v x f : vreg d -> q <> 15 ->
    code_at m a [(AL, ALdr b d q v)] -> arange a 1 ->
    exists x', runs m a [(AL, ALdr b d q v)] x f x' /\
       x' d = w32 (if b then ldb m (x q + v) else ldw m (x q + v)) /\ pres x x' d.
  Proof.
    intros Hd Hq Hc Ha. unfold vreg in *. eexists. split; [|split].
    - eexists. start a. stp. fin.
    - autox. reflexivity.
    - prestac.
  Qed.

  Lemma store_run m a b q r v x f : q <> 15 ->
    code_at m a [(AL, AStr b r q v)] -> arange a 1 ->
    arm_star (mkarm a x f m) (mkarm (a + 4) x f (if b then stb m (x q + v) (x r) else stw m (x q + v) (x r))).
  Proof.
    intros Hq Hc Ha. start a. stp. autox. fin.
  Qed.

  Lemma li_store_run m a q r v x f : q = 12 \/ q = 13 -> vreg r ->
    code_at m a (mov32_insns 8 v ++ [(AL, ADp ADD false 8 q (rR 8)); (AL, AStr false r 8 0)]) -> arange a 4 ->
    exists x', arm_star (mkarm a x f m) (mkarm (a + 16) x' f (stw m (x q + v) (x r))) /\
      forall q, visible q -> x' q = x q.
  Proof.
    intros Hq Hr Hc Ha. unfold vreg, mov32_insns in *. cbn [app] in *. eexists. split.
    - start a. stp. stp. stp. stp. autox.
      rewrite (stw_cong m _ (x q + v) _ (x r)); [fin| |reflexivity].
      rewrite Z.add_0_r, movw_movt, w32_idem, w32_add_r. reflexivity.
    - prestac.
  Qed.

  Lemma good_div md s nxt d rn rm x f m a :
    mcore s x m -> vreg d -> vreg rn -> vreg rm -> rn <> rm ->
    is_u32 (x rn) -> is_u32 (x rm) -> s32 (x rm) <> 0 ->
    (forall m, words_at m cs ws -> code_at m a (div_insns md d rn rm)) -> arange a 29 ->
    existsb (fun ov => touches_code L (s_sp s + fst ov) 4) (div_spill rn rm (x rn) (x rm)) = false ->
    good (st_full s nxt d (if md then Z.rem (s32 (x rn)) (s32 (x rm)) else Z.quot (s32 (x rn)) (s32 (x rm)))
            (apply_spill (s_mem s) (s_sp s) (div_spill rn rm (x rn) (x rm))))
         a (4 * Z.of_nat (length (div_insns md d rn rm))) x f m.
  Proof.
    intros Hm Hd Hn Hm' Hne Un Um Hnz Hc Ha Ht. pose proof Hm as [].
    rewrite <- mc_mem0, <- mc_sp0 in *. pose proof (code_spill _ _ _ Ht mc_code0) as Hw.
    assert (x 13 mod 4 = 0) as H4 by assumption.
    destruct (div_ok md m a d rn rm x f) as (x' & (f' & Hr) & E & P); auto.
    exists x', f', (apply_spill m (x 13) (div_spill rn rm (x rn) (x rm))). split; [exact Hr|]. split.
    - eapply mcore_full; eauto.
    - unfold vreg in Hd. apply P; [unfold visible; lia|lia].
  Qed.

  Theorem sim_simple s i nxt t s' a pos x f m :
    simple (p_op i) = true -> mcore s x m ->
    exec s i nxt = Ok t s' -> div_regs_ok (e_hard e) i ->
    p_op i = OP_define \/ arm_size (e_hard e) i <> None ->
    (forall c, callee_of p (p_func i) = Some c ->
       exists o, e_fn e (p_func i) = Some o /\ l_faddr L c = e_code e + o) ->
    (forall m, words_at m cs ws -> regs_ok i -> code_at m a (arm_insns e pos i)) ->
    arange a (length (arm_insns e pos i)) ->
    t = [] /\ s_pt s' = nxt /\ s_stk s' = s_stk s /\
    good s' a (4 * Z.of_nat (length (arm_insns e pos i))) x f m.
  Proof.
    intros Hs Hm He Hdv Hz Hf Hc Ha.
    pose proof Hm as Hm'. destruct Hm' as [Mr Msp Mspu Msp4 Mgp Mmem Mcode Ml].
    unfold Ph2Sem.exec in He. unfold regs_ok, arm_insns, arm_size, div_regs_ok in *.
    cbn [c_spill c_char arm_conv] in He. unfold arm_spill in He.
    destruct (p_op i) eqn:Eop; try discriminate Hs; cbn [uses_dest uses_src0 uses_src1] in *;
    repeat match type of He with
    | context [match rg s ?j with _ => _ end] =>
        let E := fresh "Er" in let v := fresh "v" in destruct (rg s j) as [v|] eqn:E; [|discriminate];
        let R := fresh "Rr" in let U := fresh "Uu" in
        pose proof (rg_some _ _ _ E) as R; destruct (Mr _ _ E) as [? U]
    | (if (0 <=? ?d) && (?d <? 8) then _ else _) = _ =>
        let E := fresh "Ed" in destruct ((0 <=? d) && (d <? 8)) eqn:E; [apply dst_ok_vreg in E|discriminate]
    end; cbn [c_unop c_binop] in He; try discriminate He;
    repeat match type of He with
    | context [match rg s ?j with _ => _ end] =>
        let E := fresh "Er" in let v := fresh "v" in destruct (rg s j) as [v|] eqn:E; [|discriminate];
        let R := fresh "Rr" in let U := fresh "Uu" in
        pose proof (rg_some _ _ _ E) as R; destruct (Mr _ _ E) as [? U]
    | (if touches_code ?L ?d ?n then _ else _) = _ =>
        let E := fresh "Et" in destruct (touches_code L d n) eqn:E; [discriminate|]
    end;
    cbn [existsb apply_spill fold_left] in He;
    try (pose proof (fun m Hw => Hc m Hw ltac:(unfold vreg in *; repeat split; intros; try discriminate; tauto)) as Hcm;
         clear Hc; pose proof (Hcm m Mcode) as Hc).
    all: try (destruct Hz as [Hz|Hz]; [discriminate Hz|]).
    Ltac dfin He := injection He as <- <-; split; [reflexivity|]; split; [reflexivity|];
      split; [reflexivity|]; apply good_def; [assumption|assumption|].
    Ltac mfin He := injection He as <- <-; split; [reflexivity|]; split; [reflexivity|];
      split; [reflexivity|].
    - (* assign *) dfin He.
      destruct (one_def m a (p_dest i) MOV 0 (rR (p_src0 i)) x f) as (x' & R & E & P);
        auto; try lia; try (cbn; lia).
      exists x'. split; [exact R|]. split; [|exact P]. rewrite E. cbn [xop yval]. congruence.
    - (* load_constant *) dfin He. destruct (p_src0 i <? 0) eqn:E0; [|destruct (p_src0 i >? 255) eqn:E1].
      + apply neg_def; auto.
      + apply li_def; auto.
      + destruct (one_def m a (p_dest i) MOV 0 (OImm (p_src0 i) 0) x f) as (x' & R & E & P);
          auto; try lia; try (cbn; lia).
        exists x'. split; [exact R|]. split; [exact E|exact P].
    - (* load_data_address *) dfin He.
      destruct (li_def m a (p_dest i) (iadd (p_src0 i) (e_data e)) x f) as (x' & R & E & P); auto.
      exists x'. split; [exact R|]. split; [|exact P]. rewrite E, HLd.
      unfold iadd. rewrite w32_wrap. f_equal. lia.
    - (* address_of_func *)
      destruct (callee_of p (p_func i)) as [c|] eqn:Ec; [|discriminate].
      destruct (touches_code L v 4) eqn:Et; [discriminate|].
      destruct (Hf c eq_refl) as (o & Eo & El). rewrite Eo in *. mfin He.
      unfold mov32_insns in *. cbn [app] in *.
      eexists _, _, _. split; [|split].
      + start a. stp. stp. stp. fin.
      + autox. rewrite movw_movt.
        match goal with |- mcore _ _ ?M => replace M with (stw (s_mem s) v (l_faddr L c)) end.
        * apply (mcore_mem s x m); auto.
          -- apply code_stw; auto. rewrite <- Mmem. exact Mcode.
          -- prestac.
        * rewrite <- Mmem. symmetry. apply stw_cong.
          -- f_equal. lia.
          -- rewrite w32_idem, El. apply w32_wrap.
      + prestac.
    - (* load_func *) mfin He.
      eexists _, _, _. split; [|split].
      + start a. stp. fin.
      + autox. constructor; cbn [s_reg s_sp s_mem s_latch s_pt s_stk]; auto.
        * intros j w E. apply rg_some in E. destruct E as [? E]. cbn in E.
          rewrite aset_other by lia. apply Mr. rewrite rg_in by assumption. exact E.
        * intros w E. injection E as <-. rewrite aset_same. rewrite H.
          split; [apply w32_id|]; assumption.
      + prestac.
    - (* address_of *) dfin He. rewrite <- Msp. destruct (p_src0 i >? 255) eqn:E1.
      + apply li_add_def; auto.
      + destruct (p_src0 i >=? 0) eqn:E2; [|congruence].
        apply (one_def m a (p_dest i) ADD 13 (OImm (p_src0 i) 0) x f); auto; try lia; try (cbn; lia).
    - (* global_address_of *) dfin He. rewrite <- Mgp. destruct (p_src0 i >? 255) eqn:E1.
      + apply li_add_def; auto.
      + destruct (p_src0 i >=? 0) eqn:E2; [|congruence].
        apply (one_def m a (p_dest i) ADD 12 (OImm (p_src0 i) 0) x f); auto; try lia; try (cbn; lia).
    - (* load *) dfin He. rewrite <- Msp, <- Mmem. destruct (p_src0 i >? 4095).
      + apply li_load_def; auto.
      + apply (load_def m a false); auto; lia.
    - (* global_load *) dfin He. rewrite <- Mgp, <- Mmem. destruct (p_src0 i >? 4095).
      + apply li_load_def; auto.
      + apply (load_def m a false); auto; lia.
    - (* store *) mfin He. destruct (p_src1 i >? 4095).
      + destruct (li_store_run m a 13 (p_src0 i) (p_src1 i) x f) as (x' & R & P); auto; [unfold vreg; lia|].
        eexists _, _, _. split; [exact R|]. split.
        * rewrite H, Msp, Mmem. rewrite Mmem in Hm, Mcode. apply (mcore_mem s x (s_mem s)); auto. apply code_stw; auto.
        * apply P. unfold visible; lia.
      + eexists _, _, _. split; [apply (store_run m a false 13 (p_src0 i) (p_src1 i) x f); try assumption; lia|]. split; [|reflexivity].
        cbv iota. rewrite H, Msp, Mmem. rewrite Mmem in Hm, Mcode.
        apply (mcore_mem s x (s_mem s)); auto. apply code_stw; auto.
    - (* global_store *) mfin He. destruct (p_src1 i >? 4095).
      + destruct (li_store_run m a 12 (p_src0 i) (p_src1 i) x f) as (x' & R & P); auto; [unfold vreg; lia|].
        eexists _, _, _. split; [exact R|]. split.
        * rewrite H, Mgp, Mmem. rewrite Mmem in Hm, Mcode. apply (mcore_mem s x (s_mem s)); auto. apply code_stw; auto.
        * apply P. unfold visible; lia.
      + eexists _, _, _. split; [apply (store_run m a false 12 (p_src0 i) (p_src1 i) x f); try assumption; lia|]. split; [|reflexivity].
        cbv iota. rewrite H, Mgp, Mmem. rewrite Mmem in Hm, Mcode.
        apply (mcore_mem s x (s_mem s)); auto. apply code_stw; auto.
    - (* read *) destruct (p_src1 i =? 1) eqn:E1; [|destruct (p_src1 i =? 4) eqn:E4; [|discriminate]].
      + dfin He. destruct (load_def m a true (p_dest i) (p_src0 i) 0 x f) as (x' & R & E & P);
          auto; [lia|]. exists x'. split; [exact R|]. split; [|exact P].
        rewrite E. rewrite Z.add_0_r, H, Mmem. reflexivity.
      + dfin He. destruct (load_def m a false (p_dest i) (p_src0 i) 0 x f) as (x' & R & E & P);
          auto; [lia|]. exists x'. split; [exact R|]. split; [|exact P].
        rewrite E. rewrite Z.add_0_r, H, Mmem. reflexivity.
    - (* write *) destruct (p_dest i =? 1) eqn:E1; [|destruct (p_dest i =? 4) eqn:E4; [|discriminate]].
      + destruct (touches_code L v 1) eqn:Et; [discriminate|]. mfin He.
        eexists _, _, _. split; [apply (store_run m a true (p_src0 i) (p_src1 i) 0 x f); try assumption; lia|]. split; [|reflexivity].
        cbv iota. rewrite Z.add_0_r, H, H0, Mmem in *. apply (mcore_mem s x (s_mem s)); auto.
        apply code_stb; auto.
      + destruct (touches_code L v 4) eqn:Et; [discriminate|]. mfin He.
        eexists _, _, _. split; [apply (store_run m a false (p_src0 i) (p_src1 i) 0 x f); try assumption; lia|]. split; [|reflexivity].
        cbv iota. rewrite Z.add_0_r, H, H0, Mmem in *. apply (mcore_mem s x (s_mem s)); auto.
        apply code_stw; auto.
    Ltac rng := try assumption; try (unfold vreg in *; lia).
    Ltac sv := repeat match goal with H : ?f _ = ?w |- _ => is_var w; is_var f; subst w end.
    - sv; dfin He. apply armop_add; rng.
    - sv; dfin He. apply armop_sub; rng.
    - sv; dfin He. apply armop_mul; rng.
    - sv. assert (Hnz : s32 (x (p_src1 i)) <> 0).
      { destruct (Z.eqb_spec (s32 (x (p_src1 i))) 0) as [|Nz]; [|assumption].
        destruct (existsb _ _); discriminate. }
      destruct (Z.eqb_spec (s32 (x (p_src1 i))) 0) as [|Nz]; [contradiction|].
      destruct (e_hard e).
      + cbn [existsb apply_spill fold_left] in He. dfin He. apply armop_div; rng.
      + destruct (existsb _ _) eqn:Et; [discriminate|]. mfin He.
        apply (good_div false s nxt (p_dest i) (p_src0 i) (p_src1 i)); rng. apply Hdv; auto.
    - sv. assert (Hnz : s32 (x (p_src1 i)) <> 0).
      { destruct (Z.eqb_spec (s32 (x (p_src1 i))) 0) as [|Nz]; [|assumption].
        destruct (existsb _ _); discriminate. }
      destruct (Z.eqb_spec (s32 (x (p_src1 i))) 0) as [|Nz]; [contradiction|].
      destruct (e_hard e).
      + cbn [existsb apply_spill fold_left] in He. dfin He. apply armop_mod; rng.
      + destruct (existsb _ _) eqn:Et; [discriminate|]. mfin He.
        apply (good_div true s nxt (p_dest i) (p_src0 i) (p_src1 i)); rng. apply Hdv; auto.
    - sv; destruct ((0 <=? s32 (x (p_src1 i))) && (s32 (x (p_src1 i)) <? 32)) eqn:Es; [|discriminate].
      dfin He. apply armop_lshift; rng.
    - sv; destruct ((0 <=? s32 (x (p_src1 i))) && (s32 (x (p_src1 i)) <? 32)) eqn:Es; [|discriminate].
      dfin He. apply armop_rshift; rng.
    - sv; dfin He. apply (armop_lognot m a (p_dest i) (p_src0 i) (p_src1 i)); rng.
    - sv; dfin He. apply armop_eq; rng.
    - sv; dfin He. apply armop_neq; rng.
    - sv; dfin He. apply armop_lt; rng.
    - sv; dfin He. apply armop_leq; rng.
    - sv; dfin He. apply armop_gt; rng.
    - sv; dfin He. apply armop_geq; rng.
    - sv; dfin He. apply armop_or; rng.
    - sv; dfin He. apply armop_and; rng.
    - sv; dfin He. apply armop_xor; rng.
    - sv; dfin He. apply (armop_bitnot m a (p_dest i) (p_src0 i) (p_src1 i)); rng.
    - sv; dfin He. apply (armop_negate m a (p_dest i) (p_src0 i) (p_src1 i)); rng.
  Qed.
End Sim.
