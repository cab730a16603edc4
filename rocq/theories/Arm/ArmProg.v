(** Whole programs: the code image produced for a phase-2 IR program, run on the
    ARMv7-A machine, does what the IR program does. *)
From Verif.Base Require Import Int32 Mem MemProofs Bits.
From Verif.Ir Require Import Ph2 Ph2Sem Layout.
From Verif.Ir Require Export ProgUtil.
From Verif.Arm Require Import ArmISA ArmEnc ArmEncProofs ArmGen ArmExec ArmOps ArmSoft ArmEmit ArmSim.

(** the ARM memory layout of a compiled program *)
Definition arm_layout (hard : bool) (p : program) (cs : Z) (n : nat) : layout :=
  mklayout cs (cs + 4 * Z.of_nat n) (cs + 4 * Z.of_nat n)
    (fun c => match c with CSys => cs + 44 | CFun f => cs + func_off arm_target hard p f end)
    (fun pt => cs + point_off arm_target hard p pt).

(** what the ARM back end needs of an instruction: no move of a register to
    itself, and an emulated division only between two registers *)
Definition arm_insn_ok (hard : bool) (i : ph2) : Prop :=
  (p_op i = OP_assign -> p_dest i <> p_src0 i) /\ div_regs_ok hard i.

(** ... and of a conditional branch: it ends its block, and the block laid out
    next is one of its two targets *)
Definition branch_placed (p : program) : Prop :=
  forall f fn b bl k i, nth_error (p_funcs p) f = Some fn ->
    nth_error (f_blocks fn) b = Some bl -> nth_error (b_insns bl) k = Some i ->
    p_op i = OP_branch ->
    S k = length (b_insns bl) /\ p_det i = false /\
    exists bl', nth_error (f_blocks fn) (S b) = Some bl' /\
      (p_else i = b_id bl' \/ p_then i = b_id bl').

(** trace-producing execution *)
Definition arm_to (os : osspec) (r : armstate) (t : list event) (r' : armstate) : Prop :=
  exists n, arm_run os n r = (t, ARunning r').

Lemma arm_run_steps os n r r' : arm_steps n r = Some r' ->
  forall k, arm_run os (n + k) r = arm_run os k r'.
Proof.
  revert r. induction n as [|n IH]; cbn; intros r H k.
  - inversion H; reflexivity.
  - destruct (arm_step r); try discriminate. auto.
Qed.

Lemma arm_run_app os n r t r' : arm_run os n r = (t, ARunning r') ->
  forall k, arm_run os (n + k) r = (t ++ fst (arm_run os k r'), snd (arm_run os k r')).
Proof.
  revert r t. induction n as [|n IH]; cbn [arm_run plus]; intros r t H k.
  - inversion H; subst. destruct (arm_run os k r'); reflexivity.
  - destruct (arm_step r) as [r1|r1|]; [eauto| |discriminate].
    destruct (os_call os _ _ _) as [[v m']|]; [|discriminate].
    destruct (arm_run os n _) as [t1 st1] eqn:E. inversion H; subst.
    rewrite (IH _ _ E k). reflexivity.
Qed.

Lemma star_to os r r' : arm_star r r' -> arm_to os r [] r'.
Proof.
  intros [n H]. exists n. replace n with (n + 0)%nat by lia.
  rewrite (arm_run_steps _ _ _ _ H). reflexivity.
Qed.
Lemma to_trans os r t r1 t' r2 : arm_to os r t r1 -> arm_to os r1 t' r2 -> arm_to os r (t ++ t') r2.
Proof. intros [n H] [k Hk]. exists (n + k)%nat. rewrite (arm_run_app _ _ _ _ _ H), Hk. reflexivity. Qed.

Section Prog.
  Variable p : program.
  Variable hard : bool.
  Variable os : osspec.
  Variable sp0 : Z.
  Variable e : env.
  Variables (cs : Z) (ws : list Z).

  (** what the theorem asks of the program and its placement *)
  Record arm_ok : Prop := {
    ro_gen : code_generate arm_target hard p cs = Some (e, ws);
    ro_ne : Forall (fun f => f_blocks f <> []) (p_funcs p);
    ro_ids : NoDup (p_sysbb p :: g_bb p :: allids (p_funcs p));
    ro_cs : 0 <= cs /\ cs mod 4 = 0 /\ cs + 4 * Z.of_nat (length ws) < 4294967296;
    ro_len : 4 * Z.of_nat (length ws) <= 33554000;
    ro_si : Forall (arm_insn_ok hard) (g_insns p);
    ro_sf : Forall (fun f => Forall (fun b => Forall (arm_insn_ok hard) (b_insns b)) (f_blocks f)) (p_funcs p);
    ro_br : branch_placed p;
    ro_4 : sp0 mod 4 = 0 /\ g_stack p mod 4 = 0 /\ Forall (fun f => f_stack f mod 4 = 0) (p_funcs p) }.
  Hypothesis OK : arm_ok.

  Definition gpv := w32 (sp0 - g_stack p).
  Notation L := (arm_layout hard p cs (length ws)).
  Definition keeps (m : mem) : bool := words_atb m cs ws.
  Notation exec := (exec p L (arm_conv hard) os gpv keeps).
  Notation step := (step p L (arm_conv hard) os gpv keeps).
  Notation enter := (enter p L (arm_conv hard) os keeps).
  Notation off := (point_off arm_target hard p).
  Notation foff := (func_off arm_target hard p).

  Lemma arm_sizes_ok i : arm_insn_ok hard i -> size_ok arm_target hard i.
  Proof. intros [Hm _] e' pos n w <- Hs He. eapply arm_size_ok; eauto. Qed.

  Lemma adjust_ok stk nxt i : arm_insn_ok hard i -> arm_insn_ok hard (fl_adjust true stk nxt i).
  Proof.
    unfold arm_insn_ok, div_regs_ok, fl_adjust. destruct i as [o s0 s1 d fn nx th el dt]. cbn.
    destruct o; cbn; auto.
    - intros _. split; [|intros [|]]; discriminate.
    - intros _. destruct nxt as [b|]; [destruct (el =? b)|]; (split; [|intros [|]]; discriminate).
  Qed.

  Lemma adjs_ok stk bs : Forall (fun b => Forall (arm_insn_ok hard) (b_insns b)) bs ->
    Forall (arm_insn_ok hard) (concat (adjs arm_target stk bs)).
  Proof.
    induction bs as [|b r IH]; cbn [adjs concat]; intros H; [constructor|].
    inversion H as [|? ? Hb Hr]; subst. apply Forall_app. split; [|auto].
    rewrite Forall_forall in *. intros i Hi. apply in_map_iff in Hi. destruct Hi as (j & <- & Hj).
    apply adjust_ok. auto.
  Qed.

  Lemma arm_layout_facts : layout_facts arm_target hard p cs e ws.
  Proof.
    destruct OK. apply layout_ok; auto.
    - eapply Forall_impl; [|exact ro_si0]. intros; apply arm_sizes_ok; assumption.
    - eapply Forall_impl; [|exact ro_sf0]. intros f Hf. cbv beta in Hf.
      eapply Forall_impl; [|apply adjs_ok; exact Hf]. intros; apply arm_sizes_ok; assumption.
    - intros e' g o w H. apply emits_length in H. rewrite H. reflexivity.
    - intros e' q g o w H. apply emits_length in H. exact H.
    - intros e' q stk w H. eapply arm_define_size; eauto. reflexivity.
  Qed.
  Let LF := arm_layout_facts.

  Definition okoff (o : Z) : Prop := 0 <= o <= 4 * Z.of_nat (length ws) /\ o mod 4 = 0.

  Lemma placed_okoff o : placed ws o [] -> okoff o.
  Proof. intros H. apply placed_bounds in H. cbn [length] in H. unfold okoff. lia. Qed.
  Lemma placed_okoff' o w : placed ws o w -> okoff o /\ okoff (o + 4 * Z.of_nat (length w)).
  Proof. intros H. apply placed_bounds in H. unfold okoff. lia. Qed.

  Lemma stub_len : 80 <= 4 * Z.of_nat (length ws).
  Proof.
    destruct (lf_stub _ _ _ _ _ _ LF) as (w & Ew & Pw). apply placed_bounds in Pw.
    cbn [t_stubs arm_target] in Ew. apply emits_length in Ew. rewrite Ew in Pw. cbn [length app mov32] in Pw. lia.
  Qed.

  Lemma foff_ok f fn : nth_error (p_funcs p) f = Some fn -> okoff (foff f).
  Proof.
    intros H. destruct (lf_def _ _ _ _ _ _ LF _ _ H) as (w & _ & Pw & _).
    apply placed_okoff' in Pw. tauto.
  Qed.

  Lemma bb_ok id : okoff (e_bb e id).
  Proof.
    destruct (in_dec Z.eq_dec id (allids (p_funcs p))) as [Hin|Hni].
    - unfold allids in Hin. apply in_concat in Hin. destruct Hin as (l & Hl & Hid).
      apply in_map_iff in Hl. destruct Hl as (fn & <- & Hfn).
      apply in_map_iff in Hid. destruct Hid as (bl & <- & Hbl).
      apply In_nth_error in Hfn. destruct Hfn as [f Hf].
      apply In_nth_error in Hbl. destruct Hbl as [b Hb].
      rewrite (lf_bb _ _ _ _ _ _ LF _ _ _ _ Hf Hb). destruct b.
      + eapply foff_ok; eauto.
      + apply placed_okoff. eapply (lf_cut_f _ _ _ _ _ _ LF); eauto. lia.
    - pose proof stub_len.
      destruct (lf_rest _ _ _ _ _ _ LF _ Hni) as [-> | [-> | ->]]; unfold okoff; cbn [t_sysofs t_globofs arm_target]; lia.
  Qed.

  Lemma callee_fn n c : callee_of p n = Some c ->
    exists o, e_fn e n = Some o /\ l_faddr L c = cs + o /\ okoff o.
  Proof.
    unfold callee_of. rewrite (lf_fn _ _ _ _ _ _ LF). unfold find_entry.
    destruct (n =? p_sysname p).
    - intros H. inversion H; subst. cbn. exists (e_bb e (p_sysbb p)).
      rewrite (lf_sys _ _ _ _ _ _ LF). pose proof stub_len. unfold okoff. repeat split; cbn [t_sysofs t_globofs arm_target arm_layout l_faddr]; lia.
    - destruct (find_idx _ (p_funcs p)) as [f|] eqn:E; [|discriminate].
      intros H. inversion H; subst. destruct (find_idx_spec _ _ _ E) as (fn & Hf & _ & ->).
      assert (f_blocks fn <> []) as Hn.
      { pose proof (ro_ne OK) as Hne. rewrite Forall_forall in Hne. apply Hne. eapply nth_error_In; eauto. }
      destruct (f_blocks fn) as [|b0 r] eqn:Eb; [congruence|]. cbn.
      exists (e_bb e (b_id b0)). assert (nth_error (f_blocks fn) 0 = Some b0) as Hb by (rewrite Eb; reflexivity).
      rewrite (lf_bb _ _ _ _ _ _ LF _ _ _ _ Hf Hb). repeat split; auto; apply (foff_ok _ _ Hf).
  Qed.

  Notation mcore := (mcore gpv cs ws).

  Definition okpt (pt : point) : Prop := okoff (off pt).

  (** a legal return point (never inside the global initialiser) *)
  Definition okret (pt : point) : Prop :=
    okpt pt /\ match pt with PInit _ => False | _ => True end.

  Record mst (s : st) (r : armstate) : Prop := {
    ms_pc : apc r = cs + off (s_pt s);
    ms_core : mcore s (ax r) (am r);
    ms_pt : okpt (s_pt s);
    ms_stk : Forall okret (s_stk s);
    ms_ra : match s_pt s with PInit _ => ax r 14 = cs + 20 | _ => True end }.

  Lemma okoff_range o : okoff o -> w32 (cs + o) = cs + o /\ (cs + o) mod 4 = 0.
  Proof. destruct OK. unfold okoff, w32. intros. lia. Qed.

  Lemma arange_placed o w : placed ws o w -> arange (cs + o) (length w).
  Proof.
    intros H. apply placed_bounds in H. destruct OK. unfold arange. lia.
  Qed.

  (** the instructions found at a point *)
  Lemma jumps_here o i w : arm_emit e o i = Some w -> placed ws o w -> jumps_ok e o i.
  Proof.
    intros He Hp. pose proof (placed_okoff' _ _ Hp) as (Ho & Ho2). pose proof (ro_len OK) as Hl.
    assert (forall id, okoff (e_bb e id)) as Hbb by apply bb_ok.
    unfold jumps_ok, joff_ok, okoff in *. destruct (p_op i); auto.
    - intros o' Eo. rewrite (lf_fn _ _ _ _ _ _ LF) in Eo.
      destruct (find_entry p (p_func i)) as [id|]; [|discriminate]. cbn in Eo.
      inversion Eo; subst. specialize (Hbb id). lia.
    - pose proof (Hbb (p_else i)). pose proof (Hbb (p_then i)). lia.
    - specialize (Hbb (p_next i)). lia.
  Qed.

  Definition sized' (i : ph2) : Prop := p_op i = OP_define \/ arm_size hard i <> None.

  Lemma code_here m o i w : words_at m cs ws -> arm_emit e o i = Some w -> placed ws o w ->
    sized' i -> regs_ok i ->
    code_at m (cs + o) (arm_insns e o i) /\ arange (cs + o) (length (arm_insns e o i)) /\
    length w = length (arm_insns e o i).
  Proof.
    intros Hm He Hp Hz Hr. pose proof (jumps_here _ _ _ He Hp) as Hj.
    unfold sized' in Hz. rewrite <- (lf_hard _ _ _ _ _ _ LF) in Hz.
    destruct (arm_emit_code _ _ _ _ He Hr Hj Hz) as (Hlen & Hcode).
    rewrite <- Hlen. split; [|split; [|reflexivity]].
    - apply Hcode. eapply placed_words; eauto.
    - apply (arange_placed _ _ Hp).
  Qed.

  (** length of the emitted code does not depend on register fields *)
  Lemma emit_len o i w : arm_emit e o i = Some w -> length w = length (arm_insns e o i).
  Proof.
    unfold arm_emit, arm_insns, mov32_insns, arm_bin_insns. intros He.
    destruct (p_op i) eqn:Eop; try discriminate;
    repeat match type of He with
    | (if ?c then _ else _) = _ => destruct c
    | (match ?c with _ => _ end) = _ => destruct c eqn:?
    end; try discriminate; apply emits_length in He; rewrite He; reflexivity.
  Qed.

  Lemma pc2 a n c d c' : arange a n -> c + d = c' -> 0 <= c' <= 4 * Z.of_nat n ->
    w32 (a + c + d) = a + c'.
  Proof. apply pc_norm. Qed.

  (** ** entering a function *)
  Lemma enter_fun s f ret t s' x fl m :
    mcore s x m -> Forall okret (s_stk s) -> okret ret ->
    x 14 = cs + off ret ->
    enter s (CFun f) ret = Ok t s' ->
    t = [] /\ exists r', arm_star (mkarm (cs + foff f) x fl m) r' /\ mst s' r'.
  Proof.
    intros Hm Hstk [Hret Hni] Hra He. cbn [Ph2Sem.enter] in He.
    destruct (nth_error (p_funcs p) f) as [fn|] eqn:Hf; [|discriminate].
    destruct (touches_code _ _ 4) eqn:Et; [discriminate|].
    injection He as <- <-. split; [reflexivity|].
    destruct (lf_def _ _ _ _ _ _ LF _ _ Hf) as (w & Ew & Pw & Lw).
    pose proof Hm as [Mr Msp Mspu Msp4 Mgp Mmem Mcode Ml].
    destruct (code_here _ _ _ _ Mcode Ew Pw) as (Hc & Ha & _).
    { left. reflexivity. }
    { unfold regs_ok; cbn. repeat split; intros; discriminate. }
    assert (Hw' : words_at (stw m (x 13 + -4) (x 14)) cs ws).
    { cbn [c_slot arm_conv] in Et.
      assert (stw m (x 13 + -4) (x 14) =
        stw m (w32 (s_sp s - (f_stack fn + 4)) + f_stack fn) (x 14)) as ->.
      { apply stw_cong; [|reflexivity]. rewrite w32_add_l, Msp. f_equal. lia. }
      eapply code_stw; eauto; destruct OK; cbn; tauto. }
    destruct (code_here _ _ _ _ Hw' Ew Pw) as (Hc' & _ & _).
    { left. reflexivity. }
    { unfold regs_ok; cbn. repeat split; intros; discriminate. }
    unfold arm_insns, mov32_insns in Hc, Hc', Ha. cbn [define_ir p_op p_src0 app] in Hc, Hc', Ha.
    set (a := cs + foff f) in *. set (v := iadd (f_stack fn) 4) in *.
    cbn [c_slot arm_conv] in Et |- *.
    eexists. split.
    - start a. eapply (star_at m); [exact Hc|exact Ha|reflexivity|lia|reflexivity|apply ex_str; lia|].
      pcs. eapply (star_at _ _ _ 4); [exact Hc'|exact Ha|reflexivity|lia|reflexivity|exe|].
      pcs. eapply (star_at _ _ _ 8); [exact Hc'|exact Ha|reflexivity|lia|reflexivity|exe|].
      pcs. eapply (star_at _ _ _ 12); [exact Hc'|exact Ha|reflexivity|lia|reflexivity|exe|].
      pcs. apply arm_star_refl.
    - cbn [xop yval]. autox. rewrite movw_movt.
      assert (w32 (x 13 - w32 v) = w32 (s_sp s - (f_stack fn + 4))) as Esp.
      { rewrite w32_sub_r. rewrite Msp.
        unfold v, iadd. rewrite <- (w32_sub_r _ (wrap _)), w32_wrap, w32_sub_r. reflexivity. }
      set (sp' := w32 (s_sp s - (f_stack fn + 4))) in *.
      assert (Esl : stw m (x 13 + -4) (x 14) = stw (s_mem s) (sp' + f_stack fn) (cs + off ret)).
      { rewrite <- Mmem, Hra. apply stw_cong; [|reflexivity]. unfold sp'. rewrite w32_add_l, Msp. f_equal. lia. }
      constructor; cbn [s_pt s_stk apc ax am].
      + unfold a. cbn [point_off]. rewrite Hf. unfold block_off. cbn [firstn].
        change (szs arm_target hard (concat [])) with 0.
        destruct (nth_error (f_blocks fn) 0); cbn [firstn]; try change (szs arm_target hard []) with 0; lia.
      + constructor; cbn [s_reg s_sp s_mem s_latch s_pt s_stk].
        * intros j z E. apply rg_some in E. destruct E as [? E]. cbn in E. xsimp.
          apply Mr. rewrite rg_in by assumption. exact E.
        * xsimp. exact Esp.
        * apply w32_range.
        * pose proof (ro_4 OK) as (_ & _ & H4). rewrite Forall_forall in H4.
          specialize (H4 _ (nth_error_In _ _ Hf)). subst sp'. unfold w32. lia.
        * xsimp. exact Mgp.
        * rewrite Esl. reflexivity.
        * exact Hw'.
        * discriminate.
      + unfold okpt. destruct (placed_okoff' _ _ Pw) as (_ & Ho). rewrite Lw in Ho.
        cbn [point_off]. rewrite Hf. unfold block_off. cbn [firstn].
        change (szs arm_target hard (concat [])) with 0.
        destruct (nth_error (f_blocks fn) 0); cbn [firstn]; try change (szs arm_target hard []) with 0;
          (replace (foff f + (16 + 0) + 0) with (foff f + 4 * Z.of_nat 4) by lia; exact Ho).
      + constructor; auto. split; auto.
      + exact I.
  Qed.

  (** ** system calls *)
  Lemma stub_code m : words_at m cs ws ->
    exists is, code_at m cs is /\ arange cs (length is) /\ length is = 20%nat /\
      is = mov32_insns 8 (g_stack p) ++
        [(AL, ADp SUB false 13 13 (rR 8)); (AL, ADp MOV false 12 0 (rR 13)); (AL, ABl 56)] ++
        mov32_insns 8 (g_stack p) ++
        [(AL, ADp ADD false 13 13 (rR 8)); (AL, ADp MOV false 0 0 (rR 0));
         (AL, ADp MOV false 7 0 (OImm 1 0)); (AL, ASvc 0);
         (AL, ADp MOV false 7 0 (rR 0)); (AL, ADp MOV false 0 0 (rR 1));
         (AL, ADp MOV false 1 0 (rR 2)); (AL, ADp MOV false 2 0 (rR 3));
         (AL, ADp MOV false 3 0 (rR 4)); (AL, ADp MOV false 4 0 (rR 5));
         (AL, ADp MOV false 5 0 (rR 6)); (AL, ASvc 0); (AL, ADp MOV false 15 0 (rR 14))].
  Proof.
    intros Hm. destruct (lf_stub _ _ _ _ _ _ LF) as (w & Ew & Pw).
    cbn [t_stubs arm_target] in Ew. unfold arm_stubs in Ew. rewrite (lf_gbb _ _ _ _ _ _ LF) in Ew.
    eexists. split; [|split; [|split; [|reflexivity]]].
    - refine (proj2 (emits_some _ _ _ _ _ Ew) m cs _).
      + cbn [app mov32 mov32_insns encs t_globofs arm_target].
        repeat match goal with |- _ /\ _ => split end; try exact I; try enc1.
        all: try (left; repeat split; regs4).
      + pose proof (placed_words _ _ _ _ _ Hm Pw) as Hw. rewrite Z.add_0_r in Hw. exact Hw.
    - destruct OK. unfold arange. pose proof stub_len. cbn. lia.
    - reflexivity.
  Qed.

  Lemma exec_ecall r s' :
    arm_step r = ASvcall s' ->
    forall num args, num = ax r 7 -> args = firstn (os_nargs os num) (arm_sys_args r) ->
    forall v m', os_call os num args (am r) = Some (v, m') ->
    arm_to os r [(num, args)] (mkarm (apc s') (aset (ax s') 0 v) (af s') m').
  Proof.
    intros Hs num args En Ea v m' Ho. exists 1%nat. cbn [arm_run]. rewrite Hs.
    rewrite <- En, <- Ea, Ho. reflexivity.
  Qed.

  Lemma firstn_some (s : st) x n : mcore s x (s_mem s) ->
    forallb is_some (firstn n (map (rg s) [1; 2; 3; 4; 5; 6])) = true ->
    map (fun o => match o with Some v => v | None => 0 end) (firstn n (map (rg s) [1;2;3;4;5;6]))
    = firstn n [x 1; x 2; x 3; x 4; x 5; x 6].
  Proof.
    intros [Mr _ _ _ _ _ _ _]. cbn [map].
    assert (forall i v, rg s i = Some v -> v = x i) as R by (intros; symmetry; apply Mr; auto).
    clear Mr.
    assert (forall (os : list (option Z)) (xs : list Z), length os = length xs ->
      (forall k o, nth_error os k = Some o -> forall v, o = Some v -> nth_error xs k = Some v) ->
      forall n, forallb is_some (firstn n os) = true ->
      map (fun o => match o with Some v => v | None => 0 end) (firstn n os) = firstn n xs) as G.
    { induction os0 as [|o r IH]; intros [|y ys] Hl Hn k Hk; cbn in Hl; try discriminate.
      - destruct k; reflexivity.
      - destruct k; [reflexivity|]. cbn in *. apply andb_true_iff in Hk. destruct Hk as [Ho Hk].
        destruct o as [v|]; [|discriminate]. f_equal.
        + specialize (Hn O (Some v) eq_refl v eq_refl). cbn in Hn. congruence.
        + apply IH; auto. intros j o Hj v' E. apply (Hn (S j) o Hj v' E). }
    intros H. apply G; auto.
    intros k o E v ->.
    assert (k < 6)%nat as Hk by (change 6%nat with (length [rg s 1; rg s 2; rg s 3; rg s 4; rg s 5; rg s 6]);
      apply nth_error_Some; congruence).
    destruct k as [|[|[|[|[|[|k]]]]]]; [..|lia]; cbn in E |- *; injection E as E; f_equal; symmetry;
      [apply (R 1)|apply (R 2)|apply (R 3)|apply (R 4)|apply (R 5)|apply (R 6)]; exact E.
  Qed.

  Lemma sys_prep m x fl : words_at m cs ws ->
    exists x', arm_star (mkarm (cs + 44) x fl m) (mkarm (cs + 72) x' fl m) /\
      x' 7 = w32 (x 0) /\
      [x' 0; x' 1; x' 2; x' 3; x' 4; x' 5] = map w32 [x 1; x 2; x 3; x 4; x 5; x 6] /\
      x' 14 = x 14 /\ x' 13 = x 13 /\ x' 12 = x 12.
  Proof.
    intros Hm. destruct (stub_code _ Hm) as (is & Hc & Ha & Hl & Eis).
    rewrite Eis in Hc, Ha. cbn [app mov32_insns] in Hc, Ha.
    eexists. split; [|].
    - stp. stp. stp. stp. stp. stp. stp. apply arm_star_refl.
    - cbn [xop yval]. autox. repeat split.
  Qed.

  Lemma ex_ret pc x fl m : x 14 mod 4 = 0 -> is_u32 (x 14) ->
    arm_exec (AL, ADp MOV false 15 0 (rR 14)) (mkarm pc x fl m) = ANext (mkarm (x 14) x fl m).
  Proof.
    intros H U. unfold arm_exec. cbn [fst snd af cond_ok arm_exec1]. cbn [op2_eval].
    unfold shift_c. change (0 =? 0) with true. cbv iota. cbn [dp_eval is_test].
    change (15 =? 15) with true. cbv iota. rewrite aget_reg by lia. rewrite w32_id by assumption.
    unfold bx. rewrite H. reflexivity.
  Qed.

  Lemma sys_args s x n : mcore s x (s_mem s) ->
    forallb is_some (firstn n (map (rg s) [1; 2; 3; 4; 5; 6])) = true ->
    firstn n (map w32 [x 1; x 2; x 3; x 4; x 5; x 6]) = firstn n [x 1; x 2; x 3; x 4; x 5; x 6].
  Proof.
    intros Hm Efa. pose proof (firstn_some s x n Hm Efa) as Eargs. destruct Hm as [Mr _ _ _ _ _ _ _].
    rewrite firstn_map, <- Eargs, map_map. apply map_ext_in. intros o Ho.
    assert (exists q, o = rg s q) as (q & ->).
    { assert (In o (map (rg s) [1; 2; 3; 4; 5; 6])) as Hi.
      { rewrite <- (firstn_skipn n). apply in_or_app. left. exact Ho. }
      apply in_map_iff in Hi. destruct Hi as (q & <- & _). eauto. }
    destruct (rg s q) as [z|] eqn:Eq; [|reflexivity].
    apply w32_id. apply (Mr _ _ Eq).
  Qed.

  Lemma enter_sys s ret t s' x fl m :
    mcore s x m -> Forall okret (s_stk s) -> okret ret ->
    x 14 = cs + off ret ->
    enter s CSys ret = Ok t s' ->
    exists r', arm_to os (mkarm (cs + 44) x fl m) t r' /\ mst s' r'.
  Proof.
    intros Hm Hstk [Hret Hni] Hra He. cbn [Ph2Sem.enter] in He.
    pose proof Hm as [Mr Msp Mspu Msp4 Mgp Mmem Mcode Ml].
    destruct (rg s 0) as [num|] eqn:E0; [|discriminate]. destruct (Mr _ _ E0) as (Ex0 & Un).
    destruct (os_nargs os num <=? 6)%nat eqn:En6; [|discriminate].
    destruct (forallb is_some _) eqn:Efa; [|discriminate].
    assert (Hm0 : mcore s x (s_mem s)) by (rewrite <- Mmem; exact Hm).
    pose proof (firstn_some s x (os_nargs os num) Hm0 Efa) as Eargs.
    rewrite Eargs in He.
    destruct (os_call os num _ _) as [[v m']|] eqn:Ecall; [|discriminate].
    destruct (keeps m') eqn:Ek; [|discriminate]. injection He as <- <-.
    destruct (sys_prep _ x fl Mcode) as (x' & Hst & E7 & Ear & E14 & E13 & E12).
    destruct (stub_code _ Mcode) as (is & Hc & Ha & Hl & Eis).
    rewrite Eis in Hc, Ha. cbn [app mov32_insns] in Hc, Ha.
    apply words_atb_ok in Ek.
    destruct (stub_code _ Ek) as (is' & Hc' & Ha' & Hl' & Eis').
    rewrite Eis' in Hc', Ha'. cbn [app mov32_insns] in Hc', Ha'.
    pose proof (sys_args s x (os_nargs os num) Hm0 Efa) as Ear'. rewrite <- Ear in Ear'.
    destruct (okoff_range _ Hret) as (Ew & E4).
    assert (U14 : is_u32 (cs + off ret)) by (rewrite <- Ew; apply w32_range).
    eexists. split.
    - rewrite <- (app_nil_l [_]). eapply to_trans; [apply star_to; exact Hst|].
      rewrite <- (app_nil_r [_]). eapply to_trans.
      + eapply exec_ecall.
        * rewrite (step_at m cs _ 72 (AL, ASvc 0) x' fl Hc Ha eq_refl ltac:(lia) eq_refl). reflexivity.
        * cbn [ax]. rewrite E7, Ex0. symmetry. apply w32_id; auto.
        * unfold arm_sys_args. cbn [ax]. symmetry. exact Ear'.
        * cbn [am]. rewrite Mmem. exact Ecall.
      + apply star_to. cbn [apc ax af].
        replace (w32 (cs + 72 + 4)) with (cs + 76) by (symmetry; apply (pc_norm cs _ 72 4 76 Ha); cbn [length]; lia).
        eapply (star_at m' cs); [exact Hc'|exact Ha'|reflexivity|lia|reflexivity|apply ex_ret|apply arm_star_refl].
        * rewrite aset_other by lia. rewrite E14, Hra. exact E4.
        * rewrite aset_other by lia. rewrite E14, Hra. exact U14.
    - rewrite aset_other by lia. rewrite E14, Hra.
      constructor; cbn [apc ax am s_pt s_stk]; auto.
      + constructor; cbn [s_reg s_sp s_mem s_latch]; auto.
        * intros i z E. apply rg_some in E. destruct E as [Hi E]. cbn in E.
          destruct (Z.eqb_spec i 0); [|discriminate]. subst i. inversion E; subst.
          rewrite aset_same. split; [reflexivity|apply w32_range].
        * rewrite aset_other by lia. congruence.
        * rewrite aset_other by lia. congruence.
        * discriminate.
      + destruct ret; tauto.
  Qed.

  Lemma enter_sys_halt s ret t x fl m :
    mcore s x m -> enter s CSys ret = Halt t ->
    exists n, arm_run os n (mkarm (cs + 44) x fl m) = (t, AExited).
  Proof.
    intros Hm He. cbn [Ph2Sem.enter] in He.
    pose proof Hm as [Mr Msp Mspu Msp4 Mgp Mmem Mcode Ml].
    destruct (rg s 0) as [num|] eqn:E0; [|discriminate]. destruct (Mr _ _ E0) as (Ex0 & Un).
    destruct (os_nargs os num <=? 6)%nat eqn:En6; [|discriminate].
    destruct (forallb is_some _) eqn:Efa; [|discriminate].
    assert (Hm0 : mcore s x (s_mem s)) by (rewrite <- Mmem; exact Hm).
    pose proof (firstn_some s x (os_nargs os num) Hm0 Efa) as Eargs.
    rewrite Eargs in He.
    destruct (os_call os num _ _) as [[v m']|] eqn:Ecall; [destruct (keeps m'); discriminate|].
    injection He as <-.
    destruct (sys_prep _ x fl Mcode) as (x' & Hst & E7 & Ear & E14 & E13 & E12).
    destruct (stub_code _ Mcode) as (is & Hc & Ha & Hl & Eis).
    rewrite Eis in Hc, Ha. cbn [app mov32_insns] in Hc, Ha.
    pose proof (sys_args s x (os_nargs os num) Hm0 Efa) as Ear'. rewrite <- Ear in Ear'.
    destruct Hst as [n Hn]. exists (n + 1)%nat. rewrite (arm_run_steps os _ _ _ Hn). cbn [arm_run].
    rewrite (step_at m cs _ 72 (AL, ASvc 0) x' fl Hc Ha eq_refl ltac:(lia) eq_refl).
    cbn [arm_exec fst snd af cond_ok arm_exec1]. unfold arm_sys_args. cbn [ax am].
    rewrite E7, Ex0, (w32_id num Un), Ear', Mmem, Ecall. reflexivity.
  Qed.

  (** ** one step *)
  (** the machine, started in [r], does what the IR outcome [o] says *)
  Definition simres (o : res) (r : armstate) : Prop :=
    match o with
    | Ok t s' => exists r', arm_to os r t r' /\ mst s' r'
    | Halt t => exists n, arm_run os n r = (t, AExited)
    | UB => True
    end.

  Lemma simres_star o r r1 : arm_star r r1 -> simres o r1 -> simres o r.
  Proof.
    intros Hs. destruct o as [t s'|t|]; cbn; auto.
    - intros (r' & Ht & Hm). exists r'. split; auto.
      change t with ([] ++ t). eapply to_trans; [apply star_to; exact Hs|exact Ht].
    - intros (n & Hn). destruct Hs as [k Hk]. exists (k + n)%nat.
      rewrite (arm_run_steps os _ _ _ Hk). exact Hn.
  Qed.

  (** the same, with at least one machine step *)
  Definition simresP (o : res) (r : armstate) : Prop :=
    match o with
    | Ok t s' => exists k r', arm_run os (S k) r = (t, ARunning r') /\ mst s' r'
    | Halt t => exists n, arm_run os n r = (t, AExited)
    | UB => True
    end.

  Lemma simresP_plus o r r1 : arm_plus r r1 -> simres o r1 -> simresP o r.
  Proof.
    intros [n Hs]. destruct o as [t s'|t|]; cbn; auto.
    - intros (r' & [k Ht] & Hm). exists (n + k)%nat, r'. split; auto.
      exact (eq_trans (arm_run_steps os (S n) _ _ Hs k) Ht).
    - intros (k & Hn). exists (S n + k)%nat.
      exact (eq_trans (arm_run_steps os (S n) _ _ Hs k) Hn).
  Qed.

  Lemma simresP_weaken o r : simresP o r -> simres o r.
  Proof.
    destruct o as [t s'|t|]; cbn; auto. intros (k & r' & H & Hm). exists r'. split; auto. exists (S k). exact H.
  Qed.

  (** a changed program counter means time has passed *)
  Lemma simresP_pc t s' r : simres (Ok t s') r -> apc r <> cs + off (s_pt s') -> simresP (Ok t s') r.
  Proof.
    cbn. intros (r' & [k H] & Hm) Hpc. destruct k as [|k]; [|exists k, r'; auto].
    cbn in H. inversion H; subst. destruct Hm. contradiction.
  Qed.

  Lemma sim_enter s c ret x fl m :
    mcore s x m -> Forall okret (s_stk s) -> okret ret ->
    x 14 = cs + off ret ->
    simres (enter s c ret) (mkarm (l_faddr L c) x fl m).
  Proof.
    intros Hm Hstk Hret Hra. destruct c as [|f].
    - destruct (enter s CSys ret) as [t s'|t|] eqn:E; cbn [simres l_faddr arm_layout]; auto.
      + eapply enter_sys; eauto.
      + eapply enter_sys_halt; eauto.
    - destruct (enter s (CFun f) ret) as [t s'|t|] eqn:E; cbn [simres l_faddr arm_layout]; auto.
      + destruct (enter_fun _ _ _ _ _ _ fl _ Hm Hstk Hret Hra E) as (-> & r' & Hs & Hm').
        exists r'. split; auto. apply star_to. exact Hs.
      + cbn [Ph2Sem.enter] in E. destruct (nth_error (p_funcs p) f); [|discriminate].
        destruct (touches_code _ _ _); discriminate.
  Qed.

  Lemma sim_jump s id x fl m :
    mcore s x m -> Forall okret (s_stk s) ->
    simres (jump_to p s id) (mkarm (cs + e_bb e id) x fl m).
  Proof.
    intros Hm Hstk. unfold jump_to.
    destruct (find_block p id) as [[f b]|] eqn:E; cbn; auto.
    destruct (find_block_spec _ _ _ _ E) as (fn & bl & Hf & Hb & Eid).
    destruct (Nat.eqb_spec b 0) as [|Hb0]; cbn [simres]; auto.
    pose proof (lf_bb _ _ _ _ _ _ LF _ _ _ _ Hf Hb) as Ebb.
    destruct b as [|b]; [congruence|]. rewrite Eid in Ebb.
    eexists. split; [apply star_to, arm_star_refl|].
    constructor; cbn [s_pt s_stk apc ax am]; auto.
    - congruence.
    - destruct Hm. constructor; cbn [s_reg s_sp s_mem s_latch]; auto; try discriminate.
    - unfold okpt. rewrite <- Ebb. apply bb_ok.
  Qed.

  (** the point after an instruction is a legal address *)
  Lemma adj_at f fn b bl k i : nth_error (p_funcs p) f = Some fn ->
    nth_error (f_blocks fn) b = Some bl -> nth_error (b_insns bl) k = Some i ->
    exists i' w, i' = fl_adjust true (f_stack fn) (option_map b_id (nth_error (f_blocks fn) (S b))) i /\
      arm_emit e (off (PFun f b k)) i' = Some w /\
      placed ws (off (PFun f b k)) w /\
      off (PFun f b (S k)) = off (PFun f b k) + 4 * Z.of_nat (length w) /\
      sized' i' /\ arm_insn_ok hard i'.
  Proof.
    intros Hf Hb Hk. eexists.
    set (i' := fl_adjust true (f_stack fn) (option_map b_id (nth_error (f_blocks fn) (S b))) i).
    assert (Hk' : nth_error (adj arm_target fn b bl) k = Some i').
    { unfold adj. rewrite nth_error_map, Hk. reflexivity. }
    destruct (lf_insn _ _ _ _ _ _ LF f fn b bl k i' Hf Hb Hk') as (w & Ew & Pw & En).
    exists w. split; [reflexivity|]. split; [exact Ew|]. split; [exact Pw|]. split; [exact En|].
    pose proof (nth_error_In _ _ Hf) as Hfi. split.
    - right. pose proof (lf_sf _ _ _ _ _ _ LF) as Hz. rewrite Forall_forall in Hz.
      specialize (Hz _ Hfi). rewrite Forall_forall in Hz. apply (Hz i').
      apply in_concat. exists (adj arm_target fn b bl). split.
      + eapply nth_error_In. apply adjs_nth_f. exact Hb.
      + eapply nth_error_In. exact Hk'.
    - apply adjust_ok. pose proof (ro_sf OK) as Hs. rewrite Forall_forall in Hs.
      specialize (Hs _ Hfi). rewrite Forall_forall in Hs.
      specialize (Hs _ (nth_error_In _ _ Hb)). rewrite Forall_forall in Hs.
      apply Hs. eapply nth_error_In; eauto.
  Qed.

  Lemma adjust_other stk nxt i : p_op i <> OP_return -> p_op i <> OP_branch -> fl_adjust true stk nxt i = i.
  Proof.
    intros H H'. unfold fl_adjust. destruct i as [o s0 s1 d fn nx th el dt]. cbn in *.
    destruct o; try reflexivity; congruence.
  Qed.

  Lemma simple_ok s i nxt o s' x fl m t w :
    arm_emit e o i = Some w -> placed ws o w -> off nxt = o + 4 * Z.of_nat (length w) ->
    sized' i -> arm_insn_ok hard i ->
    simple (p_op i) = true -> mcore s x m -> Forall okret (s_stk s) ->
    match nxt with PInit _ => x 14 = cs + 20 | _ => True end ->
    exec s i nxt = Ok t s' ->
    exists r', arm_to os (mkarm (cs + o) x fl m) t r' /\ mst s' r'.
  Proof.
    intros Hw Pw En Hz [_ Hdv] Hs Hm Hstk Hra He.
    pose proof (emit_len _ _ _ Hw) as El.
    pose proof (ro_cs OK) as (Hc0 & Hc4 & Hc1).
    unfold sized' in Hz. rewrite <- (lf_hard _ _ _ _ _ _ LF) in Hz, Hdv.
    assert (He' : Ph2Sem.exec p L (arm_conv (e_hard e)) os gpv keeps s i nxt = Ok t s')
      by (rewrite (lf_hard _ _ _ _ _ _ LF); exact He).
    destruct (sim_simple p L os gpv keeps e cs ws (w32_range _) eq_refl eq_refl (conj Hc0 Hc1)
                ltac:(rewrite (lf_data _ _ _ _ _ _ LF); reflexivity)
                s i nxt t s' (cs + o) o x fl m Hs Hm He' Hdv Hz)
      as (-> & Ept & Estk & x' & fl' & m' & Hst & Hm' & H1).
    - intros c Hc. destruct (callee_fn _ _ Hc) as (o' & E1 & E2 & _).
      exists o'. rewrite (lf_code _ _ _ _ _ _ LF). auto.
    - intros m1 Hw1 Hr. rewrite (lf_hard _ _ _ _ _ _ LF) in Hz. eapply code_here; eauto.
    - rewrite <- El. apply arange_placed; auto.
    - eexists. split; [apply star_to; exact Hst|].
      constructor; cbn [apc ax am]; auto.
      + rewrite Ept, En, El. lia.
      + rewrite Ept. unfold okpt. rewrite En. apply (placed_okoff' _ _ Pw).
      + rewrite Estk; auto.
      + rewrite Ept. destruct nxt; auto. rewrite H1. exact Hra.
  Qed.

  Lemma exec_simple_not_halt s i nxt t : simple (p_op i) = true -> exec s i nxt <> Halt t.
  Proof.
    unfold Ph2Sem.exec. destruct (p_op i); cbn [simple]; try discriminate; intros _;
    repeat match goal with
    | |- context [match rg s ?j with _ => _ end] => destruct (rg s j)
    | |- context [if ?c then _ else _] => destruct c
    | |- context [match callee_of ?a ?b with _ => _ end] => destruct (callee_of a b)
    | |- context [match c_unop ?a ?b with _ => _ end] => destruct (c_unop a b)
    | |- context [match c_binop ?a ?b ?c with _ => _ end] => destruct (c_binop a b c)
    end; discriminate.
  Qed.

  Lemma b_pc o d : okoff d -> w32 (cs + o + (8 + (d - (o + 8)))) = cs + d.
  Proof. intros H. destruct (okoff_range _ H) as (E & E4). rewrite <- E. f_equal. lia. Qed.

  Lemma exec_pt s i nxt t s' : simple (p_op i) = true -> exec s i nxt = Ok t s' -> s_pt s' = nxt.
  Proof.
    unfold Ph2Sem.exec. destruct (p_op i); cbn [simple]; try discriminate; intros _;
    repeat match goal with
    | |- context [match rg s ?j with _ => _ end] => destruct (rg s j)
    | |- context [if ?c then _ else _] => destruct c
    | |- context [match callee_of ?a ?b with _ => _ end] => destruct (callee_of a b)
    | |- context [match c_unop ?a ?b with _ => _ end] => destruct (c_unop a b)
    | |- context [match c_binop ?a ?b ?c with _ => _ end] => destruct (c_binop a b c)
    end; intros H; inversion H; reflexivity.
  Qed.

  Lemma emit_pos o i w : arm_emit e o i = Some w -> simple (p_op i) = true -> (0 < length w)%nat.
  Proof.
    intros He Hs. rewrite (emit_len _ _ _ He).
    unfold arm_emit, arm_insns, mov32_insns, arm_bin_insns in *.
    destruct (p_op i) eqn:Eop; try discriminate;
    repeat match goal with
    | |- context [if ?c then _ else _] => destruct c
    end; cbn [length app]; try lia; try (destruct (e_fn e (p_func i)); [cbn; lia|discriminate He]).
  all: unfold div_insns; cbn [length]; lia.
  Qed.

  Lemma link_pc o : okoff (o + 4) -> w32 (cs + o + 4) = cs + (o + 4).
  Proof. intros H. destruct (okoff_range _ H) as (E & _). rewrite <- Z.add_assoc. exact E. Qed.

  Lemma sim_exec f fn b bl k i s r :
    s_pt s = PFun f b k -> nth_error (p_funcs p) f = Some fn ->
    nth_error (f_blocks fn) b = Some bl -> nth_error (b_insns bl) k = Some i ->
    mst s r -> simresP (exec s i (PFun f b (S k))) r.
  Proof.
    intros Hpt Hf Hb Hk [Hpc Hm Hokpt Hstk _].
    destruct r as [pc x fl m]. cbn [apc ax am] in *. rewrite Hpt in *. subst pc.
    destruct (adj_at _ _ _ _ _ _ Hf Hb Hk) as (i' & w & Ei' & Hw & Pw & En & Hz & Hio).
    set (o := off (PFun f b k)) in *.
    assert (Hnx : okpt (PFun f b (S k))) by (unfold okpt; rewrite En; apply (placed_okoff' _ _ Pw)).
    assert (Ho : okoff o) by (apply (placed_okoff' _ _ Pw)).
    assert (Hrn : okret (PFun f b (S k))) by (split; [exact Hnx|exact I]).
    destruct (simple (p_op i)) eqn:Esim.
    { assert (i' = i) as -> by (subst i'; apply adjust_other; intros E; rewrite E in Esim; discriminate).
      destruct (exec s i (PFun f b (S k))) as [t s'|t|] eqn:He; cbn [simresP]; auto.
      - change (simresP (Ok t s') (mkarm (cs + o) x fl m)). apply simresP_pc.
        + eapply simple_ok; eauto. exact I.
        + cbn [apc]. pose proof (exec_pt _ _ _ _ _ Esim He) as ->. rewrite En.
          pose proof (emit_pos _ _ _ Hw Esim). lia.
      - exfalso. eapply exec_simple_not_halt; eauto. }
    pose proof Hm as [Mr Msp Mspu Msp4 Mgp Mmem Mcode Ml].
    assert (Hvis : forall x', (forall q, visible q -> q <> 14 -> x' q = x q) -> x' 8 = x 8 -> mcore s x' m).
    { intros x' Hx' H8. constructor; auto.
      - intros j z E. rewrite Hx'; [apply Mr; exact E|..];
        apply rg_some in E; [unfold visible; lia|lia].
      - rewrite Hx'; auto; unfold visible; lia.
      - rewrite Hx'; auto; unfold visible; lia.
      - intros v E. rewrite H8. apply Ml. exact E. }
    destruct (p_op i) eqn:Eop; try discriminate Esim;
      [ (* call *) assert (i' = i) as Ei by (subst i'; apply adjust_other; congruence); clear Ei'; subst i'
      | (* indirect *) assert (i' = i) as Ei by (subst i'; apply adjust_other; congruence); clear Ei'; subst i'
      | (* return *)
      | (* branch *)
      | (* jump *) assert (i' = i) as Ei by (subst i'; apply adjust_other; congruence); clear Ei'; subst i' ].
    - (* call *)
      unfold Ph2Sem.exec. rewrite Eop.
      destruct (callee_of p (p_func i)) as [c|] eqn:Ec; cbn [simresP]; auto.
      destruct (callee_fn _ _ Ec) as (o' & Eo & Eol & Hoo).
      destruct (code_here _ _ _ _ Mcode Hw Pw Hz) as (Hc & Ha & Hlen).
      { unfold regs_ok; rewrite Eop; cbn. repeat split; intros; discriminate. }
      unfold arm_insns in Hc, Ha, Hlen. rewrite Eop, Eo in Hc, Ha, Hlen.
      eapply simresP_plus.
      + start (cs + o). eapply plus_at; [exact Hc|exact Ha|reflexivity|lia|reflexivity|apply ex_bl|apply arm_star_refl].
      + rewrite !Z.add_0_r, b_pc by assumption. rewrite <- Eol. apply sim_enter; auto; [|].
        * apply Hvis; [intros; apply aset_other; assumption|apply aset_other; lia].
        * rewrite aset_same, w32_idem. unfold okpt in Hnx. rewrite En, Hlen in *. apply link_pc. exact Hnx.
    - (* indirect *)
      unfold Ph2Sem.exec. rewrite Eop.
      destruct (s_latch s) as [a|] eqn:El; cbn [simresP]; auto.
      destruct (Ml _ eq_refl) as (E8 & U8).
      destruct (code_here _ _ _ _ Mcode Hw Pw Hz) as (Hc & Ha & Hlen).
      { unfold regs_ok; rewrite Eop; cbn. repeat split; intros; discriminate. }
      unfold arm_insns in Hc, Ha, Hlen. rewrite Eop in Hc, Ha, Hlen.
      set (x1 := aset x 14 (w32 (cs + o + 4))).
      assert (Hm1 : mcore s x1 m).
      { subst x1. apply Hvis; [intros; apply aset_other; assumption|apply aset_other; lia]. }
      assert (H1 : x1 14 = cs + off (PFun f b (S k))).
      { subst x1. rewrite aset_same, w32_idem. unfold okpt in Hnx. rewrite En, Hlen in *. apply link_pc. exact Hnx. }
      assert (Hgo : forall c, okoff (l_faddr L c - cs) -> a = w32 (l_faddr L c) ->
                simresP (enter s c (PFun f b (S k))) (mkarm (cs + o) x fl m)).
      { intros c Hoc Ea. pose proof (okoff_range _ Hoc) as (E & E4).
        replace (cs + (l_faddr L c - cs)) with (l_faddr L c) in * by lia.
        eapply simresP_plus.
        - start (cs + o). eapply plus_at; [exact Hc|exact Ha|reflexivity|lia|reflexivity|apply ex_blx|apply arm_star_refl].
          rewrite E8, Ea, E. exact E4.
        - rewrite !Z.add_0_r. fold x1. rewrite E8, Ea, E. apply sim_enter; auto. }
      destruct (Z.eqb_spec a (w32 (l_faddr L CSys))) as [Ea|_].
      + apply Hgo; auto. cbn. pose proof stub_len. unfold okoff. lia.
      + destruct (find_idx _ (seq 0 (length (p_funcs p)))) as [g|] eqn:Eg; cbn [simresP]; auto.
        destruct (find_idx_spec _ _ _ Eg) as (g' & Hg & Pg & _).
        assert (g < length (p_funcs p))%nat as Hlt.
        { rewrite <- (seq_length (length (p_funcs p)) 0). apply nth_error_Some. congruence. }
        assert (g' = g).
        { apply (nth_error_nth _ _ O) in Hg. rewrite seq_nth in Hg by assumption. cbn in Hg. congruence. }
        subst g'. apply Z.eqb_eq in Pg. apply Hgo; auto.
        destruct (nth_error (p_funcs p) g) as [fg|] eqn:Efg; [|apply nth_error_None in Efg; lia].
        cbn. replace (cs + foff g - cs) with (foff g) by lia. eapply foff_ok; eauto.
    - (* return *)
      unfold Ph2Sem.exec. rewrite Eop, Hpt.
      destruct (s_stk s) as [|ret stk] eqn:Estk; cbn [simresP]; auto.
      rewrite Hf. cbn [c_slot arm_conv].
      destruct (Z.eqb_spec (ldw (s_mem s) (s_sp s + f_stack fn)) (w32 (l_link L ret))) as [Elk|_]; cbn [simresP]; auto.
      inversion Hstk as [|? ? [Hret Hni] Hstk']; subst.
      assert (Hfin : forall v rs, (p_src0 i = -1 /\ rs = s_reg s) \/
                 (rg s (p_src0 i) = Some v /\ rs = rset (s_reg s) 0 v) ->
        simresP (Ok [] (mkst ret rs (w32 (s_sp s + (f_stack fn + 4))) (s_mem s) stk None))
               (mkarm (cs + o) x fl (s_mem s))).
      2:{ destruct (Z.eqb_spec (p_src0 i) (-1)) as [E1|E1]; [apply (Hfin 0); auto|].
          destruct (rg s (p_src0 i)) as [v|] eqn:Er; [|exact I]. apply (Hfin v); auto. }
      intros v rs Hrs.
      assert (Hi' : p_op (fl_adjust true (f_stack fn) (option_map b_id (nth_error (f_blocks fn) (S b))) i)
                = OP_return /\ p_src0 (fl_adjust true (f_stack fn) (option_map b_id (nth_error (f_blocks fn) (S b))) i)
                = p_src0 i /\ p_src1 (fl_adjust true (f_stack fn) (option_map b_id (nth_error (f_blocks fn) (S b))) i)
                = f_stack fn).
      { unfold fl_adjust. rewrite Eop. cbn. auto. }
      set (i' := fl_adjust true (f_stack fn) (option_map b_id (nth_error (f_blocks fn) (S b))) i) in *.
      destruct Hi' as (Eop' & Es0 & Es1).
      destruct (code_here _ _ _ _ Mcode Hw Pw Hz) as (Hc & Ha & Hlen).
      { unfold regs_ok; rewrite Eop', Es0; cbn. repeat split; intros; try discriminate.
        - destruct Hrs as [[]|[Er _]]; auto. right. apply rg_some in Er. unfold vreg. tauto.
        }
      unfold arm_insns, mov32_insns in Hc, Ha. rewrite Eop', Es0, Es1 in Hc, Ha. cbn [app] in Hc, Ha.
      set (V := iadd (f_stack fn) 4) in *.
      destruct (okoff_range _ Hret) as (Ew & E4). cbn [l_link arm_layout] in Elk. rewrite Ew in Elk.
      set (src := if p_src0 i =? -1 then 0 else p_src0 i).
      assert (Hsrc : 0 <= src < 8).
      { subst src. destruct (Z.eqb_spec (p_src0 i) (-1)); [lia|].
        destruct Hrs as [[]|[Er _]]; [contradiction|]. apply rg_some in Er. tauto. }
      set (x0 := aset x 0 (x src)).
      assert (EV : forall z, z = s_sp s -> w32 (z + w32 V) = w32 (s_sp s + (f_stack fn + 4))).
      { intros z ->. rewrite w32_add_r. unfold V, iadd.
        rewrite <- (w32_add_r _ (wrap _)), w32_wrap, w32_add_r. reflexivity. }
      assert (H0 : nth_error ((if p_src0 i =? -1 then (AL, ADp MOV false 0 0 (rR 0))
          else (AL, ADp MOV false 0 0 (rR (p_src0 i)))) ::
          [(AL, AMovw 8 (V mod 65536)); (AL, AMovt 8 (V / 65536 mod 65536));
           (AL, ADp ADD false 13 13 (rR 8)); (AL, ALdr false 14 13 (-4)); (AL, ABlx 14)]) 0
          = Some (AL, ADp MOV false 0 0 (rR src))).
      { subst src. destruct (p_src0 i =? -1); reflexivity. }
      set (x3 := aset (aset (aset x0 8 (V mod 65536)) 8 V) 13 (s_sp s + (f_stack fn + 4))).
      assert (Elw : ldw (s_mem s) (x3 13 + -4) = cs + off ret).
      { rewrite <- Elk. apply ldw_cong. subst x3. rewrite aset_same, w32_add_l. f_equal. lia. }
      eapply (simresP_plus _ _ (mkarm (cs + off ret)
         (aset (aset x3 14 (cs + off ret)) 14 (w32 (cs + o + 24))) fl (s_mem s))).
      + start (cs + o).
        eapply (plus_at _ _ _ 0); [exact Hc|exact Ha|exact H0|lia|reflexivity|apply ex_dp; try side; cbn; lia|].
        pcs. cbn [xop yval]. fold x0.
        stp. stp. stp. xsimp. rewrite movw_movt.
        assert (Ex3 : aset (aset (aset x0 8 (V mod 65536)) 8 (V / 65536 mod 65536 * 65536 + w32 (V mod 65536) mod 65536)) 13 (x0 13 + w32 V) = x3).
        { subst x3. rewrite (aset_cong _ 8 _ V) by apply movw_movt. apply aset_cong.
          rewrite EV; [rewrite ?w32_idem; reflexivity|]. subst x0. rewrite aset_other by lia. exact Msp. }
        rewrite Ex3. stp. rewrite Elw.
        assert (E14 : aset x3 14 (cs + off ret) 14 = cs + off ret) by (rewrite aset_same; exact Ew).
        eapply (star_at _ _ _ 20); [exact Hc|exact Ha|reflexivity|lia|reflexivity|apply ex_blx; rewrite E14; exact E4|].
        rewrite E14. pcs. match goal with |- arm_star (mkarm _ ?A _ _) (mkarm _ ?B _ _) => replace A with B; [apply arm_star_refl|] end.
        apply aset_cong. rewrite w32_idem. pcs. reflexivity.
      + eexists. split; [apply star_to, arm_star_refl|]. constructor; cbn [s_pt s_stk apc ax am]; auto.
        * constructor; cbn [s_reg s_sp s_mem s_latch].
          -- intros j z E. apply rg_some in E. destruct E as [Hj E]. cbn [s_reg] in E.
             subst x3. xsimp. subst x0.
             destruct Hrs as [[E1 ->]|[Er ->]].
             ++ subst src. rewrite E1. cbn [Z.eqb Pos.eqb].
                assert (Hr : rg s j = Some z) by (rewrite rg_in by assumption; exact E).
                destruct (Mr _ _ Hr) as (Hx & Hu). split; [|exact Hu].
                destruct (Z.eq_dec j 0) as [->|]; [rewrite aset_same, Hx; apply w32_id; exact Hu|].
                rewrite aset_other by assumption. exact Hx.
             ++ subst src. apply rg_some in Er as Er'. destruct (Z.eqb_spec (p_src0 i) (-1)); [lia|].
                unfold rset in E. destruct (Z.eqb_spec j 0) as [->|].
                ** inversion E; subst. rewrite aset_same.
                   destruct (Mr _ _ Er) as (-> & _). split; [reflexivity|apply w32_range].
                ** rewrite aset_other by lia. apply Mr. rewrite rg_in by assumption. exact E.
          -- subst x3. xsimp. reflexivity.
          -- apply w32_range.
          -- pose proof (ro_4 OK) as (_ & _ & H4). rewrite Forall_forall in H4.
             specialize (H4 _ (nth_error_In _ _ Hf)). unfold w32. lia.
          -- subst x3 x0. xsimp. exact Mgp.
          -- reflexivity.
          -- exact Mcode.
          -- discriminate.
        * destruct ret; tauto.
    - (* branch *)
      unfold Ph2Sem.exec. rewrite Eop.
      destruct (rg s (p_src0 i)) as [v|] eqn:Er; cbn [simresP]; auto.
      destruct (Mr _ _ Er) as (Ex & Uv). apply rg_some in Er as Er'.
      destruct (ro_br OK _ _ _ _ _ _ Hf Hb Hk Eop) as (Elast & Edet & bl' & Hb' & Hne).
      rewrite Hb' in Ei'. cbn [option_map] in Ei'.
      assert (Hbb : e_bb e (b_id bl') = off (PFun f b (S k))).
      { rewrite (lf_bb _ _ _ _ _ _ LF _ _ _ _ Hf Hb'). rewrite Elast.
        rewrite (point_fall arm_target hard p _ _ _ _ Hf Hb). reflexivity. }
      assert (Hsc : forall fl' id, simres (jump_to p s id) (mkarm (cs + e_bb e id) x fl' m)).
      { intros fl' id. apply sim_jump; auto. }
      pose proof (bb_ok (p_else i)) as Hel. pose proof (bb_ok (p_then i)) as Hth.
      assert (Hi' : p_op i' = OP_branch /\ p_src0 i' = p_src0 i /\ p_then i' = p_then i /\ p_else i' = p_else i /\
                p_det i' = negb (p_else i =? b_id bl')).
      { subst i'. unfold fl_adjust. rewrite Eop. rewrite Eop. destruct (Z.eqb_spec (p_else i) (b_id bl')); cbn; auto. }
      destruct Hi' as (Eop' & Es0 & Eth & Eel & Edt).
      destruct (code_here _ _ _ _ Mcode Hw Pw Hz) as (Hc & Ha & Hlen).
      { unfold regs_ok; rewrite Eop', Es0; cbn. repeat split; intros; try discriminate; unfold vreg in *; lia. }
      unfold arm_insns in Hc, Ha, Hlen. rewrite Eop', Es0, Eth, Eel, Edt in Hc, Ha, Hlen.
      assert (Hn15 : p_src0 i <> 15) by lia.
      assert (Uxn : is_u32 (x (p_src0 i))) by (rewrite Ex; exact Uv).
      destruct (ex_teq 0 (p_src0 i) (cs + o + 0) x fl m Hn15 Uxn) as (fl' & Et & EZ).
      rewrite Ex in EZ.
      destruct (Z.eqb_spec (p_else i) (b_id bl')) as [Ee|Ee]; cbn [negb] in Hc, Ha, Hlen.
      + (* the else block follows *)
        assert (Enx : cs + o + 8 = cs + e_bb e (p_else i)).
        { rewrite Ee, Hbb, En, Hlen. cbn [length]. lia. }
        destruct (Z.eqb_spec v 0) as [E0|E0].
        * eapply simresP_plus.
          -- start (cs + o). stp_with ltac:(exact Et). skp; [cbn; rewrite EZ; reflexivity|]. apply arm_star_refl.
          -- rewrite Enx. apply Hsc.
        * eapply simresP_plus.
          -- start (cs + o). stp_with ltac:(exact Et).
             eapply (star_at _ _ _ 4); [exact Hc|exact Ha|reflexivity|lia|reflexivity|apply ex_b; cbn; rewrite EZ; reflexivity|apply arm_star_refl].
          -- replace (w32 (cs + o + 4 + (8 + (e_bb e (p_then i) - (o + 12))))) with (cs + e_bb e (p_then i)); [apply Hsc|].
             rewrite <- (b_pc (o + 4)) by assumption. f_equal. lia.
      + (* the then block follows *)
        assert (Enx : cs + o + 12 = cs + e_bb e (p_then i)).
        { destruct Hne as [?|Ht]; [contradiction|]. rewrite Ht, Hbb, En, Hlen. cbn [length]. lia. }
        destruct (Z.eqb_spec v 0) as [E0|E0].
        * eapply simresP_plus.
          -- start (cs + o). stp_with ltac:(exact Et). skp; [cbn; rewrite EZ; reflexivity|].
             eapply (star_at _ _ _ 8); [exact Hc|exact Ha|reflexivity|lia|reflexivity|apply ex_b; reflexivity|apply arm_star_refl].
          -- replace (w32 (cs + o + 8 + (8 + (e_bb e (p_else i) - (o + 16))))) with (cs + e_bb e (p_else i)); [apply Hsc|].
             rewrite <- (b_pc (o + 8)) by assumption. f_equal. lia.
        * eapply simresP_plus.
          -- start (cs + o). stp_with ltac:(exact Et).
             eapply (star_at _ _ _ 4); [exact Hc|exact Ha|reflexivity|lia|reflexivity|apply ex_b; cbn; rewrite EZ; reflexivity|].
             rewrite Z.add_0_r. pcs. apply arm_star_refl.
          -- rewrite Enx. apply Hsc.
    - (* jump *)
      unfold Ph2Sem.exec. rewrite Eop.
      destruct (code_here _ _ _ _ Mcode Hw Pw Hz) as (Hc & Ha & Hlen).
      { unfold regs_ok; rewrite Eop; cbn. repeat split; intros; discriminate. }
      unfold arm_insns in Hc, Ha. rewrite Eop in Hc, Ha.
      eapply simresP_plus.
      + start (cs + o). eapply plus_at; [exact Hc|exact Ha|reflexivity|lia|reflexivity|apply ex_b; reflexivity|apply arm_star_refl].
      + rewrite Z.add_0_r, b_pc by apply bb_ok. apply sim_jump; auto.
  Qed.

  (** ** the whole step relation *)
  Hypothesis os_exit : forall v m, os_nargs os 1 = 1%nat /\ os_call os 1 [v] m = None.

  Theorem sim_step s r : mst s r -> simresP (step s) r \/
    (exists f b k s', s_pt s = PFun f b k /\ s_pt s' = PFun f (S b) 0 /\
       step s = Ok [] s' /\ mst s' r).
  Proof.
    intros Hms. pose proof Hms as [Hpc Hm Hokpt Hstk Hra]. unfold Ph2Sem.step.
    destruct (s_pt s) as [k|f b k|] eqn:Ept.
    - (* global initialiser *)
      destruct r as [pc x fl m]. cbn [apc ax am] in *. subst pc.
      destruct (nth_error (g_insns p) k) as [i|] eqn:Hk.
      + destruct (lf_init _ _ _ _ _ _ LF _ _ Hk) as (w & Hw & Pw & En).
        left.
        assert (sized' i /\ arm_insn_ok hard i) as (Hz & Hio).
        { pose proof (lf_si _ _ _ _ _ _ LF) as F1. pose proof (ro_si OK) as F2.
          rewrite Forall_forall in F1, F2. pose proof (nth_error_In _ _ Hk) as Hi.
          split; [right; apply (F1 _ Hi)|apply F2; exact Hi]. }
        assert (simple (p_op i) = true -> simresP (exec s i (PInit (S k))) (mkarm (cs + off (PInit k)) x fl m)) as G.
        { intros Hs. destruct (exec s i (PInit (S k))) as [t s'|t|] eqn:He; auto; [| |exact I].
          - apply simresP_pc; [eapply simple_ok; eauto|].
            cbn [apc]. pose proof (exec_pt _ _ _ _ _ Hs He) as ->. rewrite En.
            pose proof (emit_pos _ _ _ Hw Hs). lia.
          - exfalso. eapply exec_simple_not_halt; eauto. }
        destruct (p_op i); try exact I; apply G; reflexivity.
      + left. destruct (Nat.eqb_spec k (length (g_insns p))) as [->|]; [|exact I].
        destruct (find_block p (p_mainbb p)) as [[f [|b]]|] eqn:Efb; try exact I.
        destruct (find_block_spec _ _ _ _ Efb) as (fn & bl & Hf & Hb & Eid).
        pose proof (lf_bb _ _ _ _ _ _ LF _ _ _ _ Hf Hb) as Ebb. cbn in Ebb. rewrite Eid in Ebb.
        destruct (lf_prel _ _ _ _ _ _ LF) as (w & Ew & Pw).
        assert (Eo : off (PInit (length (g_insns p))) = init_end arm_target hard p).
        { unfold point_off, init_end. rewrite firstn_all. reflexivity. }
        rewrite Eo. set (o := init_end arm_target hard p) in *.
        pose proof Hm as [Mr Msp Mspu Msp4 Mgp Mmem Mcode Ml].
        pose proof (foff_ok _ _ Hf) as Hfo.
        assert (code_at m (cs + o)
          (mov32_insns 8 (g_stack p) ++ [(AL, ADp ADD false 8 12 (rR 8)); (AL, ALdr false 0 8 0);
           (AL, ADp ADD false 1 8 (OImm 4 0)); (AL, AB (foff f - (o + 28)))])) as Hc.
        { cbn [t_prelude arm_target] in Ew. unfold arm_prelude in Ew. rewrite Ebb in Ew.
          refine (proj2 (emits_some _ _ _ _ _ Ew) m (cs + o) _).
          - cbn [encs app mov32 mov32_insns]. pose proof (placed_okoff' _ _ Pw) as (Ho & Ho2). pose proof (ro_len OK).
            rewrite (emits_length _ _ _ Ew) in Ho2. cbn [length app mov32] in Ho2.
            unfold okoff in *. repeat match goal with |- _ /\ _ => split end; try exact I; try enc1.
          - eapply placed_words; eauto. }
        assert (arange (cs + o) 6) as Ha.
        { pose proof (emits_length _ _ _ Ew) as El. pose proof (arange_placed _ _ Pw) as A.
          rewrite El in A. exact A. }
        unfold mov32_insns in Hc. cbn [app] in Hc.
        eapply simresP_plus.
        * start (cs + o). stp. stp. stp. stp. stp.
          eapply (star_at _ _ _ 20); [exact Hc|exact Ha|reflexivity|lia|reflexivity|apply ex_b; reflexivity|apply arm_star_refl].
        * autox. rewrite movw_movt.
          replace (w32 (cs + o + 20 + (8 + (foff f - (o + 28))))) with (cs + foff f)
            by (rewrite <- (b_pc (o + 20)) by assumption; f_equal; lia).
          change (cs + foff f) with (l_faddr L (CFun f)). apply sim_enter.
          -- assert (Et0 : w32 (x 12 + w32 (g_stack p)) = w32 (gpv + g_stack p)).
             { rewrite w32_add_r, Mgp. reflexivity. }
             constructor; cbn [s_reg s_sp s_mem s_latch].
             ++ intros j z E. apply rg_some in E. destruct E as [Hj E]. cbn [s_reg] in E.
                unfold rset in E. destruct (Z.eqb_spec j 1) as [->|N1].
                ** inversion E; subst. rewrite aset_same, Et0, w32_add_l.
                   split; [reflexivity|apply w32_range].
                ** destruct (Z.eqb_spec j 0) as [->|N0].
                   --- inversion E; subst. xsimp. split; [|apply w32_range].
                       rewrite Z.add_0_r, Et0. rewrite (ldw_cong (s_mem s) _ (gpv + g_stack p)); [reflexivity|].
                       apply w32_idem.
                   --- xsimp. apply Mr. rewrite rg_in by assumption. exact E.
             ++ xsimp. exact Msp.
             ++ exact Mspu.
             ++ exact Msp4.
             ++ xsimp. exact Mgp.
             ++ exact Mmem.
             ++ exact Mcode.
             ++ discriminate.
          -- exact Hstk.
          -- split; [|exact I]. unfold okpt, okoff. cbn [point_off]. pose proof stub_len. lia.
          -- xsimp. exact Hra.
    - destruct (nth_error (p_funcs p) f) as [fn|] eqn:Hf; [|left; exact I].
      destruct (nth_error (f_blocks fn) b) as [bl|] eqn:Hb; [|left; exact I].
      destruct (nth_error (b_insns bl) k) as [i|] eqn:Hk.
      + left. eapply sim_exec; eauto.
      + destruct (Nat.eqb_spec k (length (b_insns bl))) as [->|]; [|left; exact I].
        destruct (nth_error (f_blocks fn) (S b)) as [bl'|] eqn:Hb'; [|left; exact I].
        right. eexists f, b, _, _. split; [reflexivity|]. split; [|split; [reflexivity|]]; [reflexivity|].
        pose proof (point_fall arm_target hard p _ _ _ _ Hf Hb) as Ef.
        constructor; cbn [s_pt s_stk]; auto.
        * rewrite Ef. exact Hpc.
        * destruct Hm. constructor; cbn [s_reg s_sp s_mem s_latch]; auto.
        * unfold okpt in *. rewrite Ef. exact Hokpt.
    - (* exit *)
      left.
      destruct (rg s 0) as [v|] eqn:E0; [|exact I].
      destruct r as [pc x fl m]. cbn [apc ax am] in *. subst pc.
      pose proof Hm as [Mr Msp Mspu Msp4 Mgp Mmem Mcode Ml]. destruct (Mr _ _ E0) as (Ex & Uv).
      destruct (stub_code _ Mcode) as (is & Hc & Ha & Hl & Eis).
      rewrite Eis in Hc, Ha. cbn [app mov32_insns] in Hc, Ha. cbn [point_off].
      cbn [simresP c_exit arm_conv].
      assert (exists x', arm_star (mkarm (cs + 20) x fl m) (mkarm (cs + 40) x' fl m) /\
                x' 7 = 1 /\ x' 0 = v) as (x' & Hst & E7 & E00).
      { eexists. split; [|split].
        - stp. stp. stp. stp. stp. apply arm_star_refl.
        - autox. reflexivity.
        - autox. rewrite Ex. apply w32_id; auto. }
      destruct Hst as [n Hn]. exists (n + 1)%nat. rewrite (arm_run_steps os _ _ _ Hn). cbn [arm_run].
      rewrite (step_at m cs _ 40 (AL, ASvc 0) x' fl Hc Ha eq_refl ltac:(lia) eq_refl).
      cbn [arm_exec fst snd af cond_ok arm_exec1]. unfold arm_sys_args. cbn [ax am].
      rewrite E7. destruct (os_exit v m) as (-> & Ho). cbn [firstn]. rewrite E00, Ho. reflexivity.
  Qed.

  Theorem sim_run n : forall s r, mst s r ->
    simres (run p L (arm_conv hard) os gpv keeps n s) r.
  Proof.
    induction n as [|n IH]; intros s r Hm; cbn [run].
    - exists r. split; auto. apply star_to, arm_star_refl.
    - assert (simres (step s) r) as Hs.
      { destruct (sim_step _ _ Hm) as [Hs|(f & b & k & s' & _ & _ & -> & Hm')].
        - apply simresP_weaken. exact Hs.
        - exists r. split; auto. apply star_to, arm_star_refl. }
      destruct (step s) as [t s'|t|]; cbn [simres] in Hs; auto.
      destruct Hs as (r' & Ht & Hm'). specialize (IH _ _ Hm').
      destruct (run p L (arm_conv hard) os gpv keeps n s') as [t' s''|t'|]; cbn [simres] in *; auto.
      + destruct IH as (r'' & Ht' & Hm''). exists r''. split; auto. eapply to_trans; eauto.
      + destruct IH as (k & Hk). destruct Ht as (j & Hj). exists (j + k)%nat.
        rewrite (arm_run_app _ _ _ _ _ Hj), Hk. reflexivity.
  Qed.

  (** *** progress: [n] IR steps take at least about [n / (B+1)] machine steps, where
      [B] bounds the number of blocks of a function *)
  Definition fallpos (s : st) : nat := match s_pt s with PFun _ b _ => b | _ => O end.

  Lemma sim_run_progress B : (forall fn, In fn (p_funcs p) -> length (f_blocks fn) <= B)%nat ->
    forall n s r t s', mst s r ->
    run p L (arm_conv hard) os gpv keeps n s = Ok t s' ->
    exists k r', arm_run os k r = (t, ARunning r') /\ mst s' r' /\
      (n + fallpos s <= k * (B + 1) + fallpos s')%nat.
  Proof.
    intros HB. induction n as [|n IH]; intros s r t s' Hm H; cbn [run] in H.
    - inversion H; subst. exists O, r. split; [reflexivity|split; [exact Hm|lia]].
    - destruct (step s) as [t1 s1|t1|] eqn:Es; [|discriminate|discriminate].
      destruct (run p L (arm_conv hard) os gpv keeps n s1) as [t2 s2|t2|] eqn:Er; [|discriminate|discriminate].
      inversion H; subst.
      assert (fallpos s <= B)%nat as Hfp.
      { unfold fallpos. unfold Ph2Sem.step in Es. destruct (s_pt s) as [|f b k|]; try lia.
        destruct (nth_error (p_funcs p) f) as [fn|] eqn:Hf; [|discriminate].
        destruct (nth_error (f_blocks fn) b) as [bl|] eqn:Hb; [|discriminate].
        assert (b < length (f_blocks fn))%nat by (apply nth_error_Some; congruence).
        apply nth_error_In in Hf. specialize (HB _ Hf). lia. }
      destruct (sim_step _ _ Hm) as [Hs|(f & b & k & s1' & E1 & E2 & E3 & Hm')].
      + rewrite Es in Hs. destruct Hs as (k & r1 & H1 & Hm1).
        destruct (IH _ _ _ _ Hm1 Er) as (k' & r' & H2 & Hm2 & Hb).
        exists (S k + k')%nat, r'. split; [|split; [exact Hm2|]].
        2:{ rewrite Nat.mul_add_distr_r. cbn [Nat.mul]. lia. }
        rewrite (arm_run_app _ _ _ _ _ H1), H2. reflexivity.
      + rewrite Es in E3. inversion E3; subst.
        destruct (IH _ _ _ _ Hm' Er) as (k' & r' & H2 & Hm2 & Hb).
        exists k', r'. split; [exact H2|split; [exact Hm2|]].
        unfold fallpos in *. rewrite E1. rewrite E2 in Hb. lia.
  Qed.

  Lemma arm_run_prefix k : forall j r t r', arm_run os (k + j) r = (t, ARunning r') ->
    exists t1 r1, arm_run os k r = (t1, ARunning r1).
  Proof.
    induction k as [|k IH]; intros j r t r' H; cbn [arm_run plus] in *; [eauto|].
    destruct (arm_step r) as [r1|r1|]; [eauto| |discriminate].
    destruct (os_call os _ _ _) as [[v m']|]; [|discriminate].
    destruct (arm_run os (k + j) _) as [t1 st1] eqn:E. inversion H; subst.
    destruct (IH _ _ _ _ E) as (t2 & r2 & ->). eauto.
  Qed.

  Lemma bounded_blocks : exists B, forall fn, In fn (p_funcs p) -> (length (f_blocks fn) <= B)%nat.
  Proof.
    clear. induction (p_funcs p) as [|f r [B HB]].
    - exists O. intros fn [].
    - exists (length (f_blocks f) + B)%nat. intros fn [->|H]; [lia|]. specialize (HB _ H). lia.
  Qed.

  Theorem sim_diverges s r : mst s r ->
    (forall n, exists t s', run p L (arm_conv hard) os gpv keeps n s = Ok t s') ->
    forall k, exists t r', arm_run os k r = (t, ARunning r').
  Proof.
    intros Hm Hrun k. destruct bounded_blocks as (B & HB).
    destruct (Hrun (k * (B + 1) + B)%nat) as (t & s' & Hn).
    destruct (Hrun (S (k * (B + 1) + B))%nat) as (t2 & s2 & Hn2).
    destruct (sim_run_progress _ HB _ _ _ _ _ Hm Hn) as (j & r' & Hj & Hm' & Hb).
    assert (fallpos s' <= B)%nat as Hfp.
    { (* s' can step again *)
      assert (exists t3 s3, step s' = Ok t3 s3) as (t3 & s3 & Es).
      { clear - Hn Hn2. revert s t s' t2 s2 Hn Hn2.
        induction (k * (B + 1) + B)%nat as [|n IH]; intros s t s' t2 s2 Hn Hn2.
        - cbn in Hn. inversion Hn; subst. cbn in Hn2. destruct (step s') as [a b|a|]; eauto; discriminate.
        - remember (S n) as n1. rewrite Heqn1 in Hn. cbn [run] in Hn, Hn2.
          destruct (step s) as [a b|a|]; try discriminate.
          destruct (run p L (arm_conv hard) os gpv keeps n b) as [a1 b1|a1|] eqn:E1; try discriminate.
          destruct (run p L (arm_conv hard) os gpv keeps n1 b) as [a2 b2|a2|] eqn:E2; try discriminate.
          subst n1. inversion Hn; subst. eapply IH; eauto. }
      unfold fallpos. unfold Ph2Sem.step in Es. destruct (s_pt s') as [|f b q|]; try lia.
      destruct (nth_error (p_funcs p) f) as [fn|] eqn:Hf; [|discriminate].
      destruct (nth_error (f_blocks fn) b) as [bl|] eqn:Hb'; [|discriminate].
      assert (b < length (f_blocks fn))%nat by (apply nth_error_Some; congruence).
      apply nth_error_In in Hf. specialize (HB _ Hf). lia. }
    assert (k <= j)%nat as Hkj.
    { destruct (le_lt_dec k j) as [|Hlt]; auto. exfalso.
      assert ((j + 1) * (B + 1) <= k * (B + 1))%nat by (apply Nat.mul_le_mono_r; lia).
      rewrite Nat.mul_add_distr_r in H. unfold fallpos in Hb at 1. lia. }
    replace j with (k + (j - k))%nat in Hj by lia. eapply arm_run_prefix; eauto.
  Qed.

  (** the loader starts the machine at the first code byte with sp = sp0 *)
  Lemma sim_init x fl m : words_at m cs ws -> x 13 = sp0 ->
    exists r, arm_star (mkarm cs x fl m) r /\ mst (init_st p sp0 m) r.
  Proof.
    intros Hw Hsp. destruct (stub_code _ Hw) as (is & Hc & Ha & Hl & Eis).
    rewrite Eis in Hc, Ha. cbn [app mov32_insns] in Hc, Ha.
    eexists. split.
    - start cs. stp. stp. stp. stp.
      eapply (star_at _ _ _ 16); [exact Hc|exact Ha|reflexivity|lia|reflexivity|apply ex_bl|apply arm_star_refl].
    - autox. rewrite movw_movt.
      assert (Esp : w32 (x 13 - w32 (g_stack p)) = gpv).
      { rewrite w32_sub_r, Hsp. reflexivity. }
      constructor; cbn [init_st s_pt s_stk apc ax am].
      + rewrite (pc_norm cs _ 16 (8 + 56) 80 Ha) by (cbn [length]; lia).
        cbn [point_off firstn]. change (szs arm_target hard []) with 0. cbn [t_globofs arm_target]. lia.
      + constructor; cbn [s_reg s_sp s_mem s_latch]; auto.
        * intros i v H. apply rg_some in H. destruct H as [_ H]. discriminate.
        * apply w32_range.
        * pose proof (ro_4 OK) as (H4 & H4g & _). cbn [init_st s_sp]. unfold w32. lia.
        * xsimp. rewrite Esp. apply w32_idem.
        * discriminate.
      + unfold okpt, okoff. cbn [point_off firstn]. change (szs arm_target hard []) with 0.
        cbn [t_globofs arm_target]. pose proof stub_len. lia.
      + constructor.
      + xsimp. pose proof stub_len. rewrite w32_idem. rewrite (pc_norm cs _ 16 4 20 Ha) by (cbn [length]; lia). reflexivity.
  Qed.
End Prog.
