(** Whole programs: the code image produced for a phase-2 IR program, run on the
    RV32IM machine, does what the IR program does. *)
From Verif.Base Require Import Int32 Mem MemProofs Bits.
From Verif.Ir Require Import Ph2 Ph2Sem Layout.
From Verif.Ir Require Export ProgUtil.
From Verif.Rv Require Import RvISA RvEnc RvEncProofs RvGen RvExec RvOps RvSoft RvEmit RvSim.

(** the RISC-V memory layout of a compiled program *)
Definition rv_layout (hard : bool) (p : program) (cs : Z) (n : nat) : layout :=
  mklayout cs (cs + 4 * Z.of_nat n) (cs + 4 * Z.of_nat n)
    (fun c => match c with CSys => cs + 48 | CFun f => cs + func_off rv_target hard p f end)
    (fun pt => cs + point_off rv_target hard p pt).

(** trace-producing execution *)
Definition rv_to (os : osspec) (r : rvstate) (t : list event) (r' : rvstate) : Prop :=
  exists n, rv_run os n r = (t, Running r').

Lemma rv_run_steps os n r r' : rv_steps n r = Some r' ->
  forall k, rv_run os (n + k) r = rv_run os k r'.
Proof.
  revert r. induction n as [|n IH]; cbn; intros r H k.
  - inversion H; reflexivity.
  - destruct (rv_step r); try discriminate. auto.
Qed.

Lemma rv_run_app os n r t r' : rv_run os n r = (t, Running r') ->
  forall k, rv_run os (n + k) r = (t ++ fst (rv_run os k r'), snd (rv_run os k r')).
Proof.
  revert r t. induction n as [|n IH]; cbn [rv_run plus]; intros r t H k.
  - inversion H; subst. destruct (rv_run os k r'); reflexivity.
  - destruct (rv_step r) as [r1|r1|]; [eauto| |discriminate].
    destruct (os_call os _ _ _) as [[v m']|]; [|discriminate].
    destruct (rv_run os n _) as [t1 st1] eqn:E. inversion H; subst.
    rewrite (IH _ _ E k). reflexivity.
Qed.

Lemma star_to os r r' : rv_star r r' -> rv_to os r [] r'.
Proof.
  intros [n H]. exists n. replace n with (n + 0)%nat by lia.
  rewrite (rv_run_steps _ _ _ _ H). reflexivity.
Qed.
Lemma to_trans os r t r1 t' r2 : rv_to os r t r1 -> rv_to os r1 t' r2 -> rv_to os r (t ++ t') r2.
Proof. intros [n H] [k Hk]. exists (n + k)%nat. rewrite (rv_run_app _ _ _ _ _ H), Hk. reflexivity. Qed.

Lemma xset_cong x x' r v v' : x = x' -> w32 v = w32 v' -> xset x r v = xset x' r v'.
Proof. intros -> E. unfold xset. rewrite E. reflexivity. Qed.

Section Prog.
  Variable p : program.
  Variable hard : bool.
  Variable os : osspec.
  Variable sp0 : Z.
  Variable e : env.
  Variables (cs : Z) (ws : list Z).

  (** what the theorem asks of the program and its placement *)
  Record rv_ok : Prop := {
    ro_gen : code_generate rv_target hard p cs = Some (e, ws);
    ro_ne : Forall (fun f => f_blocks f <> []) (p_funcs p);
    ro_ids : NoDup (p_sysbb p :: g_bb p :: allids (p_funcs p));
    ro_cs : 0 <= cs /\ cs mod 4 = 0 /\ cs + 4 * Z.of_nat (length ws) < 4294967296;
    ro_len : 4 * Z.of_nat (length ws) <= 1048560 }.
  Hypothesis OK : rv_ok.

  Definition gpv := w32 (sp0 - g_stack p).
  Notation L := (rv_layout hard p cs (length ws)).
  Definition keeps (m : mem) : bool := words_atb m cs ws.
  Notation exec := (exec p L rv_conv os gpv keeps).
  Notation step := (step p L rv_conv os gpv keeps).
  Notation enter := (enter p L rv_conv os keeps).
  Notation off := (point_off rv_target hard p).
  Notation foff := (func_off rv_target hard p).

  Lemma rv_sizes_ok i : size_ok rv_target hard i.
  Proof. intros e' pos n w <- Hs He. eapply rv_size_ok; eauto. Qed.

  Lemma rv_layout_facts : layout_facts rv_target hard p cs e ws.
  Proof.
    destruct OK. apply layout_ok; auto.
    - apply Forall_forall. intros; apply rv_sizes_ok.
    - apply Forall_forall. intros; apply Forall_forall; intros; apply rv_sizes_ok.
    - intros e' g o w H. apply emits_length in H. rewrite H. reflexivity.
    - intros e' q g o w H. apply emits_length in H. exact H.
    - intros e' q stk w H. eapply rv_define_size; eauto. reflexivity.
  Qed.
  Let LF := rv_layout_facts.

  Definition okoff (o : Z) : Prop := 0 <= o <= 4 * Z.of_nat (length ws) /\ o mod 4 = 0.

  Lemma placed_okoff o : placed ws o [] -> okoff o.
  Proof. intros H. apply placed_bounds in H. cbn [length] in H. unfold okoff. lia. Qed.
  Lemma placed_okoff' o w : placed ws o w -> okoff o /\ okoff (o + 4 * Z.of_nat (length w)).
  Proof. intros H. apply placed_bounds in H. unfold okoff. lia. Qed.

  Lemma stub_len : 84 <= 4 * Z.of_nat (length ws).
  Proof.
    destruct (lf_stub _ _ _ _ _ _ LF) as (w & Ew & Pw). apply placed_bounds in Pw.
    cbn [t_stubs rv_target] in Ew. apply emits_length in Ew. rewrite Ew in Pw. cbn [length] in Pw. lia.
  Qed.

  Lemma foff_ok f fn : nth_error (p_funcs p) f = Some fn -> okoff (foff f).
  Proof.
    intros H. destruct (lf_def _ _ _ _ _ _ LF _ _ H) as (w & _ & Pw & _).
    apply placed_okoff' in Pw. tauto.
  Qed.

  Lemma bb_ok id : okoff (e_bb e id).
  Proof.
    destruct (in_dec Z.eq_dec id (allids (p_funcs p))) as [Hin|Hni].
    - unfold allids in Hin. apply in_concat in Hin. destruct Hin as (l & Hl & Hid).
      apply in_map_iff in Hl. destruct Hl as (fn & <- & Hfn).
      apply in_map_iff in Hid. destruct Hid as (bl & <- & Hbl).
      apply In_nth_error in Hfn. destruct Hfn as [f Hf].
      apply In_nth_error in Hbl. destruct Hbl as [b Hb].
      rewrite (lf_bb _ _ _ _ _ _ LF _ _ _ _ Hf Hb). destruct b.
      + eapply foff_ok; eauto.
      + apply placed_okoff. eapply (lf_cut_f _ _ _ _ _ _ LF); eauto. lia.
    - pose proof stub_len.
      destruct (lf_rest _ _ _ _ _ _ LF _ Hni) as [-> | [-> | ->]]; unfold okoff; cbn [t_sysofs t_globofs rv_target]; lia.
  Qed.

  Lemma callee_fn n c : callee_of p n = Some c ->
    exists o, e_fn e n = Some o /\ l_faddr L c = cs + o /\ okoff o.
  Proof.
    unfold callee_of. rewrite (lf_fn _ _ _ _ _ _ LF). unfold find_entry.
    destruct (n =? p_sysname p).
    - intros H. inversion H; subst. cbn. exists (e_bb e (p_sysbb p)).
      rewrite (lf_sys _ _ _ _ _ _ LF). pose proof stub_len. unfold okoff. repeat split; cbn [t_sysofs t_globofs rv_target rv_layout l_faddr]; lia.
    - destruct (find_idx _ (p_funcs p)) as [f|] eqn:E; [|discriminate].
      intros H. inversion H; subst. destruct (find_idx_spec _ _ _ E) as (fn & Hf & _ & ->).
      assert (f_blocks fn <> []) as Hn.
      { pose proof (ro_ne OK) as Hne. rewrite Forall_forall in Hne. apply Hne. eapply nth_error_In; eauto. }
      destruct (f_blocks fn) as [|b0 r] eqn:Eb; [congruence|]. cbn.
      exists (e_bb e (b_id b0)). assert (nth_error (f_blocks fn) 0 = Some b0) as Hb by (rewrite Eb; reflexivity).
      rewrite (lf_bb _ _ _ _ _ _ LF _ _ _ _ Hf Hb). repeat split; auto; apply (foff_ok _ _ Hf).
  Qed.

  Notation mcore := (mcore gpv cs ws).

  Definition okpt (pt : point) : Prop := okoff (off pt).

  (** a legal return point (never inside the global initialiser) *)
  Definition okret (pt : point) : Prop :=
    okpt pt /\ match pt with PInit _ => False | _ => True end.

  Record mst (s : st) (r : rvstate) : Prop := {
    ms_pc : rpc r = cs + off (s_pt s);
    ms_core : mcore s (rx r) (rm r);
    ms_pt : okpt (s_pt s);
    ms_stk : Forall okret (s_stk s);
    ms_ra : match s_pt s with PInit _ => rx r 1 = cs + 20 | _ => True end }.

  Lemma okoff_range o : okoff o -> w32 (cs + o) = cs + o /\ (cs + o) mod 4 = 0.
  Proof. destruct OK. unfold okoff, w32. intros. lia. Qed.

  Lemma arange_placed o w : placed ws o w -> arange (cs + o) (length w).
  Proof.
    intros H. apply placed_bounds in H. destruct OK. unfold arange. lia.
  Qed.

  (** the instructions found at a point *)
  Lemma code_here m o i w : words_at m cs ws -> rv_emit e o i = Some w -> placed ws o w ->
    regs_ok i ->
    code_at m (cs + o) (rv_insns e o i) /\ arange (cs + o) (length (rv_insns e o i)) /\
    length w = length (rv_insns e o i).
  Proof.
    intros Hm He Hp Hr.
    assert (jumps_ok e o i) as Hj.
    { pose proof (placed_okoff' _ _ Hp) as (Ho & _). destruct OK as [_ _ _ _ Hl].
      assert (forall id, okoff (e_bb e id)) as Hbb by apply bb_ok.
      unfold jumps_ok, joff_ok, okoff in *. destruct (p_op i); auto.
      - intros o' Eo. rewrite (lf_fn _ _ _ _ _ _ LF) in Eo.
        destruct (find_entry p (p_func i)) as [id|]; [|discriminate]. cbn in Eo.
        inversion Eo; subst. specialize (Hbb id). lia.
      - specialize (Hbb (p_else i)). lia.
      - specialize (Hbb (p_next i)). lia. }
    destruct (rv_emit_code _ _ _ _ He Hr Hj) as (Hlen & Hcode).
    rewrite <- Hlen. repeat split; auto.
    - apply Hcode. eapply placed_words; eauto.
    - apply (arange_placed _ _ Hp).
    - apply (arange_placed _ _ Hp).
    - apply (arange_placed _ _ Hp).
  Qed.

  (** length of the emitted code does not depend on register fields *)
  Lemma emit_len o i w : rv_emit e o i = Some w -> length w = length (rv_insns e o i).
  Proof.
    unfold rv_emit, rv_insns, li_insns, rv_bin_insns. intros He.
    destruct (p_op i) eqn:Eop; try discriminate;
    repeat match type of He with
    | (if ?c then _ else _) = _ => destruct c
    | (match ?c with _ => _ end) = _ => destruct c eqn:?
    end; try discriminate; apply emits_length in He; rewrite He; reflexivity.
  Qed.

  Lemma star_pc x m a b r' : a = b -> rv_star (mkrv a x m) r' -> rv_star (mkrv b x m) r'.
  Proof. intros ->. auto. Qed.

  (** ** entering a function *)
  Lemma enter_fun s f ret t s' x m :
    mcore s x m -> Forall okret (s_stk s) -> okret ret ->
    x 1 = cs + off ret ->
    enter s (CFun f) ret = Ok t s' ->
    t = [] /\ exists r', rv_star (mkrv (cs + foff f) x m) r' /\ mst s' r'.
  Proof.
    intros Hm Hstk [Hret Hni] Hra He. cbn [Ph2Sem.enter] in He.
    destruct (nth_error (p_funcs p) f) as [fn|] eqn:Hf; [|discriminate].
    destruct (touches_code _ _ 4) eqn:Et; [discriminate|].
    injection He as <- <-. split; [reflexivity|].
    destruct (lf_def _ _ _ _ _ _ LF _ _ Hf) as (w & Ew & Pw & Lw).
    pose proof Hm as [Mr Msp Mspu Mgp Mmem Mcode Ml].
    destruct (code_here _ _ _ _ Mcode Ew Pw) as (Hc & Ha & _).
    { unfold regs_ok; cbn. repeat split; intros; discriminate. }
    unfold rv_insns, li_insns in Hc, Ha. cbn [define_ir p_op p_src0 app] in Hc, Ha.
    set (a := cs + foff f) in *. set (v := iadd (f_stack fn) 4) in *.
    cbn [c_slot rv_conv] in Et |- *. rewrite Z.add_0_r in *.
    eexists. split.
    - start a. stp. stp. stp. stp. apply rv_star_refl.
    - cbn [rop_eval iop_eval sop_eval]. autox.
      assert (w32 (x 2 - w32 (w32 (lui_val v) + rv_lo v)) = w32 (s_sp s - (f_stack fn + 4))) as Esp.
      { rewrite w32_add_l, lui_addi, w32_sub_r. rewrite Msp.
        unfold v, iadd. rewrite <- (w32_sub_r _ (wrap _)), w32_wrap, w32_sub_r. reflexivity. }
      rewrite Esp. set (sp' := w32 (s_sp s - (f_stack fn + 4))) in *.
      constructor; cbn [s_pt s_stk rpc rx rm].
      + unfold a. cbn [point_off]. rewrite Hf. unfold block_off. cbn [firstn].
        change (szs rv_target hard (concat [])) with 0.
        destruct (nth_error (f_blocks fn) 0); cbn [firstn]; try change (szs rv_target hard []) with 0; lia.
      + constructor; cbn [s_reg s_sp s_mem s_latch s_pt s_stk].
        * intros j z E. apply rg_some in E. destruct E as [? E]. cbn in E. xsimp.
          apply Mr. rewrite rg_in by assumption. exact E.
        * xsimp. rewrite Esp. reflexivity.
        * apply w32_range.
        * xsimp. exact Mgp.
        * rewrite Mmem, Hra. rewrite Z.add_0_r. reflexivity.
        * rewrite Z.add_0_r. apply (code_stw L keeps cs ws); auto; destruct OK; tauto.
        * discriminate.
      + unfold okpt. destruct (placed_okoff' _ _ Pw) as (_ & Ho). rewrite Lw in Ho.
        cbn [point_off]. rewrite Hf. unfold block_off. cbn [firstn].
        change (szs rv_target hard (concat [])) with 0.
        destruct (nth_error (f_blocks fn) 0); cbn [firstn]; try change (szs rv_target hard []) with 0;
          (replace (foff f + (16 + 0) + 0) with (foff f + 4 * Z.of_nat 4) by lia; exact Ho).
      + constructor; auto. split; auto.
      + exact I.
  Qed.

  (** ** system calls *)
  Lemma stub_code m : words_at m cs ws ->
    exists is, code_at m cs is /\ arange cs (length is) /\ length is = 21%nat /\
      is = li_insns 5 (g_stack p) ++
        [IR SUB 2 2 5; II ADDI 3 2 0; IJAL 1 68] ++ li_insns 5 (g_stack p) ++
        [IR ADD 3 3 5; II ADDI 2 3 0; II ADDI 10 10 0; II ADDI 17 0 93; IECALL;
         II ADDI 17 10 0; II ADDI 10 11 0; II ADDI 11 12 0; II ADDI 12 13 0;
         II ADDI 13 14 0; II ADDI 14 15 0; II ADDI 15 16 0; IECALL; IJALR 0 1 0].
  Proof.
    intros Hm. destruct (lf_stub _ _ _ _ _ _ LF) as (w & Ew & Pw).
    cbn [t_stubs rv_target] in Ew. unfold rv_stubs in Ew. rewrite (lf_gbb _ _ _ _ _ _ LF) in Ew.
    eexists. split; [|split; [|split; [|reflexivity]]].
    - refine (proj2 (emits_some _ _ _ _ _ Ew) m cs _).
      + cbn [app li_insns encs t_globofs rv_target].
        repeat split; enc1.
      + pose proof (placed_words _ _ _ _ _ Hm Pw) as Hw. rewrite Z.add_0_r in Hw. exact Hw.
    - destruct OK. unfold arange. pose proof stub_len. cbn. lia.
    - reflexivity.
  Qed.

  Lemma exec_ecall r s' :
    rv_step r = REcall s' ->
    forall num args, num = rget r 17 -> args = firstn (os_nargs os num) (rv_sys_args r) ->
    forall v m', os_call os num args (rm r) = Some (v, m') ->
    rv_to os r [(num, args)] (mkrv (rpc s') (xset (rx s') 10 v) m').
  Proof.
    intros Hs num args En Ea v m' Ho. exists 1%nat. cbn [rv_run]. rewrite Hs.
    rewrite <- En, <- Ea, Ho. reflexivity.
  Qed.

  Lemma step_at m a is c i x : code_at m a is -> arange a (length is) ->
    nth_error is (Z.to_nat (c / 4)) = Some i -> 0 <= c -> c mod 4 = 0 ->
    rv_step (mkrv (a + c) x m) = rv_exec i (mkrv (a + c) x m).
  Proof.
    intros Hc Ha Hn Hp Hm. unfold rv_step. cbn [rpc rm].
    destruct Ha as (Ha0 & Ha4 & _).
    replace ((a + c) mod 4 =? 0) with true by lia.
    specialize (Hc _ _ Hn).
    replace (a + 4 * Z.of_nat (Z.to_nat (c / 4))) with (a + c) in Hc by lia.
    rewrite Hc. reflexivity.
  Qed.

  Definition sys_args_st (s : st) : list (option Z) := map (rg s) [1; 2; 3; 4; 5; 6].

  Lemma firstn_some (s : st) x n : mcore s x (s_mem s) -> 
    forallb is_some (firstn n (map (rg s) [1; 2; 3; 4; 5; 6])) = true ->
    map (fun o => match o with Some v => v | None => 0 end) (firstn n (map (rg s) [1;2;3;4;5;6]))
    = firstn n [x 11; x 12; x 13; x 14; x 15; x 16].
  Proof.
    intros [Mr _ _ _ _ _ _]. cbn [map].
    assert (forall i v, rg s i = Some v -> v = x (i + 10)) as R by (intros; symmetry; apply Mr; auto).
    clear Mr.
    assert (forall (os : list (option Z)) (xs : list Z), length os = length xs ->
      (forall k o, nth_error os k = Some o -> forall v, o = Some v -> nth_error xs k = Some v) ->
      forall n, forallb is_some (firstn n os) = true ->
      map (fun o => match o with Some v => v | None => 0 end) (firstn n os) = firstn n xs) as G.
    { induction os0 as [|o r IH]; intros [|y ys] Hl Hn k Hk; cbn in Hl; try discriminate.
      - destruct k; reflexivity.
      - destruct k; [reflexivity|]. cbn in *. apply andb_true_iff in Hk. destruct Hk as [Ho Hk].
        destruct o as [v|]; [|discriminate]. f_equal.
        + specialize (Hn O (Some v) eq_refl v eq_refl). cbn in Hn. congruence.
        + apply IH; auto. intros j o Hj v' E. apply (Hn (S j) o Hj v' E). }
    intros H. apply G; auto.
    intros k o E v ->.
    assert (k < 6)%nat as Hk by (change 6%nat with (length [rg s 1; rg s 2; rg s 3; rg s 4; rg s 5; rg s 6]);
      apply nth_error_Some; congruence).
    destruct k as [|[|[|[|[|[|k]]]]]]; [..|lia]; cbn in E |- *; injection E as E; f_equal; symmetry;
      [apply (R 1)|apply (R 2)|apply (R 3)|apply (R 4)|apply (R 5)|apply (R 6)]; exact E.
  Qed.

  Lemma sys_prep m x : words_at m cs ws ->
    exists x', rv_star (mkrv (cs + 48) x m) (mkrv (cs + 76) x' m) /\
      x' 17 = w32 (x 10) /\
      [x' 10; x' 11; x' 12; x' 13; x' 14; x' 15] =
        map w32 [x 11; x 12; x 13; x 14; x 15; x 16] /\
      x' 1 = x 1 /\ x' 2 = x 2 /\ x' 3 = x 3.
  Proof.
    intros Hm. destruct (stub_code _ Hm) as (is & Hc & Ha & Hl & Eis).
    rewrite Eis in Hc, Ha. cbn [app li_insns] in Hc, Ha.
    eexists. split; [|].
    - stp. stp. stp. stp. stp. stp. stp. apply rv_star_refl.
    - cbn [iop_eval]. autox. rewrite !Z.add_0_r. repeat split.
  Qed.

  Lemma enter_sys s ret t s' x m :
    mcore s x m -> Forall okret (s_stk s) -> okret ret ->
    x 1 = cs + off ret ->
    enter s CSys ret = Ok t s' ->
    exists r', rv_to os (mkrv (cs + 48) x m) t r' /\ mst s' r'.
  Proof.
    intros Hm Hstk [Hret Hni] Hra He. cbn [Ph2Sem.enter] in He.
    pose proof Hm as [Mr Msp Mspu Mgp Mmem Mcode Ml].
    destruct (rg s 0) as [num|] eqn:E0; [|discriminate]. destruct (Mr _ _ E0) as (Ex0 & Un).
    cbn in Ex0.
    destruct (os_nargs os num <=? 6)%nat eqn:En6; [|discriminate].
    destruct (forallb is_some _) eqn:Efa; [|discriminate].
    pose proof (firstn_some s x (os_nargs os num) ltac:(rewrite <- Mmem; exact Hm) Efa) as Eargs.
    rewrite Eargs in He.
    destruct (os_call os num _ _) as [[v m']|] eqn:Ecall; [|discriminate].
    destruct (keeps m') eqn:Ek; [|discriminate]. injection He as <- <-.
    destruct (sys_prep _ x Mcode) as (x' & Hst & E17 & Ear & E1 & E2 & E3).
    assert (is_u32 (x 11) -> True) as _ by auto.
    destruct (stub_code _ Mcode) as (is & Hc & Ha & Hl & Eis).
    rewrite Eis in Hc, Ha. cbn [app li_insns] in Hc, Ha.
    apply words_atb_ok in Ek.
    destruct (stub_code _ Ek) as (is' & Hc' & Ha' & Hl' & Eis').
    rewrite Eis' in Hc', Ha'. cbn [app li_insns] in Hc', Ha'.
    assert (firstn (os_nargs os num) [x' 10; x' 11; x' 12; x' 13; x' 14; x' 15]
            = firstn (os_nargs os num) [x 11; x 12; x 13; x 14; x 15; x 16]) as Ear'.
    { rewrite Ear, firstn_map. rewrite <- Eargs at 2. rewrite <- Eargs.
      rewrite map_map. apply map_ext_in. intros o Ho.
      assert (exists q, o = rg s q) as (q & ->).
      { assert (In o (map (rg s) [1; 2; 3; 4; 5; 6])) as Hi.
        { rewrite <- (firstn_skipn (os_nargs os num)). apply in_or_app. left. exact Ho. }
        apply in_map_iff in Hi. destruct Hi as (q & <- & _). eauto. }
      destruct (rg s q) as [z|] eqn:Eq; [|reflexivity].
      apply w32_id. apply (Mr _ _ Eq). }
    eexists. split.
    - rewrite <- (app_nil_l [_]). eapply to_trans; [apply star_to; exact Hst|].
      rewrite <- (app_nil_r [_]). eapply to_trans.
      + eapply exec_ecall.
        * rewrite (step_at m cs _ 76 IECALL x' Hc Ha eq_refl ltac:(lia) eq_refl). reflexivity.
        * unfold rget. cbn [rx]. change (17 =? 0) with false. cbv iota. rewrite E17, Ex0. symmetry. apply w32_id; auto.
        * unfold rv_sys_args, rget. cbn [rx Z.eqb]. change (10 =? 0) with false.
          cbn [Pos.eqb]. symmetry. exact Ear'.
        * cbn [rm]. rewrite Mmem. exact Ecall.
      + apply star_to. cbn [rpc rx].
        replace (w32 (cs + 76 + 4)) with (cs + 80) by (symmetry; apply (pc_norm cs _ 76 4 80 Ha); cbn [length]; lia).
        eapply (star_at m' cs); [exact Hc'|exact Ha'|reflexivity|lia|reflexivity|
          cbn [rv_exec rpc rx rm]; reflexivity|]. apply rv_star_refl.
    - unfold rget. cbn [rpc rx rm]. change (1 =? 0) with false. cbv iota. rewrite xset_zero.
      rewrite xset_other by lia. rewrite E1, Hra, Z.add_0_r.
      destruct (okoff_range _ Hret) as (Ew & E4).
      constructor; cbn [rpc rx rm s_pt s_stk]; auto.
      + rewrite Ew. lia.
      + constructor; cbn [s_reg s_sp s_mem s_latch]; auto.
        * intros i z E. apply rg_some in E. destruct E as [Hi E]. cbn in E.
          destruct (Z.eqb_spec i 0); [|discriminate]. subst i. inversion E; subst.
          rewrite xset_same by lia. split; [reflexivity|apply w32_range].
        * rewrite xset_other by lia. congruence.
        * rewrite xset_other by lia. congruence.
        * discriminate.
      + destruct ret; tauto.
  Qed.

  Lemma enter_sys_halt s ret t x m :
    mcore s x m -> enter s CSys ret = Halt t ->
    exists n, rv_run os n (mkrv (cs + 48) x m) = (t, Exited).
  Proof.
    intros Hm He. cbn [Ph2Sem.enter] in He.
    pose proof Hm as [Mr Msp Mspu Mgp Mmem Mcode Ml].
    destruct (rg s 0) as [num|] eqn:E0; [|discriminate]. destruct (Mr _ _ E0) as (Ex0 & Un).
    cbn in Ex0.
    destruct (os_nargs os num <=? 6)%nat eqn:En6; [|discriminate].
    destruct (forallb is_some _) eqn:Efa; [|discriminate].
    pose proof (firstn_some s x (os_nargs os num) ltac:(rewrite <- Mmem; exact Hm) Efa) as Eargs.
    rewrite Eargs in He.
    destruct (os_call os num _ _) as [[v m']|] eqn:Ecall; [destruct (keeps m'); discriminate|].
    injection He as <-.
    destruct (sys_prep _ x Mcode) as (x' & Hst & E17 & Ear & E1 & E2 & E3).
    destruct (stub_code _ Mcode) as (is & Hc & Ha & Hl & Eis).
    rewrite Eis in Hc, Ha. cbn [app li_insns] in Hc, Ha.
    assert (firstn (os_nargs os num) [x' 10; x' 11; x' 12; x' 13; x' 14; x' 15]
            = firstn (os_nargs os num) [x 11; x 12; x 13; x 14; x 15; x 16]) as Ear'.
    { rewrite Ear, firstn_map. rewrite <- Eargs at 2. rewrite <- Eargs.
      rewrite map_map. apply map_ext_in. intros o Ho.
      assert (exists q, o = rg s q) as (q & ->).
      { assert (In o (map (rg s) [1; 2; 3; 4; 5; 6])) as Hi.
        { rewrite <- (firstn_skipn (os_nargs os num)). apply in_or_app. left. exact Ho. }
        apply in_map_iff in Hi. destruct Hi as (q & <- & _). eauto. }
      destruct (rg s q) as [z|] eqn:Eq; [|reflexivity].
      apply w32_id. apply (Mr _ _ Eq). }
    destruct Hst as [n Hn]. exists (n + 1)%nat. rewrite (rv_run_steps os _ _ _ Hn). cbn [rv_run].
    rewrite (step_at m cs _ 76 IECALL x' Hc Ha eq_refl ltac:(lia) eq_refl).
    cbn [rv_exec]. unfold rv_sys_args, rget. cbn [rx rm]. cbn [Z.eqb].
    rewrite E17, Ex0, (w32_id num Un), Ear', Mmem, Ecall. reflexivity.
  Qed.

  (** ** one step *)
  (** the machine, started in [r], does what the IR outcome [o] says *)
  Definition simres (o : res) (r : rvstate) : Prop :=
    match o with
    | Ok t s' => exists r', rv_to os r t r' /\ mst s' r'
    | Halt t => exists n, rv_run os n r = (t, Exited)
    | UB => True
    end.

  Lemma simres_star o r r1 : rv_star r r1 -> simres o r1 -> simres o r.
  Proof.
    intros Hs. destruct o as [t s'|t|]; cbn; auto.
    - intros (r' & Ht & Hm). exists r'. split; auto.
      change t with ([] ++ t). eapply to_trans; [apply star_to; exact Hs|exact Ht].
    - intros (n & Hn). destruct Hs as [k Hk]. exists (k + n)%nat.
      rewrite (rv_run_steps os _ _ _ Hk). exact Hn.
  Qed.

  (** the same, with at least one machine step *)
  Definition simresP (o : res) (r : rvstate) : Prop :=
    match o with
    | Ok t s' => exists k r', rv_run os (S k) r = (t, Running r') /\ mst s' r'
    | Halt t => exists n, rv_run os n r = (t, Exited)
    | UB => True
    end.

  Lemma simresP_plus o r r1 : rv_plus r r1 -> simres o r1 -> simresP o r.
  Proof.
    intros [n Hs]. destruct o as [t s'|t|]; cbn; auto.
    - intros (r' & [k Ht] & Hm). exists (n + k)%nat, r'. split; auto.
      exact (eq_trans (rv_run_steps os (S n) _ _ Hs k) Ht).
    - intros (k & Hn). exists (S n + k)%nat.
      exact (eq_trans (rv_run_steps os (S n) _ _ Hs k) Hn).
  Qed.

  Lemma simresP_weaken o r : simresP o r -> simres o r.
  Proof.
    destruct o as [t s'|t|]; cbn; auto. intros (k & r' & H & Hm). exists r'. split; auto. exists (S k). exact H.
  Qed.

  (** a changed program counter means time has passed *)
  Lemma simresP_pc t s' r : simres (Ok t s') r -> rpc r <> cs + off (s_pt s') -> simresP (Ok t s') r.
  Proof.
    cbn. intros (r' & [k H] & Hm) Hpc. destruct k as [|k]; [|exists k, r'; auto].
    cbn in H. inversion H; subst. destruct Hm. contradiction.
  Qed.

  Lemma sim_enter s c ret x m :
    mcore s x m -> Forall okret (s_stk s) -> okret ret ->
    x 1 = cs + off ret ->
    simres (enter s c ret) (mkrv (l_faddr L c) x m).
  Proof.
    intros Hm Hstk Hret Hra. destruct c as [|f].
    - destruct (enter s CSys ret) as [t s'|t|] eqn:E; cbn [simres l_faddr rv_layout]; auto.
      + eapply enter_sys; eauto.
      + eapply enter_sys_halt; eauto.
    - destruct (enter s (CFun f) ret) as [t s'|t|] eqn:E; cbn [simres l_faddr rv_layout]; auto.
      + destruct (enter_fun _ _ _ _ _ _ _ Hm Hstk Hret Hra E) as (-> & r' & Hs & Hm').
        exists r'. split; auto. apply star_to. exact Hs.
      + cbn [Ph2Sem.enter] in E. destruct (nth_error (p_funcs p) f); [|discriminate].
        destruct (touches_code _ _ _); discriminate.
  Qed.

  Lemma sim_jump s id x m :
    mcore s x m -> Forall okret (s_stk s) ->
    simres (jump_to p s id) (mkrv (cs + e_bb e id) x m).
  Proof.
    intros Hm Hstk. unfold jump_to.
    destruct (find_block p id) as [[f b]|] eqn:E; cbn; auto.
    destruct (find_block_spec _ _ _ _ E) as (fn & bl & Hf & Hb & Eid).
    destruct (Nat.eqb_spec b 0) as [|Hb0]; cbn [simres]; auto.
    pose proof (lf_bb _ _ _ _ _ _ LF _ _ _ _ Hf Hb) as Ebb.
    destruct b as [|b]; [congruence|]. rewrite Eid in Ebb.
    eexists. split; [apply star_to, rv_star_refl|].
    constructor; cbn [s_pt s_stk rpc rx rm]; auto.
    - congruence.
    - destruct Hm. constructor; cbn [s_reg s_sp s_mem s_latch]; auto. discriminate.
    - unfold okpt. rewrite <- Ebb. apply bb_ok.
  Qed.

  (** the point after an instruction is a legal address *)
  Lemma adj_at f fn b bl k i : nth_error (p_funcs p) f = Some fn ->
    nth_error (f_blocks fn) b = Some bl -> nth_error (b_insns bl) k = Some i ->
    exists i' w, i' = fl_adjust false (f_stack fn) (option_map b_id (nth_error (f_blocks fn) (S b))) i /\
      rv_emit e (off (PFun f b k)) i' = Some w /\
      placed ws (off (PFun f b k)) w /\
      off (PFun f b (S k)) = off (PFun f b k) + 4 * Z.of_nat (length w).
  Proof.
    intros Hf Hb Hk. eexists.
    destruct (lf_insn _ _ _ _ _ _ LF f fn b bl k
      (fl_adjust false (f_stack fn) (option_map b_id (nth_error (f_blocks fn) (S b))) i) Hf Hb)
      as (w & Ew & Pw & En).
    { unfold adj. rewrite nth_error_map, Hk. reflexivity. }
    exists w. auto.
  Qed.

  Lemma adjust_other stk nxt i : p_op i <> OP_return -> fl_adjust false stk nxt i = i.
  Proof.
    intros H. unfold fl_adjust. destruct i as [o s0 s1 d fn nx th el dt]. cbn in *.
    destruct o; try reflexivity. congruence.
  Qed.

  Lemma simple_ok s i nxt o s' x m t w :
    rv_emit e o i = Some w -> placed ws o w -> off nxt = o + 4 * Z.of_nat (length w) ->
    simple (p_op i) = true -> mcore s x m -> Forall okret (s_stk s) ->
    match nxt with PInit _ => x 1 = cs + 20 | _ => True end ->
    exec s i nxt = Ok t s' ->
    exists r', rv_to os (mkrv (cs + o) x m) t r' /\ mst s' r'.
  Proof.
    intros Hw Pw En Hs Hm Hstk Hra He.
    pose proof (emit_len _ _ _ Hw) as El.
    pose proof (ro_cs OK) as (Hc0 & Hc4 & Hc1).
    destruct (sim_simple p L os gpv keeps e cs ws (w32_range _) eq_refl eq_refl (conj Hc0 Hc1)
                ltac:(rewrite (lf_data _ _ _ _ _ _ LF); reflexivity)
                s i nxt t s' (cs + o) o x m Hs Hm He) as (-> & Ept & Estk & x' & m' & Hst & Hm' & H1).
    - intros c Hc. destruct (callee_fn _ _ Hc) as (o' & E1 & E2 & _).
      exists o'. rewrite (lf_code _ _ _ _ _ _ LF). auto.
    - intros Hr. destruct Hm. eapply code_here; eauto.
    - rewrite <- El. apply arange_placed; auto.
    - eexists. split; [apply star_to; exact Hst|].
      constructor; cbn [rpc rx rm]; auto.
      + rewrite Ept, En, El. lia.
      + rewrite Ept. unfold okpt. rewrite En. apply (placed_okoff' _ _ Pw).
      + rewrite Estk; auto.
      + rewrite Ept. destruct nxt; auto. rewrite H1. exact Hra.
  Qed.

  Lemma exec_simple_not_halt s i nxt t : simple (p_op i) = true -> exec s i nxt <> Halt t.
  Proof.
    unfold Ph2Sem.exec. destruct (p_op i); cbn [simple]; try discriminate; intros _;
    repeat match goal with
    | |- context [match rg s ?j with _ => _ end] => destruct (rg s j)
    | |- context [if ?c then _ else _] => destruct c
    | |- context [match callee_of ?a ?b with _ => _ end] => destruct (callee_of a b)
    | |- context [match c_unop ?a ?b with _ => _ end] => destruct (c_unop a b)
    | |- context [match c_binop ?a ?b ?c with _ => _ end] => destruct (c_binop a b c)
    end; discriminate.
  Qed.

  Lemma jalr_pc o : okoff o -> w32 (cs + o + 0) - w32 (cs + o + 0) mod 2 = cs + o.
  Proof. intros H. destruct (okoff_range _ H) as (E & E4). rewrite Z.add_0_r, E. lia. Qed.

  Lemma jal_pc o o' : okoff o' -> w32 (cs + o + (o' - o)) = cs + o'.
  Proof. intros H. destruct (okoff_range _ H) as (E & E4). rewrite <- E. f_equal. lia. Qed.

  Lemma exec_pt s i nxt t s' : simple (p_op i) = true -> exec s i nxt = Ok t s' -> s_pt s' = nxt.
  Proof.
    unfold Ph2Sem.exec. destruct (p_op i); cbn [simple]; try discriminate; intros _;
    repeat match goal with
    | |- context [match rg s ?j with _ => _ end] => destruct (rg s j)
    | |- context [if ?c then _ else _] => destruct c
    | |- context [match callee_of ?a ?b with _ => _ end] => destruct (callee_of a b)
    | |- context [match c_unop ?a ?b with _ => _ end] => destruct (c_unop a b)
    | |- context [match c_binop ?a ?b ?c with _ => _ end] => destruct (c_binop a b c)
    end; intros H; inversion H; reflexivity.
  Qed.

  Lemma emit_pos o i w : rv_emit e o i = Some w -> simple (p_op i) = true -> (0 < length w)%nat.
  Proof.
    intros He Hs. rewrite (emit_len _ _ _ He).
    unfold rv_emit, rv_insns, li_insns, rv_bin_insns in *.
    destruct (p_op i) eqn:Eop; try discriminate;
    repeat match goal with
    | |- context [if ?c then _ else _] => destruct c
    end; cbn [length app]; try lia; try (destruct (e_fn e (p_func i)); [cbn; lia|discriminate He]).
  all: unfold mul_insns, div_insns; cbn [length]; lia.
  Qed.

  Lemma sim_exec f fn b bl k i s r :
    s_pt s = PFun f b k -> nth_error (p_funcs p) f = Some fn ->
    nth_error (f_blocks fn) b = Some bl -> nth_error (b_insns bl) k = Some i ->
    mst s r -> simresP (exec s i (PFun f b (S k))) r.
  Proof.
    intros Hpt Hf Hb Hk [Hpc Hm Hokpt Hstk _].
    destruct r as [pc x m]. cbn [rpc rx rm] in *. rewrite Hpt in *. subst pc.
    destruct (adj_at _ _ _ _ _ _ Hf Hb Hk) as (i' & w & Ei' & Hw & Pw & En).
    set (o := off (PFun f b k)) in *.
    assert (Hnx : okpt (PFun f b (S k))) by (unfold okpt; rewrite En; apply (placed_okoff' _ _ Pw)).
    assert (Ho : okoff o) by (apply (placed_okoff' _ _ Pw)).
    assert (Hrn : okret (PFun f b (S k))) by (split; [exact Hnx|exact I]).
    destruct (simple (p_op i)) eqn:Esim.
    { assert (i' = i) as -> by (subst i'; apply adjust_other; intros E; rewrite E in Esim; discriminate).
      destruct (exec s i (PFun f b (S k))) as [t s'|t|] eqn:He; cbn [simresP]; auto.
      - change (simresP (Ok t s') (mkrv (cs + o) x m)). apply simresP_pc.
        + eapply simple_ok; eauto. exact I.
        + cbn [rpc]. pose proof (exec_pt _ _ _ _ _ Esim He) as ->. rewrite En.
          pose proof (emit_pos _ _ _ Hw Esim). lia.
      - exfalso. eapply exec_simple_not_halt; eauto. }
    pose proof Hm as [Mr Msp Mspu Mgp Mmem Mcode Ml].
    destruct (p_op i) eqn:Eop; try discriminate Esim;
      [ (* call *) assert (i' = i) as Ei by (subst i'; apply adjust_other; congruence); clear Ei'; subst i'
      | (* indirect *) assert (i' = i) as Ei by (subst i'; apply adjust_other; congruence); clear Ei'; subst i'
      | (* return *)
      | (* branch *) assert (i' = i) as Ei by (subst i'; apply adjust_other; congruence); clear Ei'; subst i'
      | (* jump *) assert (i' = i) as Ei by (subst i'; apply adjust_other; congruence); clear Ei'; subst i' ].
    - (* call *)
      unfold Ph2Sem.exec. rewrite Eop.
      destruct (callee_of p (p_func i)) as [c|] eqn:Ec; cbn [simresP]; auto.
      destruct (callee_fn _ _ Ec) as (o' & Eo & Eol & Hoo).
      destruct (code_here _ _ _ _ Mcode Hw Pw) as (Hc & Ha & Hlen).
      { unfold regs_ok; rewrite Eop; cbn. repeat split; intros; discriminate. }
      unfold rv_insns in Hc, Ha, Hlen. rewrite Eop, Eo in Hc, Ha, Hlen.
      eapply simresP_plus.
      + start (cs + o). eapply plus_at; [exact Hc|exact Ha|reflexivity|lia|reflexivity| |apply rv_star_refl].
        cbn [rv_exec rpc rx rm]. reflexivity.
      + rewrite Z.add_0_r, jal_pc by assumption. rewrite <- Eol. apply sim_enter; auto; [|].
        * destruct Hm. constructor; auto; intros; rewrite xset_other by (try apply rg_some in H; lia); auto.
        * rewrite xset_same by lia. rewrite En, Hlen. cbn [length].
          replace (o + 4 * Z.of_nat 1) with (o + 4) by lia.
          rewrite w32_idem. unfold okpt in Hnx. rewrite En, Hlen in Hnx. cbn [length] in Hnx.
          destruct (okoff_range _ Hnx) as (E & _). rewrite <- Z.add_assoc. exact E.
    - (* indirect *)
      unfold Ph2Sem.exec. rewrite Eop.
      destruct (s_latch s) as [a|] eqn:El; cbn [simresP]; auto.
      destruct (Ml _ eq_refl) as (E5 & U5).
      destruct (code_here _ _ _ _ Mcode Hw Pw) as (Hc & Ha & Hlen).
      { unfold regs_ok; rewrite Eop; cbn. repeat split; intros; discriminate. }
      unfold rv_insns in Hc, Ha, Hlen. rewrite Eop in Hc, Ha, Hlen.
      set (x1 := xset x 1 (w32 (cs + o + 4))).
      assert (Hm1 : mcore s x1 m).
      { subst x1. constructor; auto; intros; rewrite xset_other by (try apply rg_some in H; lia); auto.
        rewrite El in H. injection H as <-. auto. }
      assert (H1 : x1 1 = cs + off (PFun f b (S k))).
      { subst x1. rewrite xset_same by lia. rewrite En, Hlen. cbn [length].
        replace (o + 4 * Z.of_nat 1) with (o + 4) by lia.
        rewrite w32_idem. unfold okpt in Hnx. rewrite En, Hlen in Hnx. cbn [length] in Hnx.
        destruct (okoff_range _ Hnx) as (E & _). rewrite <- Z.add_assoc. exact E. }
      assert (Hgo : forall c, okoff (l_faddr L c - cs) -> a = w32 (l_faddr L c) ->
                simresP (enter s c (PFun f b (S k))) (mkrv (cs + o) x m)).
      { intros c Hoc Ea. eapply simresP_plus.
        - start (cs + o). eapply plus_at; [exact Hc|exact Ha|reflexivity|lia|reflexivity| |apply rv_star_refl].
          cbn [rv_exec rpc rx rm]. unfold rget. cbn [rx]. change (5 =? 0) with false. cbv iota.
          reflexivity.
        - rewrite !Z.add_0_r. fold x1.
          replace (w32 (x 5) - w32 (x 5) mod 2) with (l_faddr L c).
          + apply sim_enter; auto.
          + rewrite E5, Ea, w32_idem. pose proof (okoff_range _ Hoc) as (E & E4).
            replace (cs + (l_faddr L c - cs)) with (l_faddr L c) in * by lia. lia. }
      destruct (Z.eqb_spec a (w32 (l_faddr L CSys))) as [Ea|_].
      + apply Hgo; auto. cbn. pose proof stub_len. unfold okoff. lia.
      + destruct (find_idx _ (seq 0 (length (p_funcs p)))) as [g|] eqn:Eg; cbn [simresP]; auto.
        destruct (find_idx_spec _ _ _ Eg) as (g' & Hg & Pg & _).
        assert (g < length (p_funcs p))%nat as Hlt.
        { rewrite <- (seq_length (length (p_funcs p)) 0). apply nth_error_Some. congruence. }
        assert (g' = g).
        { apply (nth_error_nth _ _ O) in Hg. rewrite seq_nth in Hg by assumption. cbn in Hg. congruence. }
        subst g'. apply Z.eqb_eq in Pg. apply Hgo; auto.
        destruct (nth_error (p_funcs p) g) as [fg|] eqn:Efg; [|apply nth_error_None in Efg; lia].
        cbn. replace (cs + foff g - cs) with (foff g) by lia. eapply foff_ok; eauto.
    - (* return *)
      unfold Ph2Sem.exec. rewrite Eop, Hpt.
      destruct (s_stk s) as [|ret stk] eqn:Estk; cbn [simresP]; auto.
      rewrite Hf. cbn [c_slot rv_conv]. rewrite Z.add_0_r.
      destruct (Z.eqb_spec (ldw (s_mem s) (s_sp s)) (w32 (l_link L ret))) as [Elk|_]; cbn [simresP]; auto.
      inversion Hstk as [|? ? [Hret Hni] Hstk']; subst.
      assert (Hfin : forall v rs, (p_src0 i = -1 /\ rs = s_reg s) \/
                 (rg s (p_src0 i) = Some v /\ rs = rset (s_reg s) 0 v) ->
        simresP (Ok [] (mkst ret rs (w32 (s_sp s + (f_stack fn + 4))) (s_mem s) stk None))
               (mkrv (cs + o) x (s_mem s))).
      2:{ destruct (Z.eqb_spec (p_src0 i) (-1)) as [E1|E1]; [apply (Hfin 0); auto|].
          destruct (rg s (p_src0 i)) as [v|] eqn:Er; [|exact I]. apply (Hfin v); auto. }
      intros v rs Hrs.
      assert (Hi' : p_op (fl_adjust false (f_stack fn) (option_map b_id (nth_error (f_blocks fn) (S b))) i)
                = OP_return /\ p_src0 (fl_adjust false (f_stack fn) (option_map b_id (nth_error (f_blocks fn) (S b))) i)
                = p_src0 i /\ p_src1 (fl_adjust false (f_stack fn) (option_map b_id (nth_error (f_blocks fn) (S b))) i)
                = f_stack fn).
      { unfold fl_adjust. rewrite Eop. cbn. auto. }
      set (i' := fl_adjust false (f_stack fn) (option_map b_id (nth_error (f_blocks fn) (S b))) i) in *.
      destruct Hi' as (Eop' & Es0 & Es1).
      destruct (code_here _ _ _ _ Mcode Hw Pw) as (Hc & Ha & Hlen).
      { unfold regs_ok; rewrite Eop', Es0; cbn. repeat split; intros; try discriminate.
        - destruct Hrs as [[]|[Er _]]; auto. right. apply rg_some in Er. unfold vreg. tauto.
        }
      unfold rv_insns, li_insns in Hc, Ha. rewrite Eop', Es0, Es1 in Hc, Ha. cbn [app] in Hc, Ha.
      set (V := iadd (f_stack fn) 4) in *.
      set (ra := ldw (s_mem s) (s_sp s)) in *.
      destruct (okoff_range _ Hret) as (Ew & E4). cbn [l_link rv_layout] in Elk.
      assert (Hpcr : w32 (cs + off ret + 0) - w32 (cs + off ret + 0) mod 2 = cs + off ret)
        by (apply jalr_pc; exact Hret).
      assert (Esp : forall z, z = s_sp s ->
         w32 (z + w32 (w32 (lui_val V) + rv_lo V)) = w32 (s_sp s + (f_stack fn + 4))).
      { intros z ->. rewrite w32_add_l, lui_addi, w32_add_r.
        unfold V, iadd. rewrite <- (w32_add_r _ (wrap _)), w32_wrap, w32_add_r. reflexivity. }
      set (x0 := if p_src0 i =? -1 then x else xset x 10 (x (p_src0 i + 10) + 0)).
      assert (X0 : x0 2 = x 2 /\ x0 3 = x 3).
      { subst x0. destruct (p_src0 i =? -1); split; reflexivity. }
      destruct X0 as (X2 & X3).
      eapply (simresP_plus _ _ (mkrv (cs + off ret)
         (xset (xset (xset (xset x0 1 (cs + off ret)) 5 (lui_val V)) 5 (V)) 2
               (s_sp s + (f_stack fn + 4))) (s_mem s))).
      + start (cs + o).
        eapply (plus_at _ _ _ 0); [exact Hc|exact Ha|reflexivity|lia|reflexivity| |].
        { instantiate (1 := mkrv (cs + o + 4) x0 (s_mem s)). subst x0.
          destruct (Z.eqb_spec (p_src0 i) (-1)) as [E1|E1]; cbn [rv_exec rpc rx rm];
            rewrite (pc_norm (cs + o) _ 0 4 4 Ha) by (cbn [length app]; lia).
          - reflexivity.
          - unfold rget. cbn [rx iop_eval]. destruct (Z.eqb_spec (p_src0 i + 10) 0); [|reflexivity].
            destruct Hrs as [[]|[Er _]]; [lia|]. apply rg_some in Er. lia. }
        stp. stp. stp. stp. stp. cbn [rop_eval iop_eval lop_eval]. autox.
        assert (Elw : w32 (ldw (s_mem s) (x0 2 + 0)) = cs + off ret).
        { rewrite X2, Z.add_0_r, Msp. fold ra. rewrite Elk, w32_idem. exact Ew. }
        rewrite Elw, Hpcr.
        match goal with |- rv_star (mkrv _ ?A _) (mkrv _ ?B _) => replace A with B; [apply rv_star_refl|] end.
        apply xset_cong; [apply xset_cong; [apply xset_cong; [apply xset_cong|]|]|].
        * reflexivity.
        * rewrite Elw. exact Ew.
        * reflexivity.
        * rewrite w32_add_l, lui_addi. reflexivity.
        * symmetry. apply Esp. congruence.
      + eexists. split; [apply star_to, rv_star_refl|]. constructor; cbn [s_pt s_stk rpc rx rm]; auto.
        * constructor; cbn [s_reg s_sp s_mem s_latch].
          -- intros j z E. apply rg_some in E. destruct E as [Hj E]. cbn [s_reg] in E. xsimp.
             destruct Hrs as [[E1 ->]|[Er ->]].
             ++ subst x0. rewrite E1. cbn [Z.eqb Pos.eqb]. apply Mr. rewrite rg_in by assumption. exact E.
             ++ subst x0. apply rg_some in Er as Er'. destruct (Z.eqb_spec (p_src0 i) (-1)); [lia|].
                unfold rset in E. destruct (Z.eqb_spec j 0) as [->|].
                ** inversion E; subst. rewrite xset_same by lia. rewrite Z.add_0_r.
                   destruct (Mr _ _ Er) as (-> & _). split; [reflexivity|apply w32_range].
                ** rewrite xset_other by lia. apply Mr. rewrite rg_in by assumption. exact E.
          -- xsimp. reflexivity.
          -- apply w32_range.
          -- xsimp. congruence.
          -- reflexivity.
          -- exact Mcode.
          -- discriminate.
        * destruct ret; tauto.
    - (* branch *)
      unfold Ph2Sem.exec. rewrite Eop.
      destruct (rg s (p_src0 i)) as [v|] eqn:Er; cbn [simresP]; auto.
      destruct (Mr _ _ Er) as (Ex & Uv). apply rg_some in Er as Er'.
      destruct (code_here _ _ _ _ Mcode Hw Pw) as (Hc & Ha & Hlen).
      { unfold regs_ok; rewrite Eop; cbn. repeat split; intros; try discriminate; unfold vreg in *; lia. }
      unfold rv_insns, li_insns in Hc, Ha. rewrite Eop in Hc, Ha. cbn [app] in Hc, Ha.
      rewrite (lf_code _ _ _ _ _ _ LF) in Hc, Ha.
      set (V := iadd cs (e_bb e (p_then i))) in *.
      assert (EV : w32 (w32 (lui_val V) + rv_lo V) = cs + e_bb e (p_then i)).
      { rewrite w32_add_l, lui_addi. unfold V, iadd. rewrite w32_wrap.
        apply okoff_range. apply bb_ok. }
      assert (Hsc : forall x', (forall q, visible q -> x' q = x q) -> forall id,
                simres (jump_to p s id) (mkrv (cs + e_bb e id) x' m)).
      { intros x' Hx' id.
        replace (jump_to p s id) with
          (jump_to p (mkst (s_pt s) (s_reg s) (s_sp s) (s_mem s) (s_stk s) None) id) by reflexivity.
        apply sim_jump; auto.
        constructor; cbn [s_reg s_sp s_mem s_latch]; auto.
        - intros j z E. rewrite Hx'; [apply Mr; exact E|].
          apply rg_some in E. unfold visible. lia.
        - rewrite Hx'; auto. unfold visible; lia.
        - rewrite Hx'; auto. unfold visible; lia.
        - discriminate. }
      pose proof (bb_ok (p_else i)) as Hel. pose proof (bb_ok (p_then i)) as Hth.
      destruct (Z.eqb_spec v 0) as [E0|E0].
      + eapply simresP_plus.
        * start (cs + o). stp. stp.
          eapply (star_at _ _ _ 8); [exact Hc|exact Ha|reflexivity|lia|reflexivity| |].
          { cbn [rv_exec rpc rx rm]. unfold rget. cbn [rx]. change (0 =? 0) with true. cbv iota.
            destruct (Z.eqb_spec (p_src0 i + 10) 0); [lia|]. xsimp. rewrite Ex, E0.
            cbn [bop_eval Z.eqb]. reflexivity. }
          rewrite (pc_norm (cs + o) _ 8 8 16 Ha) by (cbn [length]; lia).
          eapply (star_at _ _ _ 16); [exact Hc|exact Ha|reflexivity|lia|reflexivity| |apply rv_star_refl].
          cbn [rv_exec rpc rx rm]. reflexivity.
        * rewrite <- (Z.add_assoc cs o 16). rewrite jal_pc by assumption. rewrite xset_zero.
          apply Hsc. intros q Hq. unfold visible in Hq. xsimp. reflexivity.
      + eapply simresP_plus.
        * start (cs + o). stp. stp.
          eapply (star_at _ _ _ 8); [exact Hc|exact Ha|reflexivity|lia|reflexivity| |].
          { cbn [rv_exec rpc rx rm]. unfold rget. cbn [rx]. change (0 =? 0) with true. cbv iota.
            destruct (Z.eqb_spec (p_src0 i + 10) 0); [lia|]. xsimp. rewrite Ex.
            cbn [bop_eval]. destruct (Z.eqb_spec v 0); [contradiction|]. reflexivity. }
          rewrite (pc_norm (cs + o) _ 8 4 12 Ha) by (cbn [length]; lia).
          stp. apply rv_star_refl.
        * cbn [iop_eval]. autox. rewrite EV. rewrite jalr_pc by assumption.
          apply Hsc. intros q Hq. unfold visible in Hq. xsimp. reflexivity.
    - (* jump *)
      unfold Ph2Sem.exec. rewrite Eop.
      destruct (code_here _ _ _ _ Mcode Hw Pw) as (Hc & Ha & Hlen).
      { unfold regs_ok; rewrite Eop; cbn. repeat split; intros; discriminate. }
      unfold rv_insns in Hc, Ha. rewrite Eop in Hc, Ha.
      eapply simresP_plus.
      + start (cs + o). eapply plus_at; [exact Hc|exact Ha|reflexivity|lia|reflexivity| |apply rv_star_refl].
        cbn [rv_exec rpc rx rm]. reflexivity.
      + rewrite Z.add_0_r, jal_pc by apply bb_ok. rewrite xset_zero. apply sim_jump; auto.
  Qed.

  (** ** the whole step relation *)
  Hypothesis os_exit : forall v m, os_nargs os 93 = 1%nat /\ os_call os 93 [v] m = None.

  Theorem sim_step s r : mst s r -> simresP (step s) r \/
    (exists f b k s', s_pt s = PFun f b k /\ s_pt s' = PFun f (S b) 0 /\
       step s = Ok [] s' /\ mst s' r).
  Proof.
    intros Hms. pose proof Hms as [Hpc Hm Hokpt Hstk Hra]. unfold Ph2Sem.step.
    destruct (s_pt s) as [k|f b k|] eqn:Ept.
    - (* global initialiser *)
      destruct r as [pc x m]. cbn [rpc rx rm] in *. subst pc.
      destruct (nth_error (g_insns p) k) as [i|] eqn:Hk.
      + destruct (lf_init _ _ _ _ _ _ LF _ _ Hk) as (w & Hw & Pw & En).
        left.
        assert (simple (p_op i) = true -> simresP (exec s i (PInit (S k))) (mkrv (cs + off (PInit k)) x m)) as G.
        { intros Hs. destruct (exec s i (PInit (S k))) as [t s'|t|] eqn:He; auto; [| |exact I].
          - apply simresP_pc; [eapply simple_ok; eauto|].
            cbn [rpc]. pose proof (exec_pt _ _ _ _ _ Hs He) as ->. rewrite En.
            pose proof (emit_pos _ _ _ Hw Hs). lia.
          - exfalso. eapply exec_simple_not_halt; eauto. }
        destruct (p_op i); try exact I; apply G; reflexivity.
      + left. destruct (Nat.eqb_spec k (length (g_insns p))) as [->|]; [|exact I].
        destruct (find_block p (p_mainbb p)) as [[f [|b]]|] eqn:Efb; try exact I.
        destruct (find_block_spec _ _ _ _ Efb) as (fn & bl & Hf & Hb & Eid).
        pose proof (lf_bb _ _ _ _ _ _ LF _ _ _ _ Hf Hb) as Ebb. cbn in Ebb. rewrite Eid in Ebb.
        destruct (lf_prel _ _ _ _ _ _ LF) as (w & Ew & Pw).
        assert (Eo : off (PInit (length (g_insns p))) = init_end rv_target hard p).
        { unfold point_off, init_end. rewrite firstn_all. reflexivity. }
        rewrite Eo. set (o := init_end rv_target hard p) in *.
        pose proof Hm as [Mr Msp Mspu Mgp Mmem Mcode Ml].
        pose proof (foff_ok _ _ Hf) as Hfo.
        assert (code_at m (cs + o)
          [ILUI 5 (lui_val (g_stack p)); II ADDI 5 5 (rv_lo (g_stack p)); IR ADD 5 3 5;
           IL LW 10 5 0; II ADDI 11 5 4; IJAL 0 (foff f - (o + 20))]) as Hc.
        { cbn [t_prelude rv_target] in Ew. unfold rv_prelude in Ew. rewrite Ebb in Ew.
          refine (proj2 (emits_some _ _ _ _ _ Ew) m (cs + o) _).
          - cbn [encs]. pose proof (placed_okoff' _ _ Pw) as (Ho & Ho2). pose proof (ro_len OK).
            rewrite (emits_length _ _ _ Ew) in Ho2. cbn [length] in Ho2.
            unfold okoff in *. repeat split; try enc1.
          - eapply placed_words; eauto. }
        assert (arange (cs + o) 6) as Ha.
        { pose proof (emits_length _ _ _ Ew) as El. pose proof (arange_placed _ _ Pw) as A.
          rewrite El in A. exact A. }
        eapply simresP_plus.
        * start (cs + o). stp. stp. stp. stp. stp.
          eapply (star_at _ _ _ 20); [exact Hc|exact Ha|reflexivity|lia|reflexivity| |apply rv_star_refl].
          cbn [rv_exec rpc rx rm]. reflexivity.
        * cbn [iop_eval rop_eval lop_eval]. autox. rewrite ?xset_zero.
          rewrite <- (Z.add_assoc cs o 20). rewrite jal_pc by assumption.
          change (cs + foff f) with (l_faddr L (CFun f)). apply sim_enter.
          -- assert (Et0 : w32 (x 3 + w32 (w32 (lui_val (g_stack p)) + rv_lo (g_stack p))) = w32 (gpv + g_stack p)).
             { rewrite w32_add_l, lui_addi, w32_add_r, Mgp. reflexivity. }
             rewrite Et0.
             constructor; cbn [s_reg s_sp s_mem s_latch].
             ++ intros j z E. apply rg_some in E. destruct E as [Hj E]. cbn [s_reg] in E.
                unfold rset in E. destruct (Z.eqb_spec j 1) as [->|N1].
                ** inversion E; subst. rewrite xset_same by lia. rewrite w32_add_l.
                   split; [reflexivity|apply w32_range].
                ** destruct (Z.eqb_spec j 0) as [->|N0].
                   --- inversion E; subst. xsimp. split; [|apply w32_range].
                       rewrite (ldw_cong (s_mem s) _ (gpv + g_stack p)); [reflexivity|].
                       rewrite Z.add_0_r. apply w32_idem.
                   --- xsimp. apply Mr. rewrite rg_in by assumption. exact E.
             ++ xsimp. exact Msp.
             ++ exact Mspu.
             ++ xsimp. exact Mgp.
             ++ exact Mmem.
             ++ exact Mcode.
             ++ discriminate.
          -- exact Hstk.
          -- split; [|exact I]. unfold okpt, okoff. cbn [point_off]. pose proof stub_len. lia.
          -- xsimp. exact Hra.
    - destruct (nth_error (p_funcs p) f) as [fn|] eqn:Hf; [|left; exact I].
      destruct (nth_error (f_blocks fn) b) as [bl|] eqn:Hb; [|left; exact I].
      destruct (nth_error (b_insns bl) k) as [i|] eqn:Hk.
      + left. eapply sim_exec; eauto.
      + destruct (Nat.eqb_spec k (length (b_insns bl))) as [->|]; [|left; exact I].
        destruct (nth_error (f_blocks fn) (S b)) as [bl'|] eqn:Hb'; [|left; exact I].
        right. eexists f, b, _, _. split; [reflexivity|]. split; [|split; [reflexivity|]]; [reflexivity|].
        pose proof (point_fall rv_target hard p _ _ _ _ Hf Hb) as Ef.
        constructor; cbn [s_pt s_stk]; auto.
        * rewrite Ef. exact Hpc.
        * destruct Hm. constructor; cbn [s_reg s_sp s_mem s_latch]; auto.
        * unfold okpt in *. rewrite Ef. exact Hokpt.
    - (* exit *)
      left.
      destruct (rg s 0) as [v|] eqn:E0; [|exact I].
      destruct r as [pc x m]. cbn [rpc rx rm] in *. subst pc.
      pose proof Hm as [Mr Msp Mspu Mgp Mmem Mcode Ml]. destruct (Mr _ _ E0) as (Ex & Uv). change (0 + 10) with 10 in Ex.
      destruct (stub_code _ Mcode) as (is & Hc & Ha & Hl & Eis).
      rewrite Eis in Hc, Ha. cbn [app li_insns] in Hc, Ha. cbn [point_off].
      cbn [simresP c_exit rv_conv].
      assert (exists x', rv_star (mkrv (cs + 20) x m) (mkrv (cs + 44) x' m) /\
                x' 17 = 93 /\ x' 10 = v) as (x' & Hst & E17 & E10).
      { eexists. split; [|split].
        - stp. stp. stp. stp. stp. stp. apply rv_star_refl.
        - cbn [iop_eval]. autox. reflexivity.
        - cbn [iop_eval]. autox. rewrite Z.add_0_r. rewrite Ex. apply w32_id; auto. }
      destruct Hst as [n Hn]. exists (n + 1)%nat. rewrite (rv_run_steps os _ _ _ Hn). cbn [rv_run].
      rewrite (step_at m cs _ 44 IECALL x' Hc Ha eq_refl ltac:(lia) eq_refl).
      cbn [rv_exec]. unfold rv_sys_args, rget. cbn [rx rm]. cbn [Z.eqb].
      rewrite E17. destruct (os_exit v m) as (-> & Ho). cbn [firstn]. rewrite E10, Ho. reflexivity.
  Qed.

  Theorem sim_run n : forall s r, mst s r ->
    simres (run p L rv_conv os gpv keeps n s) r.
  Proof.
    induction n as [|n IH]; intros s r Hm; cbn [run].
    - exists r. split; auto. apply star_to, rv_star_refl.
    - assert (simres (step s) r) as Hs.
      { destruct (sim_step _ _ Hm) as [Hs|(f & b & k & s' & _ & _ & -> & Hm')].
        - apply simresP_weaken. exact Hs.
        - exists r. split; auto. apply star_to, rv_star_refl. }
      destruct (step s) as [t s'|t|]; cbn [simres] in Hs; auto.
      destruct Hs as (r' & Ht & Hm'). specialize (IH _ _ Hm').
      destruct (run p L rv_conv os gpv keeps n s') as [t' s''|t'|]; cbn [simres] in *; auto.
      + destruct IH as (r'' & Ht' & Hm''). exists r''. split; auto. eapply to_trans; eauto.
      + destruct IH as (k & Hk). destruct Ht as (j & Hj). exists (j + k)%nat.
        rewrite (rv_run_app _ _ _ _ _ Hj), Hk. reflexivity.
  Qed.

  (** *** progress: [n] IR steps take at least about [n / (B+1)] machine steps, where
      [B] bounds the number of blocks of a function *)
  Definition fallpos (s : st) : nat := match s_pt s with PFun _ b _ => b | _ => O end.

  Lemma sim_run_progress B : (forall fn, In fn (p_funcs p) -> length (f_blocks fn) <= B)%nat ->
    forall n s r t s', mst s r ->
    run p L rv_conv os gpv keeps n s = Ok t s' ->
    exists k r', rv_run os k r = (t, Running r') /\ mst s' r' /\
      (n + fallpos s <= k * (B + 1) + fallpos s')%nat.
  Proof.
    intros HB. induction n as [|n IH]; intros s r t s' Hm H; cbn [run] in H.
    - inversion H; subst. exists O, r. split; [reflexivity|split; [exact Hm|lia]].
    - destruct (step s) as [t1 s1|t1|] eqn:Es; [|discriminate|discriminate].
      destruct (run p L rv_conv os gpv keeps n s1) as [t2 s2|t2|] eqn:Er; [|discriminate|discriminate].
      inversion H; subst.
      assert (fallpos s <= B)%nat as Hfp.
      { unfold fallpos. unfold Ph2Sem.step in Es. destruct (s_pt s) as [|f b k|]; try lia.
        destruct (nth_error (p_funcs p) f) as [fn|] eqn:Hf; [|discriminate].
        destruct (nth_error (f_blocks fn) b) as [bl|] eqn:Hb; [|discriminate].
        assert (b < length (f_blocks fn))%nat by (apply nth_error_Some; congruence).
        apply nth_error_In in Hf. specialize (HB _ Hf). lia. }
      destruct (sim_step _ _ Hm) as [Hs|(f & b & k & s1' & E1 & E2 & E3 & Hm')].
      + rewrite Es in Hs. destruct Hs as (k & r1 & H1 & Hm1).
        destruct (IH _ _ _ _ Hm1 Er) as (k' & r' & H2 & Hm2 & Hb).
        exists (S k + k')%nat, r'. split; [|split; [exact Hm2|]].
        2:{ rewrite Nat.mul_add_distr_r. cbn [Nat.mul]. lia. }
        rewrite (rv_run_app _ _ _ _ _ H1), H2. reflexivity.
      + rewrite Es in E3. inversion E3; subst.
        destruct (IH _ _ _ _ Hm' Er) as (k' & r' & H2 & Hm2 & Hb).
        exists k', r'. split; [exact H2|split; [exact Hm2|]].
        unfold fallpos in *. rewrite E1. rewrite E2 in Hb. lia.
  Qed.

  Lemma rv_run_prefix k : forall j r t r', rv_run os (k + j) r = (t, Running r') ->
    exists t1 r1, rv_run os k r = (t1, Running r1).
  Proof.
    induction k as [|k IH]; intros j r t r' H; cbn [rv_run plus] in *; [eauto|].
    destruct (rv_step r) as [r1|r1|]; [eauto| |discriminate].
    destruct (os_call os _ _ _) as [[v m']|]; [|discriminate].
    destruct (rv_run os (k + j) _) as [t1 st1] eqn:E. inversion H; subst.
    destruct (IH _ _ _ _ E) as (t2 & r2 & ->). eauto.
  Qed.

  Lemma bounded_blocks : exists B, forall fn, In fn (p_funcs p) -> (length (f_blocks fn) <= B)%nat.
  Proof.
    clear. induction (p_funcs p) as [|f r [B HB]].
    - exists O. intros fn [].
    - exists (length (f_blocks f) + B)%nat. intros fn [->|H]; [lia|]. specialize (HB _ H). lia.
  Qed.

  Theorem sim_diverges s r : mst s r ->
    (forall n, exists t s', run p L rv_conv os gpv keeps n s = Ok t s') ->
    forall k, exists t r', rv_run os k r = (t, Running r').
  Proof.
    intros Hm Hrun k. destruct bounded_blocks as (B & HB).
    destruct (Hrun (k * (B + 1) + B)%nat) as (t & s' & Hn).
    destruct (Hrun (S (k * (B + 1) + B))%nat) as (t2 & s2 & Hn2).
    destruct (sim_run_progress _ HB _ _ _ _ _ Hm Hn) as (j & r' & Hj & Hm' & Hb).
    assert (fallpos s' <= B)%nat as Hfp.
    { (* s' can step again *)
      assert (exists t3 s3, step s' = Ok t3 s3) as (t3 & s3 & Es).
      { clear - Hn Hn2. revert s t s' t2 s2 Hn Hn2.
        induction (k * (B + 1) + B)%nat as [|n IH]; intros s t s' t2 s2 Hn Hn2.
        - cbn in Hn. inversion Hn; subst. cbn in Hn2. destruct (step s') as [a b|a|]; eauto; discriminate.
        - remember (S n) as n1. rewrite Heqn1 in Hn. cbn [run] in Hn, Hn2.
          destruct (step s) as [a b|a|]; try discriminate.
          destruct (run p L rv_conv os gpv keeps n b) as [a1 b1|a1|] eqn:E1; try discriminate.
          destruct (run p L rv_conv os gpv keeps n1 b) as [a2 b2|a2|] eqn:E2; try discriminate.
          subst n1. inversion Hn; subst. eapply IH; eauto. }
      unfold fallpos. unfold Ph2Sem.step in Es. destruct (s_pt s') as [|f b q|]; try lia.
      destruct (nth_error (p_funcs p) f) as [fn|] eqn:Hf; [|discriminate].
      destruct (nth_error (f_blocks fn) b) as [bl|] eqn:Hb'; [|discriminate].
      assert (b < length (f_blocks fn))%nat by (apply nth_error_Some; congruence).
      apply nth_error_In in Hf. specialize (HB _ Hf). lia. }
    assert (k <= j)%nat as Hkj.
    { destruct (le_lt_dec k j) as [|Hlt]; auto. exfalso.
      assert ((j + 1) * (B + 1) <= k * (B + 1))%nat by (apply Nat.mul_le_mono_r; lia).
      rewrite Nat.mul_add_distr_r in H. unfold fallpos in Hb at 1. lia. }
    replace j with (k + (j - k))%nat in Hj by lia. eapply rv_run_prefix; eauto.
  Qed.

  (** the loader starts the machine at the first code byte with sp = sp0 *)
  Lemma sim_init x m : words_at m cs ws -> x 2 = sp0 ->
    exists r, rv_star (mkrv cs x m) r /\ mst (init_st p sp0 m) r.
  Proof.
    intros Hw Hsp. destruct (stub_code _ Hw) as (is & Hc & Ha & Hl & Eis).
    rewrite Eis in Hc, Ha. cbn [app li_insns] in Hc, Ha.
    eexists. split.
    - start cs. stp. stp. stp. stp. stp. apply rv_star_refl.
    - cbn [iop_eval rop_eval]. autox.
      assert (Esp : w32 (x 2 - w32 (w32 (lui_val (g_stack p)) + rv_lo (g_stack p))) = gpv).
      { rewrite w32_add_l, lui_addi, w32_sub_r, Hsp. reflexivity. }
      rewrite Esp. rewrite Z.add_0_r.
      constructor; cbn [init_st s_pt s_stk rpc rx rm].
      + reflexivity.
      + constructor; cbn [s_reg s_sp s_mem s_latch]; auto.
        * intros i v H. apply rg_some in H. destruct H as [_ H]. discriminate.
        * apply w32_range.
        * xsimp. apply w32_idem.
        * discriminate.
      + unfold okpt, okoff. cbn [point_off firstn]. change (szs rv_target hard []) with 0.
        cbn [t_globofs rv_target]. pose proof stub_len. lia.
      + constructor.
      + xsimp. pose proof stub_len. apply okoff_range. unfold okoff. lia.
  Qed.
End Prog.
