(** Properties C11 and C13: whole ARM programs. *)
From Verif.Base Require Import Int32 Mem MemProofs Bits.
From Verif.Ir Require Import Ph2 Ph2Sem Layout.
From Verif.Arm Require Import ArmISA ArmEnc ArmEncProofs ArmGen ArmExec ArmOps ArmSoft ArmEmit ArmSim ArmProg.
From Verif.Properties Require Import LayoutSpec.

(** ** C11 *)

(** The ARM size pass counts a move of a register to itself as 0 bytes, the emission
    pass as 4 (finding 22), so the layout theorem is about programs without one. *)
Definition no_self_move (i : ph2) : Prop := p_op i = OP_assign -> p_dest i <> p_src0 i.
Definition no_self_moves (p : program) : Prop :=
  Forall no_self_move (g_insns p) /\
  Forall (fun f => Forall (fun b => Forall no_self_move (b_insns b)) (f_blocks f)) (p_funcs p).

Lemma adjust_nsm a stk nxt i : no_self_move i -> no_self_move (fl_adjust a stk nxt i).
Proof.
  unfold no_self_move, fl_adjust. destruct i as [o s0 s1 d fn nx th el dt]. cbn.
  destruct o, a; cbn; auto;
    try (destruct nxt as [b|]; [destruct (el =? b)|]); cbn; intros _ H; discriminate H.
Qed.
Lemma adjs_nsm stk bs : Forall (fun b => Forall no_self_move (b_insns b)) bs ->
  Forall no_self_move (concat (adjs arm_target stk bs)).
Proof.
  induction bs as [|b r IH]; cbn [adjs concat]; intros H; [constructor|].
  inversion H as [|? ? Hb Hr]; subst. apply Forall_app. split; [|auto].
  rewrite Forall_forall in *. intros i Hi. apply in_map_iff in Hi. destruct Hi as (j & <- & Hj).
  apply adjust_nsm. auto.
Qed.
Lemma nsm_size hard i : no_self_move i -> size_ok arm_target hard i.
Proof. intros Hm e' pos n w <- Hs He. eapply arm_size_ok; eauto. Qed.

Lemma arm_facts p hard cs e ws : well_formed p -> no_self_moves p ->
  code_generate arm_target hard p cs = Some (e, ws) -> layout_facts arm_target hard p cs e ws.
Proof.
  intros [Hne Hids] [Hsi Hsf] Hg. apply layout_ok; auto.
  - eapply Forall_impl; [|exact Hsi]. intros; apply nsm_size; assumption.
  - eapply Forall_impl; [|exact Hsf]. intros f Hf. cbv beta in Hf.
    eapply Forall_impl; [|apply adjs_nsm; exact Hf]. intros; apply nsm_size; assumption.
  - intros e' g o w H. apply emits_length in H. rewrite H. reflexivity.
  - intros e' q g o w H. apply emits_length in H. exact H.
  - intros e' q stk w H. eapply arm_define_size; eauto. reflexivity.
Qed.

Theorem C11_arm_layout_partial : forall p hard cs e ws,
  well_formed p -> no_self_moves p -> code_generate arm_target hard p cs = Some (e, ws) ->
  layout_correct arm_target p cs e ws.
Proof.
  intros p hard cs e ws Hwf Hns Hg.
  apply (layout_correct_of_facts _ hard); [|apply arm_facts; assumption].
  intros e' g o w H. apply emits_length in H. rewrite H. reflexivity.
Qed.
Print Assumptions C11_arm_layout_partial.

(** every jump and call word, where it lies, leads to the recorded address (the pc
    reads 8 ahead) *)
Theorem C11_arm_targets_partial : forall p hard cs e ws f fn b bl k i,
  well_formed p -> no_self_moves p -> code_generate arm_target hard p cs = Some (e, ws) ->
  4 * Z.of_nat (length ws) <= 33554000 ->
  nth_error (p_funcs p) f = Some fn -> nth_error (f_blocks fn) b = Some bl ->
  nth_error (b_insns bl) k = Some i ->
  match p_op i with
  | OP_jump => exists o w d, placed ws o [w] /\ arm_decode (w32 w) = Some (AL, AB d) /\
                 o + 8 + d = e_bb e (p_next i)
  | OP_call => exists o w d t, placed ws o [w] /\ arm_decode (w32 w) = Some (AL, ABl d) /\
                 e_fn e (p_func i) = Some t /\ o + 8 + d = t
  | _ => True
  end.
Proof.
  intros p hard cs e ws f fn b bl k i Hwf Hns Hg Hlen Hf Hb Hk.
  pose proof (arm_facts _ _ _ _ _ Hwf Hns Hg) as LF.
  assert (Hbb : forall id, 0 <= e_bb e id <= 33554000 /\ e_bb e id mod 4 = 0).
  { intros id.
    assert (80 <= 4 * Z.of_nat (length ws)).
    { destruct (lf_stub _ _ _ _ _ _ LF) as (w & Ew & Pw). apply placed_bounds in Pw.
      cbn [t_stubs arm_target] in Ew. apply emits_length in Ew. rewrite Ew in Pw. cbn [length app mov32] in Pw. lia. }
    destruct (in_dec Z.eq_dec id (allids (p_funcs p))) as [Hin|Hni].
    - unfold allids in Hin. apply in_concat in Hin. destruct Hin as (l & Hl & Hid).
      apply in_map_iff in Hl. destruct Hl as (fn' & <- & Hfn).
      apply in_map_iff in Hid. destruct Hid as (bl' & <- & Hbl).
      apply In_nth_error in Hfn. destruct Hfn as [f' Hf'].
      apply In_nth_error in Hbl. destruct Hbl as [b' Hb'].
      destruct b'.
      + destruct (function_emitted _ _ _ _ _ _ LF _ _ _ Hf' Hb') as (w & _ & Pw).
        apply placed_bounds in Pw. lia.
      + destruct (block_emitted _ _ _ _ _ _ LF _ _ _ _ Hf' Hb') as (w & _ & Pw).
        apply placed_bounds in Pw. lia.
    - destruct (lf_rest _ _ _ _ _ _ LF _ Hni) as [-> | [-> | ->]]; cbn [t_sysofs t_globofs arm_target]; lia. }
  destruct (lf_insn _ _ _ _ _ _ LF f fn b bl k
      (fl_adjust true (f_stack fn) (option_map b_id (nth_error (f_blocks fn) (S b))) i) Hf Hb)
      as (w & Ew & Pw & En).
  { unfold adj. rewrite nth_error_map, Hk. reflexivity. }
  assert (p_op i = OP_jump \/ p_op i = OP_call -> fl_adjust true (f_stack fn)
     (option_map b_id (nth_error (f_blocks fn) (S b))) i = i) as Hadj
    by (unfold fl_adjust; intros [E | E]; rewrite E; cbv zeta iota beta; rewrite E; reflexivity).
  set (o := point_off arm_target hard p (PFun f b k)) in *.
  pose proof (placed_bounds _ _ _ Pw) as Hbo.
  destruct (p_op i) eqn:Eop; try exact I; rewrite Hadj in Ew by auto;
    cbn [t_emit arm_target] in Ew; unfold arm_emit in Ew; rewrite Eop in Ew.
  - destruct (e_fn e (p_func i)) as [t|] eqn:Et; [|discriminate].
    assert (exists id, t = e_bb e id) as (id & ->).
    { rewrite (lf_fn _ _ _ _ _ _ LF) in Et. destruct (find_entry p (p_func i)); [|discriminate].
      cbn in Et. inversion Et. eauto. }
    specialize (Hbb id). cbn [emits] in Ew.
    destruct (enc_bl AL (e_bb e id - o - 8) (e_bb e id - o)) as (w' & E1 & E2);
      [lia|unfold joff_ok; lia|]. change (cond_num AL) with c_AL in E1.
    rewrite E1 in Ew. inversion Ew; subst. exists o, w', (e_bb e id - o - 8), (e_bb e id).
    repeat split; auto; lia.
  - specialize (Hbb (p_next i)). cbn [emits] in Ew.
    destruct (enc_b AL (e_bb e (p_next i) - o - 8) (e_bb e (p_next i) - o)) as (w' & E1 & E2);
      [lia|unfold joff_ok; lia|]. change (cond_num AL) with c_AL in E1.
    rewrite E1 in Ew. inversion Ew; subst. exists o, w', (e_bb e (p_next i) - o - 8).
    repeat split; auto; lia.
Qed.
Print Assumptions C11_arm_targets_partial.

(** ** C13 *)

(** How a machine state shows a program state: the program counter is at the code of
    the current point, the registers that hold a defined value hold that value, sp
    and gp agree, memory is the same byte for byte. *)
Definition arm_shows (p : program) (hard : bool) (cs sp0 : Z) (s : st) (r : armstate) : Prop :=
  apc r = cs + point_off arm_target hard p (s_pt s) /\
  (forall j v, 0 <= j < 8 -> s_reg s j = Some v -> ax r j = v) /\
  ax r 13 = s_sp s /\ ax r 12 = w32 (sp0 - g_stack p) /\ am r = s_mem s.

Lemma mst_shows p hard cs ws sp0 s r :
  mst p hard sp0 cs ws s r -> arm_shows p hard cs sp0 s r.
Proof.
  intros [Hpc Hm _ _ _]. destruct Hm as [Mr Msp _ _ Mgp Mmem _ _]. repeat split; auto.
  intros j v Hj H. apply Mr. unfold rg. replace ((0 <=? j) && (j <? 8)) with true by lia. exact H.
Qed.

(** What the ARM back end needs (each clause fails for some program: findings 19, 21,
    22 and C06): the image fits the address space and the 32 MiB reach of B; no move
    of a register to itself; emulated division between two different registers;
    every conditional branch ends its block and is laid out just before one of its
    targets; stack adjustments are multiples of 4. *)
Record arm_loadable (p : program) (hard : bool) (cs sp0 : Z) (e : env) (ws : list Z) : Prop := {
  al_wf : well_formed p;
  al_gen : code_generate arm_target hard p cs = Some (e, ws);
  al_pos : 0 <= cs /\ cs mod 4 = 0 /\ cs + 4 * Z.of_nat (length ws) < 4294967296;
  al_reach : 4 * Z.of_nat (length ws) <= 33554000;
  al_gi : Forall (arm_insn_ok hard) (g_insns p);
  al_fi : Forall (fun f => Forall (fun b => Forall (arm_insn_ok hard) (b_insns b)) (f_blocks f)) (p_funcs p);
  al_br : branch_placed p;
  al_4 : sp0 mod 4 = 0 /\ g_stack p mod 4 = 0 /\ Forall (fun f => f_stack f mod 4 = 0) (p_funcs p) }.

Lemma loadable_ok p hard cs sp0 e ws : arm_loadable p hard cs sp0 e ws -> arm_ok p hard sp0 e cs ws.
Proof. intros [[] ]. constructor; auto. Qed.

Section C13.
  Variables (p : program) (hard : bool) (cs : Z) (e : env) (ws : list Z).
  Variable os : osspec.
  Variable sp0 : Z.

  (** the program's own meaning (Ph2Sem), with the addresses the image was given *)
  Definition arm_program_run :=
    run p (arm_layout hard p cs (length ws)) (arm_conv hard) os (w32 (sp0 - g_stack p))
        (fun m => words_atb m cs ws).

  (** the loaded executable: code in memory, pc at the entry point, sp = sp0 *)
  Definition arm_loaded (x : Z -> Z) (m : mem) : Prop := words_at m cs ws /\ x 13 = sp0.
End C13.

Lemma arm_start : forall p hard cs e ws sp0 x fl m,
  arm_loadable p hard cs sp0 e ws ->
  arm_loaded cs ws sp0 x m ->
  exists n r, arm_steps n (mkarm cs x fl m) = Some r /\ mst p hard sp0 cs ws (init_st p sp0 m) r.
Proof.
  intros p hard cs e ws sp0 x fl m Hl [Hw Hsp].
  destruct (sim_init p hard (mkos (fun _ => 1%nat) (fun _ _ _ => None)) sp0 e cs ws
    (loadable_ok _ _ _ _ _ _ Hl) (fun _ _ => conj eq_refl eq_refl) x fl m Hw Hsp)
    as (r & [n Hn] & Hm).
  eauto.
Qed.

Theorem C13_arm_executes_partial : forall p hard cs e ws os sp0 x fl m n,
  arm_loadable p hard cs sp0 e ws ->
  (forall v mm, os_nargs os 1 = 1%nat /\ os_call os 1 [v] mm = None) ->
  arm_loaded cs ws sp0 x m ->
  match arm_program_run p hard cs ws os sp0 n (init_st p sp0 m) with
  | Ok t s => exists k r, arm_run os k (mkarm cs x fl m) = (t, ARunning r) /\ arm_shows p hard cs sp0 s r
  | Halt t => exists k, arm_run os k (mkarm cs x fl m) = (t, AExited)
  | UB => True
  end.
Proof.
  intros p hard cs e ws os sp0 x fl m n Hl Hos Hld.
  destruct (arm_start p hard cs e ws sp0 x fl m Hl Hld) as (j & r & Hj & Hm).
  pose proof (sim_run p hard os sp0 e cs ws (loadable_ok _ _ _ _ _ _ Hl) Hos n _ _ Hm) as Hr.
  unfold arm_program_run. unfold gpv, keeps in Hr.
  destruct (run p _ _ _ _ _ n _) as [t s|t|]; auto.
  - destruct Hr as (r' & [k Hk] & Hm'). exists (j + k)%nat, r'. split.
    + rewrite (arm_run_steps os _ _ _ Hj). exact Hk.
    + eapply mst_shows; eauto.
  - destruct Hr as [k Hk]. exists (j + k)%nat. rewrite (arm_run_steps os _ _ _ Hj). exact Hk.
Qed.
Print Assumptions C13_arm_executes_partial.

(** a program that never stops keeps the machine running *)
Theorem C13_arm_diverges_partial : forall p hard cs e ws os sp0 x fl m,
  arm_loadable p hard cs sp0 e ws ->
  (forall v mm, os_nargs os 1 = 1%nat /\ os_call os 1 [v] mm = None) ->
  arm_loaded cs ws sp0 x m ->
  (forall n, exists t s, arm_program_run p hard cs ws os sp0 n (init_st p sp0 m) = Ok t s) ->
  forall k, exists t r, arm_run os k (mkarm cs x fl m) = (t, ARunning r).
Proof.
  intros p hard cs e ws os sp0 x fl m Hl Hos Hld Hrun k.
  destruct (arm_start p hard cs e ws sp0 x fl m Hl Hld) as (j & r & Hj & Hm).
  destruct (sim_diverges p hard os sp0 e cs ws (loadable_ok _ _ _ _ _ _ Hl) Hos _ _ Hm Hrun k)
    as (t & r' & Hk).
  pose proof (arm_run_steps os _ _ _ Hj k) as E. rewrite Hk in E.
  replace (j + k)%nat with (k + j)%nat in E by lia.
  eapply arm_run_prefix; eauto.
Qed.
Print Assumptions C13_arm_diverges_partial.


(** The same demonstration program, extended with a conditional branch. *)
Definition arm_ew (hard : bool) (p : program) : env * list Z :=
  match code_generate arm_target hard p demo_cs with
  | Some x => x | None => (mkenv (fun _ => 0) (fun _ => None) 0 0 false, []) end.
Definition demo_branch (r t f : Z) : ph2 := mkph2 OP_branch r 0 0 0 0 t f false.
Definition demo_prog2 : program :=
  mkprog [demo_i OP_load_constant 0 70000 0; demo_i OP_global_store 0 0 0] 8 1
    [ mkfunc 10 4 [mkblock 20 [demo_i OP_load_constant 0 (-60) 0; demo_i OP_load_constant 1 7 0;
                               demo_call 11; demo_branch 0 21 23];
                   mkblock 23 [demo_i OP_load_constant 0 1 0; demo_i OP_return 0 0 0];
                   mkblock 21 [demo_i OP_global_load 1 0 0; demo_i OP_add 0 0 1; demo_i OP_return 0 0 0]];
      mkfunc 11 4 [mkblock 22 [demo_i OP_div 0 0 1; demo_i OP_return 0 0 0]] ] 20 12 0.

Example C13_case_loadable :
  arm_loadable demo_prog2 false demo_cs 4000000000 (fst (arm_ew false demo_prog2)) (snd (arm_ew false demo_prog2)).
Proof.
  constructor.
  - split; repeat constructor; cbn; try discriminate; intuition lia.
  - unfold arm_ew. destruct (code_generate arm_target false demo_prog2 demo_cs) as [[e ws]|] eqn:E.
    + reflexivity.
    + exfalso. revert E. vm_compute. discriminate.
  - vm_compute. intuition congruence.
  - vm_compute. intuition congruence.
  - repeat constructor; unfold div_regs_ok; cbn; intros; intuition congruence.
  - repeat constructor; unfold div_regs_ok; cbn; intros; intuition congruence.
  - intros f fn b bl k i Hf Hb Hk Ho.
    assert (f = 0 \/ f = 1)%nat as [-> | ->]
      by (destruct f as [|[|[|]]]; auto; discriminate Hf);
      cbn in Hf; inversion Hf; subst fn; clear Hf.
    + destruct b as [|[|[|[|]]]]; cbn in Hb; inversion Hb; subst bl; clear Hb;
        (do 5 try (destruct k as [|k]; [cbn in Hk; inversion Hk; subst i; try discriminate Ho|]));
        try (cbn in Hk; discriminate Hk).
      split; [reflexivity|]. split; [reflexivity|]. eexists. split; [reflexivity|]. left. reflexivity.
    + destruct b as [|[|]]; cbn in Hb; inversion Hb; subst bl; clear Hb;
        (do 5 try (destruct k as [|k]; [cbn in Hk; inversion Hk; subst i; try discriminate Ho|]));
        try (cbn in Hk; discriminate Hk).
  - split; [reflexivity|]. split; [reflexivity|]. repeat constructor.
Qed.

Example C13_case_runs : exists n,
  arm_program_run demo_prog2 false demo_cs (snd (arm_ew false demo_prog2)) demo_os 4000000000 n
    (init_st demo_prog2 4000000000 (mem_of demo_cs (snd (arm_ew false demo_prog2)))) = Halt [(1, [69992])].
Proof. exists 60%nat. vm_compute. reflexivity. Qed.

(** ** Why the hypotheses are there: the full C11 and C13 are false of the code. *)
Definition exit_status (p : program) (k : nat) : list event * armstatus :=
  let '(_, ws) := arm_ew false p in
  arm_run demo_os k (mkarm demo_cs (fun q => if q =? 13 then 4000000000 else 0)
                       (mkfl false false false false) (mem_of demo_cs ws)).

(** finding 19: the block laid out after the branch is neither of its targets.  The
    program returns 5 (register 0 is not zero: go to block 22); the machine falls into block 21 and returns 7. *)
Definition bad_branch : program :=
  mkprog [] 8 1
    [ mkfunc 10 4 [mkblock 20 [demo_i OP_load_constant 0 1 0; demo_branch 0 22 23];
                   mkblock 21 [demo_i OP_load_constant 0 7 0; demo_i OP_return 0 0 0];
                   mkblock 22 [demo_i OP_load_constant 0 5 0; demo_i OP_return 0 0 0];
                   mkblock 23 [demo_i OP_load_constant 0 6 0; demo_i OP_return 0 0 0]] ] 20 12 0.
Example C13_unplaced_branch_wrong :
  arm_program_run bad_branch false demo_cs (snd (arm_ew false bad_branch)) demo_os 4000000000 20
    (init_st bad_branch 4000000000 (mem_of demo_cs (snd (arm_ew false bad_branch)))) = Halt [(1, [5])] /\
  exists k, exit_status bad_branch k = ([(1, [7])], AExited).
Proof. split; [vm_compute; reflexivity|]. exists 100%nat. vm_compute. reflexivity. Qed.

(** finding 22: one self-move shifts everything after it by 4 bytes *)
Definition self_move : program :=
  mkprog [] 8 1
    [ mkfunc 10 4 [mkblock 20 [demo_i OP_load_constant 0 1 0; demo_i OP_assign 0 0 0; demo_jump 21];
                   mkblock 21 [demo_i OP_load_constant 0 5 0; demo_i OP_return 0 0 0]] ] 20 12 0.
Example C11_self_move_wrong : ~ layout_correct arm_target self_move demo_cs
  (fst (arm_ew false self_move)) (snd (arm_ew false self_move)).
Proof. intros [_ H _ _ _ _]. revert H. vm_compute. discriminate. Qed.
