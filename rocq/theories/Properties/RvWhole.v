(** Properties C10 and C12: whole RISC-V programs. *)
From Verif.Base Require Import Int32 Mem MemProofs Bits.
From Verif.Ir Require Import Ph2 Ph2Sem Layout.
From Verif.Rv Require Import RvISA RvEnc RvEncProofs RvGen RvExec RvOps RvSoft RvEmit RvSim RvProg.
From Verif.Properties Require Export LayoutSpec.

(** ** C10 *)

Theorem C10_rv_layout : forall p hard cs e ws,
  well_formed p -> code_generate rv_target hard p cs = Some (e, ws) ->
  layout_correct rv_target p cs e ws.
Proof.
  intros p hard cs e ws [Hne Hids] Hg.
  assert (forall e g o w, t_stubs rv_target e g o = Some w -> 4 * Z.of_nat (length w) = t_globofs rv_target) as Hs.
  { intros e' g o w H. apply emits_length in H. rewrite H. reflexivity. }
  apply (layout_correct_of_facts _ hard); [exact Hs|]. apply layout_ok; auto.
  - apply Forall_forall. intros; apply rv_sizes_ok.
  - apply Forall_forall. intros; apply Forall_forall; intros; apply rv_sizes_ok.
  - intros e' q g o w H. apply emits_length in H. exact H.
  - intros e' q stk w H. eapply rv_define_size; eauto. reflexivity.
Qed.
Print Assumptions C10_rv_layout.

(** every jump, call and branch word, where it lies, leads to the recorded address *)
Theorem C10_rv_targets : forall p hard cs e ws f fn b bl k i,
  well_formed p -> code_generate rv_target hard p cs = Some (e, ws) ->
  4 * Z.of_nat (length ws) <= 1048560 ->
  nth_error (p_funcs p) f = Some fn -> nth_error (f_blocks fn) b = Some bl ->
  nth_error (b_insns bl) k = Some i ->
  match p_op i with
  | OP_jump => exists o w d, placed ws o [w] /\ rv_decode (w32 w) = Some (IJAL 0 d) /\
                 o + d = e_bb e (p_next i)
  | OP_call => exists o w d t, placed ws o [w] /\ rv_decode (w32 w) = Some (IJAL 1 d) /\
                 e_fn e (p_func i) = Some t /\ o + d = t
  | _ => True
  end.
Proof.
  intros p hard cs e ws f fn b bl k i [Hne Hids] Hg Hlen Hf Hb Hk.
  assert (layout_facts rv_target hard p cs e ws) as LF.
  { apply layout_ok; auto.
    - apply Forall_forall. intros; apply rv_sizes_ok.
    - apply Forall_forall. intros; apply Forall_forall; intros; apply rv_sizes_ok.
    - intros e' g o w H. apply emits_length in H. rewrite H. reflexivity.
    - intros e' q g o w H. apply emits_length in H. exact H.
    - intros e' q stk w H. eapply rv_define_size; eauto. reflexivity. }
  assert (Hbb : forall id, 0 <= e_bb e id <= 1048560 /\ e_bb e id mod 4 = 0).
  { intros id.
    assert (84 <= 4 * Z.of_nat (length ws)).
    { destruct (lf_stub _ _ _ _ _ _ LF) as (w & Ew & Pw). apply placed_bounds in Pw.
      cbn [t_stubs rv_target] in Ew. apply emits_length in Ew. rewrite Ew in Pw. cbn [length] in Pw. lia. }
    destruct (in_dec Z.eq_dec id (allids (p_funcs p))) as [Hin|Hni].
    - unfold allids in Hin. apply in_concat in Hin. destruct Hin as (l & Hl & Hid).
      apply in_map_iff in Hl. destruct Hl as (fn' & <- & Hfn).
      apply in_map_iff in Hid. destruct Hid as (bl' & <- & Hbl).
      apply In_nth_error in Hfn. destruct Hfn as [f' Hf'].
      apply In_nth_error in Hbl. destruct Hbl as [b' Hb'].
      destruct b'.
      + destruct (function_emitted _ _ _ _ _ _ LF _ _ _ Hf' Hb') as (w & _ & Pw).
        apply placed_bounds in Pw. lia.
      + destruct (block_emitted _ _ _ _ _ _ LF _ _ _ _ Hf' Hb') as (w & _ & Pw).
        apply placed_bounds in Pw. lia.
    - destruct (lf_rest _ _ _ _ _ _ LF _ Hni) as [-> | [-> | ->]]; cbn [t_sysofs t_globofs rv_target]; lia. }
  destruct (lf_insn _ _ _ _ _ _ LF f fn b bl k
      (fl_adjust false (f_stack fn) (option_map b_id (nth_error (f_blocks fn) (S b))) i) Hf Hb)
      as (w & Ew & Pw & En).
  { unfold adj. rewrite nth_error_map, Hk. reflexivity. }
  assert (p_op i <> OP_return -> fl_adjust false (f_stack fn)
     (option_map b_id (nth_error (f_blocks fn) (S b))) i = i) as Hadj by apply adjust_other.
  set (o := point_off rv_target hard p (PFun f b k)) in *.
  pose proof (placed_bounds _ _ _ Pw) as Hbo.
  destruct (p_op i) eqn:Eop; try exact I; rewrite Hadj in Ew by discriminate;
    cbn [t_emit rv_target] in Ew; unfold rv_emit in Ew; rewrite Eop in Ew.
  - destruct (e_fn e (p_func i)) as [t|] eqn:Et; [|discriminate].
    assert (exists id, t = e_bb e id) as (id & ->).
    { rewrite (lf_fn _ _ _ _ _ _ LF) in Et. destruct (find_entry p (p_func i)); [|discriminate].
      cbn in Et. inversion Et. eauto. }
    specialize (Hbb id). cbn [emits] in Ew.
    assert (exists w, e_jal r_ra (e_bb e id - o) = Some w /\
              rv_decode (w32 w) = Some (IJAL 1 (e_bb e id - o))) as (w' & E1 & E2).
    { apply enc_jal; unfold r_ra, reg5; lia. }
    rewrite E1 in Ew. inversion Ew; subst. exists o, w', (e_bb e id - o), (e_bb e id).
    repeat split; auto; lia.
  - specialize (Hbb (p_next i)). cbn [emits] in Ew.
    assert (exists w, e_jal r_zero (e_bb e (p_next i) - o) = Some w /\
              rv_decode (w32 w) = Some (IJAL 0 (e_bb e (p_next i) - o))) as (w' & E1 & E2).
    { apply enc_jal; unfold r_zero, reg5; lia. }
    rewrite E1 in Ew. inversion Ew; subst. exists o, w', (e_bb e (p_next i) - o).
    repeat split; auto; lia.
Qed.
Print Assumptions C10_rv_targets.

(** ** C12 *)

(** How a machine state shows a program state: the program counter is at the code of
    the current point, the registers that hold a defined value hold that value, sp
    and gp agree, memory is the same byte for byte. *)
Definition rv_shows (p : program) (hard : bool) (cs sp0 : Z) (s : st) (r : rvstate) : Prop :=
  rpc r = cs + point_off rv_target hard p (s_pt s) /\
  (forall j v, 0 <= j < 8 -> s_reg s j = Some v -> rx r (j + 10) = v) /\
  rx r 2 = s_sp s /\ rx r 3 = w32 (sp0 - g_stack p) /\ rm r = s_mem s.

Lemma mst_shows p hard cs ws sp0 s r :
  mst p hard sp0 cs ws s r -> rv_shows p hard cs sp0 s r.
Proof.
  intros [Hpc Hm _ _ _]. destruct Hm as [Mr Msp _ Mgp Mmem _ _]. repeat split; auto.
  intros j v Hj H. apply Mr. unfold rg. replace ((0 <=? j) && (j <? 8)) with true by lia. exact H.
Qed.

(** The image fits the address space and the 1 MiB reach of JAL (the code itself does
    not check that reach: finding 21). *)
Record rv_loadable (p : program) (hard : bool) (cs : Z) (e : env) (ws : list Z) : Prop := {
  rl_wf : well_formed p;
  rl_gen : code_generate rv_target hard p cs = Some (e, ws);
  rl_pos : 0 <= cs /\ cs mod 4 = 0 /\ cs + 4 * Z.of_nat (length ws) < 4294967296;
  rl_reach : 4 * Z.of_nat (length ws) <= 1048560 }.

Section C12.
  Variables (p : program) (hard : bool) (cs : Z) (e : env) (ws : list Z).
  Variable os : osspec.
  Variable sp0 : Z.

  (** the program's own meaning (Ph2Sem), with the addresses the image was given *)
  Definition rv_program_run :=
    run p (rv_layout hard p cs (length ws)) rv_conv os (w32 (sp0 - g_stack p))
        (fun m => words_atb m cs ws).

  (** the loaded executable: code in memory, pc at the entry point, sp = sp0 *)
  Definition rv_loaded (x : Z -> Z) (m : mem) : Prop := words_at m cs ws /\ x 2 = sp0.
End C12.

Lemma rv_start : forall p hard cs e ws sp0 x m,
  rv_loadable p hard cs e ws ->
  rv_loaded cs ws sp0 x m ->
  exists n r, rv_steps n (mkrv cs x m) = Some r /\ mst p hard sp0 cs ws (init_st p sp0 m) r.
Proof.
  intros p hard cs e ws sp0 x m [[H1 H2] H3 H4 H5] [Hw Hsp].
  destruct (sim_init p hard (mkos (fun _ => 1%nat) (fun _ _ _ => None)) sp0 e cs ws
    (Build_rv_ok _ _ _ _ _ H3 H1 H2 H4 H5) (fun _ _ => conj eq_refl eq_refl) x m Hw Hsp)
    as (r & [n Hn] & Hm).
  eauto.
Qed.

Theorem C12_rv_executes : forall p hard cs e ws os sp0 x m n,
  rv_loadable p hard cs e ws ->
  (forall v mm, os_nargs os 93 = 1%nat /\ os_call os 93 [v] mm = None) ->
  rv_loaded cs ws sp0 x m ->
  match rv_program_run p hard cs ws os sp0 n (init_st p sp0 m) with
  | Ok t s => exists k r, rv_run os k (mkrv cs x m) = (t, Running r) /\ rv_shows p hard cs sp0 s r
  | Halt t => exists k, rv_run os k (mkrv cs x m) = (t, Exited)
  | UB => True
  end.
Proof.
  intros p hard cs e ws os sp0 x m n Hl Hos Hld.
  destruct (rv_start p hard cs e ws sp0 x m Hl Hld) as (j & r & Hj & Hm).
  destruct Hl as [[H1 H2] H3 H4 H5].
  pose proof (sim_run p hard os sp0 e cs ws (Build_rv_ok _ _ _ _ _ H3 H1 H2 H4 H5) Hos n _ _ Hm) as Hr.
  unfold rv_program_run. unfold gpv, keeps in Hr.
  destruct (run p _ _ _ _ _ n _) as [t s|t|]; auto.
  - destruct Hr as (r' & [k Hk] & Hm'). exists (j + k)%nat, r'. split.
    + rewrite (rv_run_steps os _ _ _ Hj). exact Hk.
    + eapply mst_shows; eauto.
  - destruct Hr as [k Hk]. exists (j + k)%nat. rewrite (rv_run_steps os _ _ _ Hj). exact Hk.
Qed.
Print Assumptions C12_rv_executes.

(** a program that never stops keeps the machine running *)
Theorem C12_rv_diverges : forall p hard cs e ws os sp0 x m,
  rv_loadable p hard cs e ws ->
  (forall v mm, os_nargs os 93 = 1%nat /\ os_call os 93 [v] mm = None) ->
  rv_loaded cs ws sp0 x m ->
  (forall n, exists t s, rv_program_run p hard cs ws os sp0 n (init_st p sp0 m) = Ok t s) ->
  forall k, exists t r, rv_run os k (mkrv cs x m) = (t, Running r).
Proof.
  intros p hard cs e ws os sp0 x m Hl Hos Hld Hrun k.
  destruct (rv_start p hard cs e ws sp0 x m Hl Hld) as (j & r & Hj & Hm).
  destruct Hl as [[H1 H2] H3 H4 H5].
  destruct (sim_diverges p hard os sp0 e cs ws (Build_rv_ok _ _ _ _ _ H3 H1 H2 H4 H5) Hos _ _ Hm Hrun k)
    as (t & r' & Hk).
  pose proof (rv_run_steps os _ _ _ Hj k) as E. rewrite Hk in E.
  replace (j + k)%nat with (k + j)%nat in E by lia.
  eapply rv_run_prefix; eauto.
Qed.
Print Assumptions C12_rv_diverges.

Definition demo_ew : env * list Z :=
  match code_generate rv_target false demo_prog demo_cs with
  | Some x => x | None => (mkenv (fun _ => 0) (fun _ => None) 0 0 false, []) end.

Example C12_case_loadable : rv_loadable demo_prog false demo_cs (fst demo_ew) (snd demo_ew).
Proof.
  constructor.
  - exact demo_wf.
  - unfold demo_ew. destruct (code_generate rv_target false demo_prog demo_cs) as [[e ws]|] eqn:E.
    + reflexivity.
    + exfalso. revert E. vm_compute. discriminate.
  - unfold demo_ew, demo_cs. vm_compute. intuition congruence.
  - vm_compute. intuition congruence.
Qed.

Example C12_case_runs : exists n,
  rv_program_run demo_prog false demo_cs (snd demo_ew) demo_os 4000000000 n
    (init_st demo_prog 4000000000 (mem_of demo_cs (snd demo_ew))) = Halt [(93, [70042])].
Proof. exists 60%nat. vm_compute. reflexivity. Qed.
