(** Per-instruction consequences of the simulation, free of program layout. *)
From Verif.Base Require Import Int32 Mem MemProofs Bits.
From Verif.Ir Require Import Ph2 Ph2Sem Layout.
From Verif.Rv Require Import RvISA RvEnc RvEncProofs RvGen RvExec RvOps RvSoft RvEmit RvSim RvProg.

Definition straight (o : opcode) : bool :=
  match o with
  | OP_load_constant | OP_load_data_address | OP_address_of | OP_global_address_of
  | OP_assign | OP_load | OP_global_load | OP_store | OP_global_store | OP_read | OP_write
  | OP_load_func
  | OP_add | OP_sub | OP_mul | OP_div | OP_mod | OP_lshift | OP_rshift
  | OP_log_not | OP_eq | OP_neq | OP_lt | OP_leq | OP_gt | OP_geq
  | OP_bit_or | OP_bit_and | OP_bit_xor | OP_bit_not | OP_negate => true
  | _ => false
  end.

Definition widths_ok (i : ph2) : Prop :=
  (p_op i = OP_read -> p_src1 i = 1 \/ p_src1 i = 4) /\
  (p_op i = OP_write -> p_dest i = 1 \/ p_dest i = 4).

Lemma encs_total pos fs is : encs pos fs is -> exists ws, emits pos fs = Some ws.
Proof. intros H. destruct (encs_emits _ _ _ H) as (ws & E & _). eauto. Qed.

(** emission of a straight-line instruction with legal registers never fails *)
Lemma rv_emit_total e pos i : straight (p_op i) = true -> regs_ok i -> widths_ok i ->
  exists ws, rv_emit e pos i = Some ws.
Proof.
  intros Hs (Hd & H0 & H1 & Hr) (W1 & W2). unfold vreg in *.
  assert (exists fs, rv_emit e pos i = emits pos fs /\ encs pos fs (rv_insns e pos i)) as (fs & -> & E).
  2:{ eapply encs_total; eauto. }
  unfold rv_emit, rv_insns, li_insns, rv_bin_insns.
  destruct (p_op i) eqn:Eop; try discriminate Hs; cbn [uses_dest uses_src0 uses_src1] in *;
  repeat match goal with H : true = true -> _ |- _ => specialize (H eq_refl) end;
  repeat match goal with H : false = true -> _ |- _ => clear H end;
  repeat match goal with
  | |- context [if out12 ?c then _ else _] =>
      let E := fresh "Eo" in destruct (out12 c) eqn:E; [|apply out12_false in E]
  | |- context [if e_hard ?c then _ else _] => destruct (e_hard c)
  end.
  all: try match goal with |- context [p_src1 _ =? 1] =>
      destruct (W1 eq_refl) as [Ew|Ew]; rewrite Ew; cbn [Z.eqb Pos.eqb] end.
  all: try match goal with |- context [p_dest _ =? 1] =>
      destruct (W2 eq_refl) as [Ew|Ew]; rewrite Ew; cbn [Z.eqb Pos.eqb] end.
  all: eexists; split; [reflexivity|].
  all: lazymatch goal with
  | |- encs _ (rv_soft_mul _ _ _) _ => apply mul_encs; regs5
  | |- encs _ (rv_soft_div _ _ _ _) _ => apply div_encs; regs5
  | |- _ => cbn [app encs]; repeat split; enc1
  end.
Qed.

(** a register file read as an IR state *)
Definition abs_st (x : Z -> Z) (m : mem) : st :=
  mkst PExit (fun i => Some (x (i + 10))) (x 2) m [] None.

Definition no_layout (e : env) : layout :=
  mklayout 0 0 (e_data e) (fun _ => 0) (fun _ => 0).
Definition no_prog (i : ph2) : program := mkprog [] 0 0 [] 0 (p_func i + 1) 0.
Definition no_os : osspec := mkos (fun _ => O) (fun _ _ _ => None).

Definition exec1 (e : env) (x : Z -> Z) (m : mem) (i : ph2) : res :=
  exec (no_prog i) (no_layout e) rv_conv no_os (x 3) (fun _ => true) (abs_st x m) i PExit.

Lemma straight_simple o : straight o = true -> simple o = true.
Proof. destruct o; cbn; congruence. Qed.

Lemma rv_insn_ok e pos i ws m a x t s' :
  straight (p_op i) = true -> (forall q, is_u32 (x q)) ->
  rv_emit e pos i = Some ws -> regs_ok i ->
  words_at m a ws -> arange a (length ws) ->
  exec1 e x m i = Ok t s' ->
  exists n x', rv_steps n (mkrv a x m) = Some (mkrv (a + 4 * Z.of_nat (length ws)) x' (s_mem s')) /\
    (forall j v, 0 <= j < 8 -> s_reg s' j = Some v -> x' (j + 10) = v) /\
    x' 1 = x 1 /\ x' 2 = x 2 /\ x' 3 = x 3.
Proof.
  intros Hs Hu He Hr Hw Ha Hx.
  assert (jumps_ok e pos i) as Hj by (unfold jumps_ok; destruct (p_op i); try discriminate; exact I).
  destruct (rv_emit_code _ _ _ _ He Hr Hj) as (El & Hc). rewrite El in *.
  assert (mcore (x 3) 0 [] (abs_st x m) x m) as Hm.
  { constructor; cbn; auto.
    - intros j v H. apply rg_some in H. destruct H as [_ H]. cbn in H. inversion H; subst. split; auto.
    - discriminate. }
  assert (s_sp s' = x 2) as Esp.
  { clear - Hs Hx. unfold exec1, exec in Hx.
    destruct (p_op i); try discriminate Hs; cbn [c_unop c_binop] in Hx;
    repeat match type of Hx with
    | context [match ?c with _ => _ end] => destruct c; try discriminate Hx
    end; inversion Hx; reflexivity. }
  destruct (sim_simple (no_prog i) (no_layout e) no_os (x 3) (fun _ => true) e 0 [] (Hu 3) eq_refl eq_refl
              ltac:(cbn; lia) eq_refl (abs_st x m) i PExit t s' a pos x m
              (straight_simple _ Hs) Hm Hx) as (-> & _ & _ & x' & m' & [n Hst] & Hm' & E1).
  - intros c H. unfold callee_of in H. cbn in H.
    destruct (Z.eqb_spec (p_func i) (p_func i + 1)); [lia|discriminate].
  - auto.
  - exact Ha.
  - destruct Hm' as [Mr Msp Mspu Mgp Mmem _ _]. subst m'.
    exists n, x'. split; [exact Hst|]. repeat split; auto.
    + intros j v Hj' E. apply Mr. rewrite rg_in by assumption. exact E.
    + rewrite Msp. exact Esp.
Qed.
