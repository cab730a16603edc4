(** Per-instruction consequences of the simulation, free of program layout. *)
From Verif.Base Require Import Int32 Mem MemProofs Bits.
From Verif.Ir Require Import Ph2 Ph2Sem Layout.
From Verif.Arm Require Import ArmISA ArmEnc ArmEncProofs ArmGen ArmExec ArmOps ArmSoft ArmEmit ArmSim ArmProg.

Definition straight (o : opcode) : bool :=
  match o with
  | OP_load_constant | OP_load_data_address | OP_address_of | OP_global_address_of
  | OP_assign | OP_load | OP_global_load | OP_store | OP_global_store | OP_read | OP_write
  | OP_load_func
  | OP_add | OP_sub | OP_mul | OP_div | OP_mod | OP_lshift | OP_rshift
  | OP_log_not | OP_eq | OP_neq | OP_lt | OP_leq | OP_gt | OP_geq
  | OP_bit_or | OP_bit_and | OP_bit_xor | OP_bit_not | OP_negate => true
  | _ => false
  end.

Definition widths_ok (i : ph2) : Prop :=
  (p_op i = OP_read -> p_src1 i = 1 \/ p_src1 i = 4) /\
  (p_op i = OP_write -> p_dest i = 1 \/ p_dest i = 4).

Lemma encs_total pos fs is : encs pos fs is -> exists ws, emits pos fs = Some ws.
Proof. intros H. destruct (encs_emits _ _ _ H) as (ws & E & _). eauto. Qed.

(** emission of a straight-line instruction with legal registers never fails *)
Lemma arm_emit_total e pos i : straight (p_op i) = true -> regs_ok i -> widths_ok i ->
  arm_size (e_hard e) i <> None ->
  exists ws, arm_emit e pos i = Some ws.
Proof.
  intros Hs (Hd & H0 & H1 & Hr) (W1 & W2) Hz.
  assert (exists fs, arm_emit e pos i = emits pos fs /\ encs pos fs (arm_insns e pos i)) as (fs & -> & E).
  2:{ eapply encs_total; eauto. }
  unfold arm_emit, arm_insns, arm_size, vreg, mov32_insns, arm_bin_insns, mov32 in *.
  destruct (p_op i) eqn:Eop; try discriminate Hs; cbn [uses_dest uses_src0 uses_src1] in *;
  repeat match goal with H : true = true -> _ |- _ => specialize (H eq_refl) end;
  repeat match goal with H : false = true -> _ |- _ => clear H end.
  all: try match goal with |- context [p_src1 _ =? 1] =>
      destruct (W1 eq_refl) as [Ew|Ew]; rewrite Ew; cbn [Z.eqb Pos.eqb] end.
  all: try match goal with |- context [p_dest _ =? 1] =>
      destruct (W2 eq_refl) as [Ew|Ew]; rewrite Ew; cbn [Z.eqb Pos.eqb] end.
  all: repeat match goal with
  | |- context [if e_hard ?c then _ else _] => destruct (e_hard c)
  | |- context [if ?c then emits _ _ else _] => destruct c eqn:?
  end.
  all: try (repeat match type of Hz with context [if ?c then _ else _] => destruct c eqn:? end;
       try congruence).
  all: eexists; split; [reflexivity|].
  all: lazymatch goal with
  | |- encs _ (arm_soft_div _ _ _ _) _ => apply div_encs; unfold vreg; regs4
  | |- _ => cbn [app encs]; repeat match goal with |- _ /\ _ => split end; try exact I; try enc1
  end.
  all: try (cbn [arm_get_cond]; enc1).
Qed.

(** a register file read as an IR state *)
Definition abs_st (x : Z -> Z) (m : mem) : st :=
  mkst PExit (fun i => Some (x i)) (x 13) m [] None.

(** the only layout facts that matter here: where the words of this one instruction are *)
Definition one_layout (e : env) (a n : Z) : layout :=
  mklayout a (a + n) (e_data e) (fun _ => 0) (fun _ => 0).
Definition no_prog (i : ph2) : program := mkprog [] 0 0 [] 0 (p_func i + 1) 0.
Definition no_os : osspec := mkos (fun _ => O) (fun _ _ _ => None).

Definition exec1 (e : env) (a n : Z) (x : Z -> Z) (m : mem) (i : ph2) : res :=
  exec (no_prog i) (one_layout e a n) (arm_conv (e_hard e)) no_os (x 12) (fun _ => true)
       (abs_st x m) i PExit.

Lemma straight_simple o : straight o = true -> simple o = true.
Proof. destruct o; cbn; congruence. Qed.

Lemma arm_one_ok e pos i ws m a x f t s' :
  straight (p_op i) = true -> (forall q, is_u32 (x q)) -> x 13 mod 4 = 0 ->
  arm_emit e pos i = Some ws -> regs_ok i -> div_regs_ok (e_hard e) i ->
  arm_size (e_hard e) i <> None ->
  words_at m a ws -> arange a (length ws) ->
  exec1 e a (4 * Z.of_nat (length ws)) x m i = Ok t s' ->
  exists n x' f', arm_steps n (mkarm a x f m) =
      Some (mkarm (a + 4 * Z.of_nat (length ws)) x' f' (s_mem s')) /\
    (forall j v, 0 <= j < 8 -> s_reg s' j = Some v -> x' j = v) /\
    x' 12 = x 12 /\ x' 13 = x 13 /\ x' 14 = x 14.
Proof.
  intros Hs Hu H4 He Hr Hdv Hz Hw Ha Hx.
  assert (jumps_ok e pos i) as Hj by (unfold jumps_ok; destruct (p_op i); try discriminate; exact I).
  destruct (arm_emit_code _ _ _ _ He Hr Hj (or_intror Hz)) as (El & Hc).
  assert (mcore (x 12) a ws (abs_st x m) x m) as Hm.
  { constructor; cbn; auto.
    - intros j v H. apply rg_some in H. destruct H as [_ H]. cbn in H. inversion H; subst. split; auto.
    - discriminate. }
  assert (s_sp s' = x 13) as Esp.
  { clear - Hs Hx. unfold exec1, exec in Hx.
    destruct (p_op i); try discriminate Hs; cbn [c_unop c_binop] in Hx;
    repeat match type of Hx with
    | context [match ?c with _ => _ end] => destruct c; try discriminate Hx
    end; inversion Hx; reflexivity. }
  destruct Ha as (A0 & A4 & A1).
  destruct (sim_simple (no_prog i) (one_layout e a (4 * Z.of_nat (length ws))) no_os (x 12)
              (fun _ => true) e a ws (Hu 12) eq_refl eq_refl
              ltac:(lia) eq_refl (abs_st x m) i PExit t s' a pos x f m
              (straight_simple _ Hs) Hm Hx Hdv (or_intror Hz))
    as (-> & _ & _ & x' & f' & m' & [n Hst] & Hm' & E1).
  - intros c H. unfold callee_of in H. cbn in H.
    destruct (Z.eqb_spec (p_func i) (p_func i + 1)); [lia|discriminate].
  - auto.
  - rewrite <- El. repeat split; assumption.
  - rewrite <- El in Hst. destruct Hm' as [Mr Msp Mspu Msp4 Mgp Mmem _ _]. subst m'.
    exists n, x', f'. split; [exact Hst|]. repeat split; auto.
    + intros j v Hj' E. apply Mr. rewrite rg_in by assumption. exact E.
    + rewrite Msp. exact Esp.
Qed.
