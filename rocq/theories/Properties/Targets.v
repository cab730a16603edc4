(** C43: the two targets agree, instruction by instruction. *)
From Verif.Base Require Import Int32 Mem MemProofs Bits.
From Verif.Ir Require Import Ph2 Ph2Sem Layout.
From Verif.Rv Require RvISA RvGen.
From Verif.Arm Require ArmISA ArmGen.
From Verif.Properties Require RvProps ArmProps.

(** Virtual register j is x(j+10) on RISC-V and rj on ARM.  Two machine register
    files show the same virtual registers. *)
Definition same_regs (xr xa : Z -> Z) : Prop := forall j, 0 <= j < 8 -> xr (j + 10) = xa j.

(** Any operator with a C-defined result, any constant: from the same operands both
    targets leave the same value in the destination and keep all other registers. *)
Theorem C43_operators_agree_partial : forall er ea o rd ra rb xr xa v,
  same_regs xr xa ->
  RvProps.reg8 rd -> RvProps.reg8 ra -> RvProps.reg8 rb ->
  (forall q, is_u32 (xr q)) -> (forall q, is_u32 (xa q)) -> xa 13 mod 4 = 0 ->
  (c_binop o (s32 (xr (ra + 10))) (s32 (xr (rb + 10))) = Some v \/ c_unop o (s32 (xr (ra + 10))) = Some v) ->
  (o = OP_div \/ o = OP_mod -> ra <> rb) ->
  RvProps.rv_runs er (RvProps.insn o rd ra rb) xr (Some (rd, fun _ => v)) RvProps.keep_mem /\
  exists fm n, ArmProps.only_changes (xa 13 - 8) n fm /\ n <= 8 /\
    ArmProps.arm_runs ea (ArmProps.insn o rd ra rb) xa (Some (rd, fun _ => v)) (xa 13 - 8) n fm.
Proof.
  intros er ea o rd ra rb xr xa v Hs Hd Ha Hb Hur Hua H13 Hv Hne.
  split.
  - destruct Hv as [Hv|Hv]; [apply RvProps.C08_rv_binary|apply RvProps.C08_rv_unary]; auto.
  - rewrite (Hs ra Ha), (Hs rb Hb) in Hv. destruct Hv as [Hv|Hv].
    + destruct (ArmProps.C08_arm_binary ea o rd ra rb xa v) as (fm & H1 & H2); auto.
      { unfold ArmProps.scratch. destruct o; intros; try discriminate; apply Hne; auto. }
      exists fm, (ArmProps.scratch ea o). split; [exact H1|]. split; [|exact H2].
      unfold ArmProps.scratch. destruct o; try lia; destruct (e_hard ea); lia.
    + exists ArmProps.keep_mem, 0. split; [intros m b _; reflexivity|]. split; [lia|].
      pose proof (ArmProps.C08_arm_unary ea o rd ra rb xa v Hd Ha Hua H13 Hv) as H.
      intros pos. destruct (H pos) as (ws & E & R). exists ws. split; [exact E|].
      intros m a f Hm H0 H4 Hlt _. apply R; auto. intros d Hdd. lia.
Qed.
Print Assumptions C43_operators_agree_partial.

Theorem C43_constants_agree : forall er ea rd v xr xa,
  RvProps.reg8 rd -> (forall q, is_u32 (xr q)) -> (forall q, is_u32 (xa q)) -> xa 13 mod 4 = 0 ->
  RvProps.rv_runs er (RvProps.insn OP_load_constant rd v 0) xr (Some (rd, fun _ => v)) RvProps.keep_mem /\
  ArmProps.arm_runs ea (ArmProps.insn OP_load_constant rd v 0) xa (Some (rd, fun _ => v)) 0 0 ArmProps.keep_mem.
Proof.
  intros. split; [apply RvProps.C03_rv_constant|apply ArmProps.C03_arm_constant]; auto.
Qed.
Print Assumptions C43_constants_agree.

(** Where they disagree: reading a char above 127 through a pointer. *)
Theorem C43_char_refuted : forall er ea xr xa,
  (forall q, is_u32 (xr q)) -> (forall q, is_u32 (xa q)) -> xa 13 mod 4 = 0 ->
  exists vr va,
    RvProps.rv_runs er (RvProps.insn OP_read 0 1 1) xr (Some (0, vr)) RvProps.keep_mem /\
    ArmProps.arm_runs ea (ArmProps.insn OP_read 0 1 1) xa (Some (0, va)) 0 0 ArmProps.keep_mem /\
    forall m m', ldb m (xr 11) = 200 -> ldb m' (xa 1) = 200 ->
      w32 (vr m) = 4294967240 /\ w32 (va m') = 200.
Proof.
  intros er ea xr xa Hr Ha H13.
  eexists (fun m => if 1 =? 1 then sext 8 (ldb m (xr (1 + 10))) else _), (fun m => if 1 =? 1 then ldb m (xa 1) else _).
  split; [apply RvProps.C09_rv_read; unfold RvProps.reg8; auto; lia|].
  split; [apply ArmProps.C09_arm_read; unfold ArmProps.reg8; auto; lia|].
  intros m m' E E'. cbn. change (1 + 10) with 11. rewrite E, E'. split; reflexivity.
Qed.
Print Assumptions C43_char_refuted.
