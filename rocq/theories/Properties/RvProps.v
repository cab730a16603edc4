(** Properties C01, C03 (RISC-V), C04, C05, C07-C09 (RISC-V), C10, C12. *)
From Verif.Base Require Import Int32 Mem MemProofs Bits.
From Verif.Ir Require Import Ph2 Ph2Sem Layout.
From Verif.Rv Require Import RvISA RvEnc RvEncProofs RvGen RvExec RvOps RvSoft RvEmit RvSim RvProg RvInsn.

(** ** C01: instruction words *)

(** [rv_asm] names, for each machine instruction, the mnemonic function of
    src/riscv.c; [rv_decode] is the manual's decoder. *)
Theorem C01_rv_words_decode : forall i : rvinstr,
  rv_operands_ok i ->
  exists w, rv_asm i = Some w /\ rv_decode (w32 w) = Some i.
Proof. exact rv_asm_ok. Qed.
Print Assumptions C01_rv_words_decode.

Theorem C01_rv_out_of_range_rejected : forall i : rvinstr,
  match i with
  | II _ _ _ imm | IL _ _ _ imm | IJALR _ _ imm | IS _ _ _ imm => imm < -2048 \/ 2047 < imm
  | IB _ _ _ imm => imm < -4096 \/ 4095 < imm
  | _ => False
  end -> rv_asm i = None.
Proof. exact rv_asm_rejects. Qed.
Print Assumptions C01_rv_out_of_range_rejected.

(** together: a word is produced only if it means what was asked for *)
Theorem C01_rv_never_truncated : forall i w,
  match i with
  | II o rd rs imm => 0 <= rd < 32 /\ 0 <= rs < 32 /\
      match o with SLLI | SRLI | SRAI => 0 <= imm < 32 | _ => True end
  | IL _ rd rs _ | IJALR rd rs _ => 0 <= rd < 32 /\ 0 <= rs < 32
  | IS _ r1 r2 _ => 0 <= r1 < 32 /\ 0 <= r2 < 32
  | IB _ r1 r2 imm => 0 <= r1 < 32 /\ 0 <= r2 < 32 /\ imm mod 2 = 0
  | _ => False
  end ->
  rv_asm i = Some w -> rv_decode (w32 w) = Some i.
Proof.
  intros i w H E.
  assert (rv_operands_ok i \/ rv_asm i = None) as [Hok|Hn].
  - destruct i as [| o d a i | o d a i | o a b i | o a b i | |d a i| | | |]; try contradiction; cbn in *.
    + destruct (Z_lt_dec i (-2048)); [right; apply (rv_asm_rejects (II o d a i)); lia|].
      destruct (Z_lt_dec 2047 i); [right; apply (rv_asm_rejects (II o d a i)); lia|].
      left. unfold reg5. destruct o; lia.
    + destruct (Z_lt_dec i (-2048)); [right; apply (rv_asm_rejects (IL o d a i)); lia|].
      destruct (Z_lt_dec 2047 i); [right; apply (rv_asm_rejects (IL o d a i)); lia|].
      left. unfold reg5. lia.
    + destruct (Z_lt_dec i (-2048)); [right; apply (rv_asm_rejects (IS o a b i)); lia|].
      destruct (Z_lt_dec 2047 i); [right; apply (rv_asm_rejects (IS o a b i)); lia|].
      left. unfold reg5. lia.
    + destruct (Z_lt_dec i (-4096)); [right; apply (rv_asm_rejects (IB o a b i)); lia|].
      destruct (Z_lt_dec 4095 i); [right; apply (rv_asm_rejects (IB o a b i)); lia|].
      left. unfold reg5. lia.
    + destruct (Z_lt_dec i (-2048)); [right; apply (rv_asm_rejects (IJALR d a i)); lia|].
      destruct (Z_lt_dec 2047 i); [right; apply (rv_asm_rejects (IJALR d a i)); lia|].
      left. unfold reg5. lia.
  - destruct (rv_asm_ok _ Hok) as (w' & E' & D). congruence.
  - congruence.
Qed.
Print Assumptions C01_rv_never_truncated.

Example C01_case : exists w, rv_asm (IS SW 2 11 (-2048)) = Some w /\
  rv_decode (w32 w) = Some (IS SW 2 11 (-2048)).
Proof. apply C01_rv_words_decode. cbn. unfold reg5. lia. Qed.
Example C01_case_rej : rv_asm (IS SW 2 11 2048) = None.
Proof. apply C01_rv_out_of_range_rejected. lia. Qed.

(** ** straight-line code *)

(** Registers the program can see: return address, stack and globals pointer and
    the eight allocatable registers a0..a7 (virtual register j is x(j+10)). *)
Definition rv_observable (q : Z) : Prop := q = 1 \/ q = 2 \/ q = 3 \/ 10 <= q < 18.

(** The code emitted for [i], wherever it is loaded (also over itself: memory
    [m] is arbitrary apart from holding the code), runs from its first word to
    just past its last one, leaving [v] in register [d], every other observable
    register unchanged, and turning memory into [fm m]. *)
Definition rv_runs (e : env) (i : ph2) (x : Z -> Z) (fd : option (Z * (mem -> Z)))
    (fm : mem -> mem) : Prop :=
  forall pos, exists ws, rv_emit e pos i = Some ws /\
    forall m a, words_at m a ws -> 0 <= a -> a mod 4 = 0 ->
      a + 4 * Z.of_nat (length ws) < 4294967296 ->
      exists n x', rv_steps n (mkrv a x m) =
                     Some (mkrv (a + 4 * Z.of_nat (length ws)) x' (fm m)) /\
        forall q, rv_observable q -> x' q =
          match fd with
          | Some (d, v) => if q =? d + 10 then w32 (v m) else x q
          | None => x q
          end.

Definition keep_mem (m : mem) : mem := m.

Lemma runs_intro e i x fd fm :
  straight (p_op i) = true -> regs_ok i -> widths_ok i -> (forall q, is_u32 (x q)) ->
  match fd with Some (d, _) => vreg d | None => True end ->
  (forall m, exists s', exec1 e x m i = Ok [] s' /\ s_mem s' = fm m /\
     forall j, s_reg s' j = match fd with
                            | Some (d, v) => if j =? d then Some (w32 (v m)) else Some (x (j + 10))
                            | None => Some (x (j + 10)) end) ->
  rv_runs e i x fd fm.
Proof.
  intros Hs Hr Hw Hu Hd Hx pos. destruct (rv_emit_total e pos i Hs Hr Hw) as (ws & E).
  exists ws. split; auto. intros m a Hm H0 H4 Hlt.
  destruct (Hx m) as (s' & Ex & Em & Er).
  destruct (rv_insn_ok e pos i ws m a x [] s' Hs Hu E Hr Hm (conj H0 (conj H4 Hlt)) Ex)
    as (n & x' & Hn & Hj & H1 & H2 & H3).
  exists n, x'. rewrite <- Em. split; auto. intros q Hq.
  destruct fd as [[d v]|]; unfold vreg in *.
  - destruct (Z.eqb_spec q (d + 10)) as [->|Nq].
    + apply Hj; [lia|]. rewrite Er, Z.eqb_refl. reflexivity.
    + destruct Hq as [->|[->|[->|Hq]]]; auto.
      replace q with (q - 10 + 10) at 1 by lia. apply Hj; [lia|].
      rewrite Er. destruct (Z.eqb_spec (q - 10) d); [lia|]. f_equal. f_equal. lia.
  - destruct Hq as [->|[->|[->|Hq]]]; auto.
    replace q with (q - 10 + 10) at 1 by lia. apply Hj; [lia|].
    rewrite Er. f_equal. f_equal. lia.
Qed.

(** the eight allocatable registers *)
Definition reg8 (r : Z) : Prop := 0 <= r < 8.
Definition insn (o : opcode) (d s0 s1 : Z) : ph2 := mkph2 o s0 s1 d 0 0 0 0 false.

Lemma rg_abs x m r : reg8 r -> rg (abs_st x m) r = Some (x (r + 10)).
Proof. intros H. unfold rg. replace ((0 <=? r) && (r <? 8)) with true by (unfold reg8 in H; lia). reflexivity. Qed.
Lemma dst8 d : reg8 d -> (0 <=? d) && (d <? 8) = true.
Proof. unfold reg8. lia. Qed.
Lemma touch0 e a n : touches_code (no_layout e) a n = false.
Proof.
  unfold touches_code. apply not_true_is_false. intros H. apply existsb_exists in H.
  destruct H as (y & _ & H). cbn in H. lia.
Qed.

Ltac runs_tac :=
  apply runs_intro;
  [ reflexivity
  | unfold regs_ok; cbn [insn p_op p_dest p_src0 p_src1 uses_dest uses_src0 uses_src1];
    repeat split; intros; try discriminate; unfold vreg, reg8 in *; lia
  | unfold widths_ok; cbn [insn p_op p_dest p_src0 p_src1]; split; intros; try discriminate; auto
  | assumption
  | try exact I; try assumption
  | intros m; unfold exec1, exec; cbn [insn p_op p_dest p_src0 p_src1];
    rewrite ?rg_abs, ?dst8 by assumption; cbn [c_unop c_binop]; rewrite ?touch0;
    try (eexists; split; [reflexivity|]; split; reflexivity) ].

(** ** C03 *)
Theorem C03_rv_constant : forall e v rd x,
  reg8 rd -> (forall q, is_u32 (x q)) ->
  rv_runs e (insn OP_load_constant rd v 0) x (Some (rd, fun _ => v)) keep_mem.
Proof. intros. runs_tac. Qed.
Print Assumptions C03_rv_constant.

(** ** C08: operators, C04, C05: the emulated ones *)

(** The value C prescribes for a binary operator on two [int]s; [None] where C
    leaves it undefined or out of scope. *)
Theorem C08_rv_binary : forall e o rd ra rb x v,
  reg8 rd -> reg8 ra -> reg8 rb -> (forall q, is_u32 (x q)) ->
  c_binop o (s32 (x (ra + 10))) (s32 (x (rb + 10))) = Some v ->
  rv_runs e (insn o rd ra rb) x (Some (rd, fun _ => v)) keep_mem.
Proof.
  intros e o rd ra rb x v Hd Ha Hb Hu Hv.
  assert (straight o = true /\ c_unop o (s32 (x (ra + 10))) = None) as [Hs Hn]
    by (destruct o; try discriminate; split; reflexivity).
  apply runs_intro; auto.
  - unfold regs_ok; cbn [insn p_op p_dest p_src0 p_src1]. unfold reg8 in *.
    split; [|split; [|split]]; intros; unfold vreg; auto.
  - unfold widths_ok; cbn [insn p_op p_dest p_src0 p_src1].
    split; intros ->; cbn in Hv; discriminate Hv.
  - intros m. unfold exec1, exec. cbn [insn p_op p_dest p_src0 p_src1].
    rewrite !rg_abs, dst8 by assumption.
    destruct o; try discriminate; rewrite Hn, Hv;
      (eexists; split; [reflexivity|]; split; reflexivity).
Qed.
Print Assumptions C08_rv_binary.

Theorem C08_rv_unary : forall e o rd ra rb x v,
  reg8 rd -> reg8 ra -> (forall q, is_u32 (x q)) ->
  c_unop o (s32 (x (ra + 10))) = Some v ->
  rv_runs e (insn o rd ra rb) x (Some (rd, fun _ => v)) keep_mem.
Proof.
  intros e o rd ra rb x v Hd Ha Hu Hv.
  destruct o; try discriminate; cbn in Hv; inversion Hv; subst v; runs_tac.
Qed.
Print Assumptions C08_rv_unary.

Theorem C08_rv_assign : forall e rd ra x,
  reg8 rd -> reg8 ra -> (forall q, is_u32 (x q)) ->
  rv_runs e (insn OP_assign rd ra 0) x (Some (rd, fun _ => x (ra + 10))) keep_mem.
Proof. intros. runs_tac. Qed.
Print Assumptions C08_rv_assign.

Theorem C04_rv_soft_mul : forall e rd ra rb x,
  e_hard e = false -> reg8 rd -> reg8 ra -> reg8 rb -> (forall q, is_u32 (x q)) ->
  rv_runs e (insn OP_mul rd ra rb) x
    (Some (rd, fun _ => x (ra + 10) * x (rb + 10))) keep_mem.
Proof.
  intros e rd ra rb x _ Hd Ha Hb Hu. runs_tac.
  eexists; split; [reflexivity|]; split; [reflexivity|].
  intros j. cbn. unfold rset. destruct (j =? rd); [|reflexivity]. f_equal.
  rewrite <- (w32_mul_l (s32 _)), w32_s32, w32_mul_l, <- (w32_mul_r _ (s32 _)), w32_s32, w32_mul_r.
  reflexivity.
Qed.
Print Assumptions C04_rv_soft_mul.

Theorem C05_rv_soft_div : forall e rd ra rb x,
  e_hard e = false -> reg8 rd -> reg8 ra -> reg8 rb -> (forall q, is_u32 (x q)) ->
  x (rb + 10) <> 0 ->
  rv_runs e (insn OP_div rd ra rb) x
    (Some (rd, fun _ => Z.quot (s32 (x (ra + 10))) (s32 (x (rb + 10))))) keep_mem.
Proof.
  intros e rd ra rb x _ Hd Ha Hb Hu Hz. apply C08_rv_binary; auto. cbn.
  destruct (Z.eqb_spec (s32 (x (rb + 10))) 0) as [E|]; [|reflexivity].
  exfalso. apply Hz. rewrite <- (w32_id (x (rb + 10))) by apply Hu. rewrite <- w32_s32, E. reflexivity.
Qed.
Print Assumptions C05_rv_soft_div.

Theorem C05_rv_soft_mod : forall e rd ra rb x,
  e_hard e = false -> reg8 rd -> reg8 ra -> reg8 rb -> (forall q, is_u32 (x q)) ->
  x (rb + 10) <> 0 ->
  rv_runs e (insn OP_mod rd ra rb) x
    (Some (rd, fun _ => Z.rem (s32 (x (ra + 10))) (s32 (x (rb + 10))))) keep_mem.
Proof.
  intros e rd ra rb x _ Hd Ha Hb Hu Hz. apply C08_rv_binary; auto. cbn.
  destruct (Z.eqb_spec (s32 (x (rb + 10))) 0) as [E|]; [|reflexivity].
  exfalso. apply Hz. rewrite <- (w32_id (x (rb + 10))) by apply Hu. rewrite <- w32_s32, E. reflexivity.
Qed.
Print Assumptions C05_rv_soft_mod.

(** ** C07: the two instruction sequences agree: whatever both compute, they leave
    the same observable registers and memory behind. *)
Theorem C07_rv_hard_soft_agree : forall e e' o rd ra rb x,
  (o = OP_mul \/ (o = OP_div \/ o = OP_mod) /\ x (rb + 10) <> 0) ->
  e_hard e = true -> e_hard e' = false ->
  reg8 rd -> reg8 ra -> reg8 rb -> (forall q, is_u32 (x q)) ->
  exists v, rv_runs e (insn o rd ra rb) x (Some (rd, fun _ => v)) keep_mem /\
            rv_runs e' (insn o rd ra rb) x (Some (rd, fun _ => v)) keep_mem.
Proof.
  intros e e' o rd ra rb x Ho _ _ Hd Ha Hb Hu.
  assert (exists v, c_binop o (s32 (x (ra + 10))) (s32 (x (rb + 10))) = Some v) as (v & Hv).
  { destruct Ho as [->|[Ho Hz]]; [eexists; reflexivity|].
    assert (s32 (x (rb + 10)) <> 0) as Hz'.
    { intros E. apply Hz. rewrite <- (w32_id (x (rb + 10))) by apply Hu. rewrite <- w32_s32, E. reflexivity. }
    destruct Ho as [->| ->]; cbn; destruct (Z.eqb_spec (s32 (x (rb + 10))) 0); try contradiction;
      eexists; reflexivity. }
  exists v. split; apply C08_rv_binary; auto.
Qed.
Print Assumptions C07_rv_hard_soft_agree.

(** ** C09: addressing.  x2 = sp, x3 = gp (globals). *)
Theorem C09_rv_load : forall e o rd off x, reg8 rd -> (forall q, is_u32 (x q)) ->
  o = OP_load \/ o = OP_global_load ->
  rv_runs e (insn o rd off 0) x
    (Some (rd, fun m => ldw m (x (if opcode_beq o OP_load then 2 else 3) + off))) keep_mem.
Proof. intros e o rd off x Hd Hu [-> | ->]; runs_tac. Qed.
Print Assumptions C09_rv_load.

Theorem C09_rv_store : forall e o rs off x, reg8 rs -> (forall q, is_u32 (x q)) ->
  o = OP_store \/ o = OP_global_store ->
  rv_runs e (insn o 0 rs off) x None
    (fun m => stw m (x (if opcode_beq o OP_store then 2 else 3) + off) (x (rs + 10))).
Proof. intros e o rd off x Hd Hu [-> | ->]; runs_tac. Qed.
Print Assumptions C09_rv_store.

Theorem C09_rv_address : forall e o rd off x, reg8 rd -> (forall q, is_u32 (x q)) ->
  o = OP_address_of \/ o = OP_global_address_of ->
  rv_runs e (insn o rd off 0) x
    (Some (rd, fun _ => x (if opcode_beq o OP_address_of then 2 else 3) + off)) keep_mem.
Proof. intros e o rd off x Hd Hu [-> | ->]; runs_tac. Qed.
Print Assumptions C09_rv_address.

Theorem C09_rv_data_address : forall e rd off x, reg8 rd -> (forall q, is_u32 (x q)) ->
  rv_runs e (insn OP_load_data_address rd off 0) x
    (Some (rd, fun _ => e_data e + off)) keep_mem.
Proof. intros. runs_tac. Qed.
Print Assumptions C09_rv_data_address.

(** pointer accesses: a word or a (sign-extended) char *)
Theorem C09_rv_read : forall e rd ra w x, reg8 rd -> reg8 ra -> (forall q, is_u32 (x q)) ->
  w = 1 \/ w = 4 ->
  rv_runs e (insn OP_read rd ra w) x
    (Some (rd, fun m => if w =? 1 then sext 8 (ldb m (x (ra + 10))) else ldw m (x (ra + 10)))) keep_mem.
Proof. intros e rd ra w x Hd Ha Hu [-> | ->]; runs_tac. Qed.
Print Assumptions C09_rv_read.

Theorem C09_rv_write : forall e ra rb w x, reg8 ra -> reg8 rb -> (forall q, is_u32 (x q)) ->
  w = 1 \/ w = 4 ->
  rv_runs e (insn OP_write w ra rb) x None
    (fun m => if w =? 1 then stb m (x (ra + 10)) (x (rb + 10)) else stw m (x (ra + 10)) (x (rb + 10))).
Proof. intros e rd ra w x Hd Ha Hu [-> | ->]; runs_tac. Qed.
Print Assumptions C09_rv_write.

(** memory really is an array of bytes: a stored word is read back, other words survive *)
Theorem C09_word_read_back : forall m a b v,
  ldw (stw m a v) a = w32 v /\
  ((forall i j, 0 <= i < 4 -> 0 <= j < 4 -> w32 (a + i) <> w32 (b + j)) ->
   ldw (stw m a v) b = ldw m b).
Proof. exact word_read_back. Qed.
Print Assumptions C09_word_read_back.

(** non-trivial instances *)
Definition rv_case_x (q : Z) : Z := if q =? 11 then 4294967289 (* -7 *) else if q =? 12 then 2 else 1000.
Definition rv_case_env : env := mkenv (fun _ => 0) (fun _ => None) 65536 70000 false.
Lemma rv_case_u32 : forall q, is_u32 (rv_case_x q).
Proof. intros q. unfold rv_case_x, is_u32. repeat destruct (_ =? _); lia. Qed.
Example C05_case : rv_runs rv_case_env (insn OP_div 1 1 2) rv_case_x (Some (1, fun _ => -3)) keep_mem.
Proof. apply (C05_rv_soft_div rv_case_env 1 1 2 rv_case_x eq_refl); try (unfold reg8; lia);
  [exact rv_case_u32|discriminate]. Qed.
Example C08_case : rv_runs rv_case_env (insn OP_rshift 3 1 2) rv_case_x (Some (3, fun _ => -2)) keep_mem.
Proof. apply (C08_rv_binary rv_case_env OP_rshift 3 1 2); try (unfold reg8; lia);
  [exact rv_case_u32|reflexivity]. Qed.
Example C09_case : rv_runs rv_case_env (insn OP_store 0 1 100000) rv_case_x None
  (fun m => stw m 101000 4294967289).
Proof. apply (C09_rv_store rv_case_env OP_store 1 100000 rv_case_x); try (unfold reg8; lia);
  [exact rv_case_u32|auto]. Qed.
