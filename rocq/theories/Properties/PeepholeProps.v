(** C15: the peephole pass (src/peephole.c) on straight-line code. *)
From Verif.Base Require Import Int32 Mem Os.
From Verif.Ir Require Import Ph2 Ph2Sem Regs.
From Verif.Rv Require RvSim.
From Verif.Arm Require ArmSim.
From Verif.Opt Require Import Peephole PeepholeProofs.

(** The two targets' calling conventions, as seen by the interpreter. *)
Inductive target := Riscv | Armv7 (hard_div : bool).
Definition conv_of (t : target) : conv :=
  match t with Riscv => RvSim.rv_conv | Armv7 h => ArmSim.arm_conv h end.

Lemma spill_ok t : spill_regular (conv_of t).
Proof.
  intros i j a b H0 H1 H2. destruct t; cbn; auto. unfold ArmSim.arm_spill.
  rewrite <- H0, <- H1, <- H2. split; [reflexivity|].
  intros N1 N2. destruct (p_op i); try reflexivity; contradiction.
Qed.

(** Specification vocabulary.  [run_insns] (PeepholeProofs) is plain iteration of the
    reference interpreter [Ph2Sem.exec]; [needed r l] says that [l] reads register [r]
    before writing it; a "removed temporary" is the destination of the first
    instruction of a pair that the pass replaces by a single one. *)
Definition removed_temporary (l : list ph2) (r : Z) : Prop :=
  exists before i n after i', l = before ++ i :: n :: after /\ insn_fusion i n = Some i' /\
    r = p_dest i /\ p_dest i <> p_dest n.

(** What the register allocator must have guaranteed about every replaced pair: the
    constant of a [li 0]/[li 1] pair is not both operands, and the removed register is
    not read again before it is overwritten.  (shecc does not establish it: see the two
    refutations below; hence the suffix.) *)
Definition pairs_independent (l : list ph2) : Prop :=
  forall before i n after i', l = before ++ i :: n :: after -> insn_fusion i n = Some i' ->
    (p_op i = OP_load_constant -> ~ (p_src0 n = p_dest i /\ p_src1 n = p_dest i)) /\
    (p_dest i <> p_dest n -> needed (p_dest i) after = false).

Theorem C15_peephole_block_partial : forall t p L os gp ck l s s',
  Forall (fun i => control (p_op i) = false) l ->
  pairs_independent l ->
  (forall r v, s_reg s r = Some v -> is_u32 v) ->
  run_insns p L (conv_of t) os gp ck l s = Some s' ->
  exists s2, run_insns p L (conv_of t) os gp ck (peep l) s = Some s2 /\
    s_mem s2 = s_mem s' /\ s_sp s2 = s_sp s' /\ s_stk s2 = s_stk s' /\ s_pt s2 = s_pt s' /\
    (forall v, s_latch s' = Some v -> s_latch s2 = Some v) /\
    (forall r, ~ removed_temporary l r -> s_reg s2 r = s_reg s' r).
Proof.
  intros t p L os gp ck l s s' Hc Hp Hu Hr.
  destruct (peep_ok p L (conv_of t) os gp ck (spill_ok t) (length l) l (le_n _)
              (fun _ => False) (removed_temporary l) s s s') as (s2 & R & A); try assumption.
  - intros r [].
  - intros r [].
  - intros r H. exact H.
  - constructor; auto.
  - exists s2. split; [exact R|]. destruct A. repeat (split; [assumption|]). assumption.
Qed.
Print Assumptions C15_peephole_block_partial.

(** Stores, calls, branches, returns and every other instruction with an effect besides
    a register: kept, in order, unchanged. No hypothesis. *)
Theorem C15_effects_untouched : forall l,
  filter (fun i => negb (pure_op (p_op i))) (peep l) = filter (fun i => negb (pure_op (p_op i))) l.
Proof. intros l. exact (peep_effects (length l) l (le_n _)). Qed.
Print Assumptions C15_effects_untouched.

(** Nothing moves across an instruction that is not in the pass's vocabulary, so a block
    is optimised segment by segment. *)
Lemma peep_cut_len : forall k l1 c l2, (length l1 <= k)%nat -> pure_op (p_op c) = false ->
  peep (l1 ++ c :: l2) = peep l1 ++ c :: tl (peep (c :: l2)).
Proof.
  assert (Hc : forall c l2, pure_op (p_op c) = false -> peep (c :: l2) = c :: tl (peep (c :: l2))).
  { intros c [|n r] Hp; [reflexivity|].
    change (peep (c :: n :: r)) with
      (if self_move n then c :: peep r
       else match insn_fusion c n with Some i' => i' :: peep r | None => c :: peep (n :: r) end).
    destruct (self_move n); [reflexivity|].
    destruct (insn_fusion c n) eqn:E; [|reflexivity].
    destruct (fuse_pure _ _ _ E) as [H _]. congruence. }
  induction k as [|k IH]; intros l1 c l2 Hk Hp.
  { destruct l1; cbn in Hk; [|lia]. apply Hc, Hp. }
  destruct l1 as [|i [|n r]].
  - apply Hc, Hp.
  - change (peep ([i] ++ c :: l2)) with
      (if self_move c then i :: peep l2
       else match insn_fusion i c with Some i' => i' :: peep l2 | None => i :: peep (c :: l2) end).
    assert (self_move c = false) as ->.
    { unfold self_move, opeq. destruct (opcode_eq_dec (p_op c) OP_assign) as [E|]; [|reflexivity].
      rewrite E in Hp. discriminate. }
    destruct (insn_fusion i c) eqn:E.
    + destruct (fuse_pure _ _ _ E) as (_ & H & _). congruence.
    + cbn [app peep]. rewrite (Hc c l2 Hp) at 1. reflexivity.
  - change ((i :: n :: r) ++ c :: l2) with (i :: n :: (r ++ c :: l2)).
    change (peep (i :: n :: r)) with
      (if self_move n then i :: peep r
       else match insn_fusion i n with Some i' => i' :: peep r | None => i :: peep (n :: r) end).
    change (peep (i :: n :: r ++ c :: l2)) with
      (if self_move n then i :: peep (r ++ c :: l2)
       else match insn_fusion i n with Some i' => i' :: peep (r ++ c :: l2)
            | None => i :: peep ((n :: r) ++ c :: l2) end).
    rewrite (IH r c l2) by (cbn in *; auto; lia). rewrite (IH (n :: r) c l2) by (cbn in *; auto; lia).
    destruct (self_move n); [reflexivity|]. destruct (insn_fusion i n); reflexivity.
Qed.

Theorem C15_segments : forall l1 c l2, pure_op (p_op c) = false ->
  exists l2', peep (l1 ++ c :: l2) = peep l1 ++ c :: l2' /\ peep (c :: l2) = c :: l2'.
Proof.
  intros l1 c l2 Hp. exists (tl (peep (c :: l2))). split.
  - exact (peep_cut_len (length l1) l1 c l2 (le_n _) Hp).
  - exact (peep_cut_len 0 [] c l2 (le_n _) Hp).
Qed.
Print Assumptions C15_segments.

(** The pass never lengthens a block. *)
Theorem C15_never_longer : forall l, (length (peep l) <= length l)%nat.
Proof.
  assert (forall k l, (length l <= k)%nat -> (length (peep l) <= length l)%nat) as H.
  { induction k as [|k IH]; intros l Hk; [destruct l; cbn in *; lia|].
    destruct l as [|i [|n r]]; try (cbn; lia).
    change (peep (i :: n :: r)) with
      (if self_move n then i :: peep r
       else match insn_fusion i n with Some i' => i' :: peep r | None => i :: peep (n :: r) end).
    destruct (self_move n).
    - cbn [length]. pose proof (IH r ltac:(cbn in Hk; lia)). lia.
    - destruct (insn_fusion i n); cbn [length].
      + pose proof (IH r ltac:(cbn in Hk; lia)). lia.
      + pose proof (IH (n :: r) ltac:(cbn in *; lia)). cbn [length] in *. lia. }
  intros l. exact (H (length l) l (le_n _)).
Qed.
Print Assumptions C15_never_longer.

(** *** The unconditional claim is false of the code *)

Definition li (d v : Z) := mkph2 OP_load_constant v 0 d 0 0 0 0 false.
Definition bin (o : opcode) (d a b : Z) := mkph2 o a b d 0 0 0 0 false.
Definition mv (d a : Z) := mkph2 OP_assign a 0 d 0 0 0 0 false.
Definition start (regs : Z -> option Z) : st := mkst (PFun 0 0 0) regs 4096 (fun _ => 0) [] None.
Definition nothing : program := mkprog [] 0 0 [] 0 0 0.
Definition lay0 : layout := mklayout 0 0 0 (fun _ => 0) (fun _ => 0).
Definition quiet : osspec := {| os_call := fun _ _ _ => None; os_nargs := fun _ => 0%nat |}.
Definition run_rv l s := run_insns nothing lay0 (conv_of Riscv) quiet 8192 (fun _ => true) l s.
Definition after l (r : Z) s := match run_rv l s with Some s' => s_reg s' r | None => None end.

(** a register the pass removed is read later: r0 = 5; li r1,0; add r2,r0,r1; add r3,r2,r1 *)
Theorem C15_live_constant_refuted :
  let l := [li 1 0; bin OP_add 2 0 1; bin OP_add 3 2 1] in
  let s := start (fun r => if r =? 0 then Some 5 else if r =? 1 then Some 77 else None) in
  after l 3 s = Some 5 /\ after (peep l) 3 s = Some 82.
Proof. vm_compute. split; reflexivity. Qed.
Print Assumptions C15_live_constant_refuted.

(** the constant is both operands: li r1,0; add r2,r1,r1 *)
Theorem C15_aliased_constant_refuted :
  let l := [li 1 0; bin OP_add 2 1 1] in
  let s := start (fun r => if r =? 1 then Some 77 else None) in
  after l 2 s = Some 0 /\ after (peep l) 2 s = Some 77.
Proof. vm_compute. split; reflexivity. Qed.
Print Assumptions C15_aliased_constant_refuted.

(** non-vacuity: a block with three rewrites that meets the hypotheses, and what the
    pass makes of it *)
Definition demo := [bin OP_mul 2 0 1; mv 3 2; li 4 0; bin OP_sub 5 4 3; mv 6 6; li 2 1;
                    bin OP_mul 1 5 2].
Example demo_peep : peep demo = [bin OP_mul 3 0 1; mkph2 OP_negate 3 0 5 0 0 0 0 false; mv 6 6;
                                 mkph2 OP_assign 5 0 1 0 0 0 0 false].
Proof. reflexivity. Qed.
Example demo_straight : Forall (fun i => control (p_op i) = false) demo.
Proof. repeat constructor. Qed.
Example demo_independent : pairs_independent demo.
Proof.
  unfold pairs_independent, demo. intros l1 i n l2 i' E F.
  do 6 (destruct l1 as [|? l1]; cbn [app] in E;
        [injection E as <- <- <-; cbn in F;
         first [discriminate F | split; [cbn; intros; first [discriminate|lia]|intros; reflexivity]]
        |injection E as <- E]).
  destruct l1 as [|? [|? l1]]; discriminate E.
Qed.
Example demo_runs :
  let s := start (fun r => Some (r + 3)) in
  after demo 1 s = Some (w32 (-12)) /\ after (peep demo) 1 s = Some (w32 (-12)).
Proof. vm_compute. split; reflexivity. Qed.
