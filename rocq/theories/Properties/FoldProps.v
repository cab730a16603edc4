(** C16: constant folding. *)
From Verif.Base Require Import Int32.
From Verif.Ir Require Import Ph2Sem.
From Verif.Mid Require Import Insn Edges EdgesSpec EdgesProofs Graph Cfg CfgProofs Dom Dce DceSpec Fold FoldSpec FoldProofs FoldSim LiveSpec.
From Verif.Properties Require Import DceProps.

(** The folded constant is what the instruction computes at run time (the meaning of the operators is the one the code
    generators are proved against, C04-C08), and the division traps exactly where C leaves it undefined. *)
Theorem C16_arithmetic o l r :
  (forall z, fold_arith o l r = Some (Some z) -> exists v, c_binop o l r = Some v /\ z = s32 v) /\
  (fold_arith o l r = Some None <-> (o = OP_div \/ o = OP_mod) /\ (r = 0 \/ l = -2147483648 /\ r = -1)).
Proof.
  split.
  - intros z E. apply fold_arith_spec in E. tauto.
  - unfold fold_arith. destruct o; split; try discriminate; try (intros [[Q|Q] _]; discriminate).
    all: destruct (Z.eqb_spec r 0); cbn [negb andb]; destruct (Z.eqb_spec l (-2147483648)); cbn [negb andb]; destruct (Z.eqb_spec r (-1)); cbn [negb andb];
      intros H; try reflexivity; try discriminate; try tauto; exfalso; tauto.
Qed.
Print Assumptions C16_arithmetic.

Section Folding.
  Variable ins : nat -> insn.
  Variable own : nat -> nat.
  Variable code : nat -> list nat.
  Variable g : egraph.
  Variables entry exit : nat.
  Variables is_global in_memory : nat -> bool.
  Variable init : nat -> Z.
  Hypothesis F : function_ok ins own code g entry exit is_global in_memory.
  Hypothesis Hstrict : strict ins code (to_cfg g) entry is_global.
  (* constants and results of arithmetic are assigned to temporaries, not directly to globals *)
  Hypothesis Hlocal : forall b i v, reach (succs (to_cfg g)) entry b -> In i (code b) -> i_rd (ins i) = Some v ->
    plain (i_op (ins i)) = true -> i_op (ins i) <> OP_assign -> is_global v = false.
  (* a local variable whose address is taken is not assigned by constants, copies or arithmetic (an array or a structure) *)
  Hypothesis Hmem : forall b i v, reach (succs (to_cfg g)) entry b -> In i (code b) -> i_rd (ins i) = Some v ->
    plain (i_op (ins i)) = true -> is_global v = false -> in_memory v = false.
  Variable order : list nat.
  Hypothesis Ho : forall b, In b order -> reach (succs (to_cfg g)) entry b.
  Variables (r : bool) (s : folding).
  Hypothesis E : fold_blocks is_global code order (mkfold ins (fun _ => false) init) = Folded r s.

  Lemma fold_inv : inv ins code is_global (fun b => reach (succs (to_cfg g)) entry b) init s.
  Proof.
    refine (fold_blocks_inv ins code is_global _ init _ _ order _ r s (inv_start _ _ _ _ _) Ho E).
    - exact (sm_single ins own code g entry exit is_global in_memory F).
    - intros i v (b & Lb & Ib). exact (Hlocal b i v Lb Ib).
  Qed.
  (** Every execution is the same, block by block, with the same effect on the world, whatever the other instructions mean. *)
  Theorem C16_same_execution (world : Type) (truth : Z -> bool) (get : world -> nat -> Z) (put : world -> nat -> Z -> world)
    (effect : nat -> option Z -> option Z -> world -> world) (other : nat -> option Z -> option Z -> world -> Z)
    (k : nat) (st : (nat -> Z) * world) (w : world) :
    runs truth get put effect (computes other ins init) in_memory ins g code k entry st w <->
    runs truth get put effect (computes other (fo_ins s) (fo_init s)) in_memory (fo_ins s) g code k entry st w.
  Proof.
    apply (fold_runs ins own code g entry exit is_global in_memory init F Hstrict Hmem s fold_inv truth get put effect other k entry [] st w).
    - apply reach_refl.
    - apply walk_one.
    - intros v j _ _ _ _ [[]|(c & [] & _)].
  Qed.
  (** Only copies and arithmetic change, into constants with the same destination. *)
  Theorem C16_touches_only i : fo_ins s i = ins i \/
    In (i_op (ins i)) [OP_assign; OP_add; OP_sub; OP_mul; OP_div; OP_mod] /\
    i_op (fo_ins s i) = OP_load_constant /\ i_rd (fo_ins s i) = i_rd (ins i) /\ i_rs1 (fo_ins s i) = None /\
    (exists d, i_rd (ins i) = Some d /\ is_global d = false).
  Proof.
    destruct (v_fate _ _ _ _ _ _ fold_inv i) as [Q _|d a _ Op Rd Gd _ Q _ _|d a b v Hi Op Rd _ _ Q _ _ _ _]; [left; exact Q| |]; right; rewrite Q; cbn.
    - rewrite Op, Rd. eauto 10.
    - rewrite Rd. split; [unfold arith_op in Op; intuition|]. repeat split. exists d. split; [reflexivity|]. destruct Hi as (c & Lc & Ic).
      apply (Hlocal c i d Lc Ic Rd (arith_plain _ Op)). intros Z. rewrite Z in Op. unfold arith_op in Op. intuition discriminate.
  Qed.
  (** The function keeps the form that dead code elimination needs ... *)
  Theorem C16_form_kept : function_ok (fo_ins s) own code g entry exit is_global in_memory.
  Proof.
    assert (RD : forall i, i_rd (fo_ins s i) = i_rd (ins i)) by (intros i; destruct (C16_touches_only i) as [->|(_ & _ & Q & _)]; [reflexivity|exact Q]).
    assert (OP : forall i o, ~ In o [OP_assign; OP_add; OP_sub; OP_mul; OP_div; OP_mod; OP_load_constant] ->
      (i_op (fo_ins s i) = o <-> i_op (ins i) = o) /\ (i_op (ins i) = o -> fo_ins s i = ins i)).
    { intros i o N. destruct (C16_touches_only i) as [Q|(I & Q & _)]; [rewrite Q; tauto|]. cbn in N, I. rewrite Q. intuition congruence. }
    destruct F as [F1 F2 F3 F4 F5 F6 F7 F8 F9]. constructor; try assumption.
    - intros b L. assert (B : forall i, i_op (fo_ins s i) <> OP_branch <-> i_op (ins i) <> OP_branch).
      { intros i. destruct (OP i OP_branch) as [Q _]; [cbn; intuition discriminate|]. rewrite Q. reflexivity. }
      destruct (F4 b L) as [En Et Ee N|c En Et Ee N|t e l i v En Et Ee Ec Bi R N].
      + apply shape_end; try assumption. intros i I. apply B. apply N. exact I.
      + eapply shape_next; try eassumption. intros i I. apply B. apply N. exact I.
      + destruct (OP i OP_branch) as [_ Q]; [cbn; intuition discriminate|]. pose proof (Q Bi) as Qi. rewrite <- Qi in Bi, R.
        eapply shape_branch; try eassumption. intros j I. apply B. apply N. exact I.
    - intros b c i j v Lb Lc Ii Ij Ri Rj G. rewrite RD in Ri, Rj. destruct (F6 b c i j v Lb Lc Ii Ij Ri Rj G) as [Q|[Q1 Q2]]; [left; exact Q|right].
      split; apply OP; try assumption; cbn; intuition discriminate.
    - intros b l1 p l2 L Ec Op. apply OP in Op; [|cbn; intuition discriminate]. destruct (F7 b l1 p l2 L Ec Op) as (ps & c & l3 & E1 & E2 & E3).
      exists ps, c, l3. split; [exact E1|]. split; [intros q I; apply OP; [cbn; intuition discriminate|apply E2; exact I]|].
      destruct (i_op (ins c)) eqn:Oc; try discriminate.
      + replace (i_op (fo_ins s c)) with OP_call; [reflexivity|]. symmetry. apply OP; [cbn; intuition discriminate|exact Oc].
      + replace (i_op (fo_ins s c)) with OP_indirect; [reflexivity|]. symmetry. apply OP; [cbn; intuition discriminate|exact Oc].
    - intros i Op. apply OP in Op as Op'; [|cbn; intuition discriminate]. destruct (OP i OP_func_ret) as [_ Q]; [cbn; intuition discriminate|].
      rewrite (Q Op'). apply F8. exact Op'.
    - intros v M. destruct (F9 v M) as [Q|(b & i & Lb & Ii & Op & R1)]; [left; exact Q|right]. exists b, i.
      destruct (OP i OP_address_of) as [Q1 Q2]; [cbn; intuition discriminate|]. rewrite (Q2 Op). auto.
  Qed.
  (** ... so that folding followed by elimination preserves every terminating execution. *)
  Theorem C16_folding_and_elimination
    (C : forall a b, reach (succs (to_cfg g)) a exit -> In b (succs (to_cfg g) a) -> reach (succs (to_cfg g)) b exit)
    (Ho' : forall b, In b order <-> reach (succs (to_cfg g)) entry b) (Hnd : NoDup order)
    blocks V vis o T fuel sweeps steps hops g' code'
    (R : ready (to_cfg g) exit blocks V vis o T fuel sweeps)
    (Ed : eliminate fuel sweeps steps hops (fo_ins s) own code is_global order g exit V vis o T = Done (g', code'))
    (world : Type) (truth : Z -> bool) (get : world -> nat -> Z) (put : world -> nat -> Z -> world)
    (effect : nat -> option Z -> option Z -> world -> world) (other : nat -> option Z -> option Z -> world -> Z)
    (k : nat) (st : (nat -> Z) * world) (w : world) :
    runs truth get put effect (computes other ins init) in_memory ins g code k entry st w ->
    exists k', runs truth get put effect (computes other (fo_ins s) (fo_init s)) in_memory (fo_ins s) g' code' k' entry st w.
  Proof.
    intros Q. apply C16_same_execution in Q.
    exact (C41_same_effects (fo_ins s) own code g entry exit is_global in_memory C16_form_kept C order Ho' Hnd blocks V vis o T fuel sweeps steps hops R g' code' Ed
      Z world truth get put effect _ st k w Q).
  Qed.
End Folding.
Print Assumptions C16_same_execution.
Print Assumptions C16_form_kept.
Print Assumptions C16_folding_and_elimination.

(** int f() { int x = 2, y; y = x * 3; if (y) return y; return x; }  folded completely *)
Definition fx_graph : egraph := made [(0, THEN, 1); (0, ELSE, 2); (1, NEXT, 3); (2, NEXT, 3)]%nat.
Definition fx_ins (i : nat) : insn :=
  match i with
  | 0 => mkinsn OP_load_constant (Some 0) None None
  | 1 => mkinsn OP_assign (Some 1) (Some 0) None
  | 2 => mkinsn OP_load_constant (Some 2) None None
  | 3 => mkinsn OP_mul (Some 3) (Some 1) (Some 2)
  | 4 => mkinsn OP_branch None (Some 3) None
  | 5 => mkinsn OP_return None (Some 3) None
  | _ => mkinsn OP_return None (Some 1) None
  end%nat.
Definition fx_code (b : nat) : list nat := match b with 0 => [0; 1; 2; 3; 4] | 1 => [5] | 2 => [6] | _ => [] end%nat.
Definition fx_own (i : nat) : nat := match i with 5 => 1 | 6 => 2 | _ => 0 end%nat.
Definition fx_init (v : nat) : Z := match v with 0%nat => 2 | 2%nat => 3 | _ => 0 end.
Definition fx_order : list nat := [0; 2; 1; 3]%nat.
Definition show_fold (r : folded) (is vs : list nat) : option (list insn * list Z) :=
  match r with Folded _ s => Some (map (fo_ins s) is, map (fo_init s) vs) | _ => None end.
Example C16_example : show_fold (fold_blocks none fx_code fx_order (mkfold fx_ins (fun _ => false) fx_init)) [0; 1; 2; 3; 4]%nat [0; 1; 2; 3]%nat =
  Some ([mkinsn OP_load_constant (Some 0) None None; mkinsn OP_load_constant (Some 1) None None; mkinsn OP_load_constant (Some 2) None None;
         mkinsn OP_load_constant (Some 3) None None; mkinsn OP_branch None (Some 3) None]%nat, [2; 2; 3; 6]).
Proof. vm_compute. reflexivity. Qed.
Lemma fx_edges a b : In b (succs (to_cfg fx_graph) a) -> In (a, b) [(0, 1); (0, 2); (1, 3); (2, 3)]%nat.
Proof. do 4 (destruct a as [|a]; [vm_compute; intuition (subst; tauto)|]). vm_compute. tauto. Qed.
Lemma fx_walk l b : walk (succs (to_cfg fx_graph)) 0 l b -> l = [0]%nat /\ b = 0%nat \/ (exists l', l = 0%nat :: l') /\ b <> 0%nat.
Proof.
  intros W. assert (H : forall a, a = 0%nat -> walk (succs (to_cfg fx_graph)) a l b -> l = [0]%nat /\ b = 0%nat \/ (exists l', l = 0%nat :: l') /\ b <> 0%nat); [|exact (H _ eq_refl W)].
  clear W. intros a E W. induction W as [a|a l x y W IH I]; [left; subst; auto|right].
  assert (y <> 0%nat) by (apply fx_edges in I; cbn in I; intuition congruence).
  destruct (IH E) as [[-> _]|[(l' & ->) _]]; (split; [eexists; reflexivity|assumption]).
Qed.
Lemma fx_prefix l1 i l2 : fx_code 0 = l1 ++ i :: l2 -> l1 = seq 0 i.
Proof.
  cbn. intros E. do 5 (destruct l1 as [|? l1]; [cbn in E; injection E as E0 E1; rewrite <- E0; reflexivity|cbn [app] in E; injection E as <- E]).
  destruct l1; discriminate.
Qed.
(** the hypotheses hold of it *)
Example C16_premises :
  function_ok fx_ins fx_own fx_code fx_graph 0 3 none none /\ strict fx_ins fx_code (to_cfg fx_graph) 0 none /\
  (forall b, In b fx_order -> reach (succs (to_cfg fx_graph)) 0 b) /\
  exists r s, fold_blocks none fx_code fx_order (mkfold fx_ins (fun _ => false) fx_init) = Folded r s.
Proof.
  assert (K : linked fx_graph) by apply made_linked.
  assert (R3 : reach (succs (to_cfg fx_graph)) 3 3) by apply reach_refl.
  assert (R2 : reach (succs (to_cfg fx_graph)) 2 3) by (eapply reach_front; [|exact R3]; vm_compute; tauto).
  assert (R1 : reach (succs (to_cfg fx_graph)) 1 3) by (eapply reach_front; [|exact R3]; vm_compute; tauto).
  assert (R0 : reach (succs (to_cfg fx_graph)) 0 3) by (eapply reach_front; [|exact R1]; vm_compute; tauto).
  assert (RI : forall b, reach (succs (to_cfg fx_graph)) 0 b -> In b fx_order).
  { intros b W. apply (reach_closed (succs (to_cfg fx_graph)) (fun b => In b fx_order)) with (2 := W); [|cbn; tauto].
    intros a _ c I. apply fx_edges in I. cbn in *. intuition congruence. }
  assert (II : forall b i, In i (fx_code b) -> In i [0; 1; 2; 3; 4; 5; 6]%nat) by (intros [|[|[|b]]] i I; cbn in I |- *; tauto).
  split; [|split; [|split]].
  - constructor.
    + exact K.
    + split; reflexivity.
    + intros b W. apply RI in W. cbn in W. intuition (subst; assumption).
    + intros b _. destruct b as [|[|[|b]]].
      * apply (shape_branch _ _ _ _ 1 2 [0; 1; 2; 3]%nat 4 3); try reflexivity. cbn. intros j I. intuition (subst; discriminate).
      * apply (shape_next _ _ _ _ 3); try reflexivity. intros j [<-|[]]. discriminate.
      * apply (shape_next _ _ _ _ 3); try reflexivity. intros j [<-|[]]. discriminate.
      * apply shape_end; try reflexivity. intros j [].
    + intros b i I. destruct b as [|[|[|b]]]; cbn in I; intuition (subst; reflexivity).
    + intros b c i j v _ _ I J Wi Wj _. left. apply II in I, J. cbn in I, J. intuition (subst; cbn in Wi, Wj; congruence).
    + intros b l1 p l2 _ Ec Op. assert (I : In p (fx_code b)) by (rewrite Ec; apply in_or_app; right; left; reflexivity).
      apply II in I. cbn in I. intuition (subst; discriminate).
    + intros i Op. do 6 (destruct i as [|i]; [discriminate|]). discriminate.
    + intros v M. discriminate.
  - intros b c i j v _ _ Ii Ij _ Rv Rj Pj. intros b' l1 l2 l Ec W.
    assert (Ii' : In i (fx_code b')) by (rewrite Ec; apply in_or_app; right; left; reflexivity).
    assert (Jb : In j (fx_code 0)).
    { apply II in Ij. cbn in Ij |- *. intuition (subst; try discriminate; tauto). }
    destruct (fx_walk _ _ W) as [[El ->]|[(l' & El) Nb]].
    + left. destruct l as [|x l]; [|destruct l; discriminate]. cbn in Ii', Jb.
      assert (Nj : j <> 4%nat) by (intros ->; discriminate).
      rewrite (fx_prefix _ _ _ Ec).
      destruct Ii' as [<-|[<-|[<-|[<-|[<-|[]]]]]]; cbn in Rv; destruct Rv as [Rv|Rv]; try discriminate; injection Rv as <-;
        destruct Jb as [<-|[<-|[<-|[<-|[<-|[]]]]]]; try discriminate; cbn; tauto.
    + right. exists 0%nat. split; [|exact Jb]. destruct l as [|x l]; [destruct Nb; cbn in El; congruence|]. injection El as -> _. left. reflexivity.
  - cbn. intros b [<-|[<-|[<-|[<-|[]]]]]; [apply reach_refl|apply reach_edge; vm_compute; tauto|apply reach_edge; vm_compute; tauto|exact R0].
  - destruct (fold_blocks none fx_code fx_order (mkfold fx_ins (fun _ => false) fx_init)) as [r s| |] eqn:E; [eauto| |]; exfalso; vm_compute in E; discriminate.
Qed.

(** int x = 5; int *p = &x; *p = 6; return x + 1;   A variable whose address is taken keeps its mark: 6 is returned, not 7.
    Here a variable in memory is its own address, and the world is the memory and the value returned. *)
Definition ad_ins (i : nat) : insn :=
  match i with
  | 0 => mkinsn OP_load_constant (Some 0) None None
  | 1 => mkinsn OP_assign (Some 1) (Some 0) None
  | 2 => mkinsn OP_address_of (Some 2) (Some 1) None
  | 3 => mkinsn OP_load_constant (Some 3) None None
  | 4 => mkinsn OP_write None (Some 2) (Some 3)
  | 5 => mkinsn OP_load_constant (Some 4) None None
  | 6 => mkinsn OP_add (Some 5) (Some 1) (Some 4)
  | _ => mkinsn OP_return None (Some 5) None
  end%nat.
Definition ad_graph : egraph := made [(0, NEXT, 1)]%nat.
Definition ad_code (b : nat) : list nat := match b with 0 => [0; 1; 2; 3; 4; 5; 6; 7] | _ => [] end%nat.
Definition ad_init (v : nat) : Z := match v with 0%nat => 5 | 3%nat => 6 | 4%nat => 1 | _ => 0 end.
Definition ad_memory (v : nat) : bool := Nat.eqb v 1.
Definition ad_world := ((nat -> Z) * Z)%type.
Definition ad_effect (i : nat) (a b : option Z) (w : ad_world) : ad_world :=
  match i, a, b with
  | 4%nat, Some p, Some x => (upd (fst w) (Z.to_nat p) x, snd w)
  | 7%nat, Some x, _ => (fst w, x)
  | _, _, _ => w
  end.
Definition ad_runs (ins : nat -> insn) (init : nat -> Z) (k : nat) (returned : Z) : Prop := forall vars mem r, exists w,
  runs (fun z => negb (z =? 0)) (fun w v => fst w v) (fun (w : ad_world) v x => (upd (fst w) v x, snd w)) ad_effect
    (computes (fun i _ _ _ => match i with 2%nat => 1 | _ => 0 end) ins init) ad_memory ins ad_graph ad_code k 0 (vars, (mem, r)) w /\ snd w = returned.
Theorem C16_address_taken_refuted :
  ad_runs ad_ins ad_init 1 7 /\
  exists r s, fold_blocks none ad_code [0; 1]%nat (mkfold ad_ins (fun _ => false) ad_init) = Folded r s /\
    ad_runs (fo_ins s) (fo_init s) 1 6.
Proof.
  split.
  - intros vars mem r. eexists. split; [eapply runs_step with (c := 1%nat); [reflexivity|apply runs_end; reflexivity]|]. vm_compute. reflexivity.
  - eexists _, _. split; [reflexivity|]. intros vars mem r. eexists. split; [eapply runs_step with (c := 1%nat); [reflexivity|apply runs_end; reflexivity]|]. vm_compute. reflexivity.
Qed.
(** int f(int n) { if (n) return 1 / 0; return 0; }   The compiler itself divides by zero, whether the division would be reached or not. *)
Definition dz_ins (i : nat) : insn :=
  match i with
  | 0 => mkinsn OP_branch None (Some 9) None
  | 1 => mkinsn OP_load_constant (Some 0) None None
  | 2 => mkinsn OP_load_constant (Some 1) None None
  | 3 => mkinsn OP_div (Some 2) (Some 0) (Some 1)
  | _ => mkinsn OP_return None (Some 2) None
  end%nat.
Definition dz_code (b : nat) : list nat := match b with 0 => [0] | 1 => [1; 2; 3; 4] | _ => [] end%nat.
Theorem C16_division_refuted : fold_blocks none dz_code [0; 1]%nat (mkfold dz_ins (fun _ => false) (fun v => match v with 0%nat => 1 | _ => 0 end)) = FTrap.
Proof. vm_compute. reflexivity. Qed.
Print Assumptions C16_address_taken_refuted.
