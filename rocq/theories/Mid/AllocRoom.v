(** Blocks that mention few variables: the registers suffice, so no clash is possible. *)
From Verif.Mid Require Export Alloc AllocSpec AllocStatic.
From Coq Require Import ZArith List Lia.
Import ListNotations.
Local Open Scope Z_scope.

(** the most arguments passed so far anywhere in l, when d have been passed already *)
Fixpoint most_args (d : nat) (l : list rinsn) : nat :=
  match l with
  | [] => d
  | i :: r => match i_op (r_insn i) with
              | OP_push => most_args (S d) r
              | OP_call => Nat.max d (most_args 0 r)
              | _ => most_args d r
              end
  end.
Lemma most_args_ge l : forall d, (d <= most_args d l)%nat.
Proof.
  induction l as [|i l IH]; intros d; cbn; [lia|]. destruct (i_op (r_insn i)); try apply IH; specialize (IH (S d)); lia.
Qed.
Definition within (S : list nat) (i : insn) : Prop :=
  forall v, i_rd i = Some v \/ i_rs1 i = Some v \/ i_rs2 i = Some v -> In v S.

Section Room.
  Variable V : vars.
  Variable live_out : nat -> list nat.
  Variable killed : nat -> nat -> bool.
  Variable arity : Z -> Z.
  Variables then_ else_ : nat -> option nat.
  Variable S : list nat.                                     (* the variables of the block *)

  (** registers beyond the arguments hold different variables *)
  Definition sep (d : nat) (s : ra) : Prop :=
    (forall i j v, (d <= i < 8)%nat -> (d <= j < 8)%nat -> a_var s i = Some v -> a_var s j = Some v -> i = j) /\
    (forall i v, (i < 8)%nat -> a_var s i = Some v -> In v S).
  Definition shrinks (s s' : ra) : Prop := forall i, (i < 8)%nat -> a_var s' i = None \/ a_var s' i = a_var s i.
  Lemma shrinks_refl s : shrinks s s. Proof. intros i _. auto. Qed.
  Lemma shrinks_trans s1 s2 s3 : shrinks s1 s2 -> shrinks s2 s3 -> shrinks s1 s3.
  Proof. intros A B i Hi. destruct (B i Hi) as [Q|Q]; [auto|]. rewrite Q. apply A. exact Hi. Qed.
  Lemma shrinks_fold (f : ra -> nat -> ra) l : (forall s i, shrinks s (f s i)) -> forall s, shrinks s (fold_left f l s).
  Proof. intros H. induction l as [|i l IH]; cbn; intros s; [apply shrinks_refl|]. eapply shrinks_trans; [apply H|apply IH]. Qed.
  Lemma sep_shrinks d s s' : shrinks s s' -> sep d s -> sep d s'.
  Proof.
    intros H [A B]. split.
    - intros i j v Hi Hj E1 E2. destruct (H i ltac:(lia)) as [Q|Q]; [congruence|]. destruct (H j ltac:(lia)) as [Q'|Q']; [congruence|].
      apply (A i j v Hi Hj); congruence.
    - intros i v Hi E. destruct (H i Hi) as [Q|Q]; [congruence|]. apply (B i v Hi). congruence.
  Qed.
  Lemma shrinks_none i p s : shrinks s (set_reg i None p s).
  Proof. intros j _. cbn. unfold upd. destruct (Nat.eqb j i); auto. Qed.
  Lemma shrinks_spill v i s : shrinks s (spill_var V v i s).
  Proof. intros j _. rewrite spill_regs. destruct (Nat.eqb j i); auto. Qed.
  Lemma shrinks_refresh b k s : shrinks s (refresh live_out b k s).
  Proof.
    apply shrinks_fold. intros t i. unfold refresh_reg. destruct (a_var t i) as [v|]; [|apply shrinks_refl].
    destruct (check_live_out live_out b v); [apply shrinks_refl|]. destruct (a_cons t v <? k); [apply shrinks_none|apply shrinks_refl].
  Qed.
  Lemma shrinks_alive b k s : shrinks s (spill_alive V live_out b k s).
  Proof.
    apply shrinks_fold. intros t i. unfold spill_alive_reg. destruct (a_var t i) as [v|]; [|apply shrinks_refl].
    destruct (check_live_out live_out b v); [apply shrinks_spill|]. destruct (k <? a_cons t v); [apply shrinks_spill|apply shrinks_refl].
  Qed.
  Lemma shrinks_out b s : shrinks s (spill_live_out V live_out killed b s).
  Proof.
    apply shrinks_fold. intros t i. unfold spill_out_reg. destruct (a_var t i) as [v|]; [|apply shrinks_refl].
    destruct (negb (check_live_out live_out b v)); [apply shrinks_none|]. destruct (negb (killed v b)); [apply shrinks_none|apply shrinks_spill].
  Qed.
  Lemma fold_args (f : ra -> nat -> ra) l : (forall s i, a_args (f s i) = a_args s) -> forall s, a_args (fold_left f l s) = a_args s.
  Proof. intros H. induction l as [|i l IH]; cbn; intros s; [reflexivity|]. rewrite IH. apply H. Qed.
  Lemma refresh_args b k s : a_args (refresh live_out b k s) = a_args s.
  Proof.
    apply fold_args. intros t i. unfold refresh_reg. destruct (a_var t i) as [v|]; [|reflexivity]. destruct (check_live_out live_out b v); [reflexivity|]. destruct (a_cons t v <? k); reflexivity.
  Qed.
  Lemma alive_args b k s : a_args (spill_alive V live_out b k s) = a_args s.
  Proof.
    apply fold_args. intros t i. unfold spill_alive_reg. destruct (a_var t i) as [v|]; [|reflexivity].
    destruct (check_live_out live_out b v); [apply spill_push|]. destruct (k <? a_cons t v); [apply spill_push|reflexivity].
  Qed.
  Lemma out_args b s : a_args (spill_live_out V live_out killed b s) = a_args s.
  Proof.
    apply fold_args. intros t i. unfold spill_out_reg. destruct (a_var t i) as [v|]; [|reflexivity].
    destruct (negb (check_live_out live_out b v)); [reflexivity|]. destruct (negb (killed v b)); [reflexivity|apply spill_push].
  Qed.

  (** there is a register for x *)
  Lemma room d s x : (d + length S <= 8)%nat -> sep d s -> In x S -> find_in_regs x s = None -> exists i, find_free s = Some i.
  Proof.
    intros Le [A B] Ix N. destruct (find_free s) as [i|] eqn:F; [eauto|]. exfalso.
    pose proof (find_free_none s F) as FULL. pose proof (find_regs_none x s N) as NX.
    set (vs := map (fun i => match a_var s i with Some v => v | None => 0%nat end) (seq d (8 - d))).
    assert (ND : NoDup (x :: vs)).
    { constructor.
      - unfold vs. rewrite in_map_iff. intros (i & E & I). apply in_seq in I. destruct (FULL i ltac:(lia)) as [v Ev]. rewrite Ev in E. subst v. apply (NX i ltac:(lia) Ev).
      - unfold vs. assert (H : forall l, NoDup l -> incl l (seq d (8 - d)) -> NoDup (map (fun i => match a_var s i with Some v => v | None => 0%nat end) l)).
        { induction l as [|i l IH]; intros NDl Il; cbn; [constructor|]. inversion NDl; subst. constructor; [|apply IH; auto; intros z Z; apply Il; right; exact Z].
          rewrite in_map_iff. intros (j & E & J). pose proof (Il i (or_introl eq_refl)) as Hi. pose proof (Il j (or_intror J)) as Hj. apply in_seq in Hi. apply in_seq in Hj.
          destruct (FULL i ltac:(lia)) as [v Ev]. destruct (FULL j ltac:(lia)) as [u Eu]. rewrite Ev, Eu in E. subst u.
          assert (i = j) by (apply (A i j v); auto; lia). subst j. contradiction. }
        apply H; [apply seq_NoDup|apply incl_refl]. }
    assert (IN : incl (x :: vs) S).
    { intros z [<-|I]; [exact Ix|]. unfold vs in I. rewrite in_map_iff in I. destruct I as (i & E & I). apply in_seq in I.
      destruct (FULL i ltac:(lia)) as [v Ev]. rewrite Ev in E. subst v. apply (B i z ltac:(lia) Ev). }
    pose proof (NoDup_incl_length ND IN) as L. cbn [length] in L. unfold vs in L. rewrite map_length, seq_length in L. lia.
  Qed.
  (** x gets register r: the others stay, and it was free or x's already *)
  Definition gets (x r : nat) (s s' : ra) : Prop :=
    (r < 8)%nat /\ (a_var s r = None \/ a_var s r = Some x) /\ a_var s' r = Some x /\ (forall i, i <> r -> a_var s' i = a_var s i) /\ a_args s' = a_args s /\
    (forall i, (i < 8)%nat -> a_var s r = None -> a_var s i <> Some x).
  Lemma sep_gets d x r s s' : sep d s -> In x S -> gets x r s s' -> sep d s'.
  Proof.
    intros [A B] Ix (Hr & P & E & O & _ & NX). split.
    - intros i j v Hi Hj E1 E2. destruct (Nat.eq_dec i r) as [->|Ni], (Nat.eq_dec j r) as [->|Nj]; auto.
      + rewrite O in E2 by exact Nj. assert (v = x) by congruence. subst v. destruct P as [P|P]; [exfalso; eapply (NX j ltac:(lia) P E2)|]. apply (A r j x); auto.
      + rewrite O in E1 by exact Ni. assert (v = x) by congruence. subst v. destruct P as [P|P]; [exfalso; eapply (NX i ltac:(lia) P E1)|]. apply (A i r x); auto.
      + rewrite O in E1 by exact Ni. rewrite O in E2 by exact Nj. eauto.
    - intros i v Hi E1. destruct (Nat.eq_dec i r) as [->|Ni]; [congruence|]. rewrite O in E1 by exact Ni. eauto.
  Qed.
  Lemma gets_operand d b x o s : (d + length S <= 8)%nat -> sep d s -> In x S ->
    let '(r, s') := prepare_operand V live_out b x o s in gets x r s s'.
  Proof.
    intros Le SP Ix. unfold prepare_operand. destruct (find_in_regs x s) as [i|] eqn:F.
    - destruct (find_regs_some _ _ _ F) as [Hi E]. unfold gets. repeat split; auto. congruence.
    - destruct (room d s x Le SP Ix F) as [i Fi]. rewrite Fi. destruct (find_free_some _ _ Fi) as [Hi E]. unfold gets, load_var. cbn.
      repeat split; auto; [apply upd_same|intros j Nj; apply upd_other; exact Nj|]. intros j Hj _. apply (find_regs_none x s F j Hj).
  Qed.
  Lemma gets_dest d b x o0 o1 s : (d + length S <= 8)%nat -> sep d s -> In x S ->
    let '(r, s') := prepare_dest V live_out b x o0 o1 s in gets x r s s'.
  Proof.
    intros Le SP Ix. unfold prepare_dest. destruct (find_in_regs x s) as [i|] eqn:F.
    - destruct (find_regs_some _ _ _ F) as [Hi E]. unfold gets. cbn. repeat split; auto; [apply upd_same|intros j Nj; apply upd_other; exact Nj|]. congruence.
    - destruct (room d s x Le SP Ix F) as [i Fi]. rewrite Fi. destruct (find_free_some _ _ Fi) as [Hi E]. unfold gets. cbn.
      repeat split; auto; [apply upd_same|intros j Nj; apply upd_other; exact Nj|]. intros j Hj _. apply (find_regs_none x s F j Hj).
  Qed.
  Lemma gets_differ x y r r' s s' : gets y r' s s' -> a_var s r = Some x -> x <> y -> r <> r'.
  Proof. intros (_ & P & _) E N ->. destruct P; congruence. Qed.
  Lemma room_has d s x : (d + length S <= 8)%nat -> sep d s -> In x S -> has_room x s = true.
  Proof.
    intros Le SP Ix. unfold has_room. destruct (find_in_regs x s) eqn:F; [reflexivity|]. destruct (room d s x Le SP Ix F) as [i ->]. reflexivity.
  Qed.
  Lemma differ_ok d b x y s : (d + length S <= 8)%nat -> sep d s -> In x S -> In y S -> differ V live_out b x y s = true.
  Proof.
    intros Le SP Ix Iy. unfold differ. pose proof (gets_operand d b x None s Le SP Ix) as G. destruct (prepare_operand V live_out b x None s) as [r0 s1].
    pose proof (sep_gets d x r0 s s1 SP Ix G) as SP1. pose proof (gets_operand d b y (Some r0) s1 Le SP1 Iy) as G'. destruct (prepare_operand V live_out b y (Some r0) s1) as [r1 s2].
    destruct (Nat.eqb_spec x y) as [E|N]; [reflexivity|]. cbn. destruct (Nat.eqb_spec r0 r1) as [E|]; [|reflexivity]. exfalso. eapply gets_differ; eauto. apply G.
  Qed.

  Definition plainly (i : rinsn) : Prop := within S (r_insn i) /\ i_op (r_insn i) <> OP_indirect /\
    forall v, i_op (r_insn i) = OP_assign -> i_rd (r_insn i) = Some v -> i_rs1 (r_insn i) <> Some v.
  Lemma careful_room b k i s : plainly i -> sep (a_args s) s -> (a_args s + length S <= 8)%nat -> careful_insn V live_out b k i s = true.
  Proof.
    intros (W & NI & NA) SP Le. unfold careful_insn.
    assert (W1 : forall x, i_rs1 (r_insn i) = Some x -> In x S) by (intros x E; apply W; auto).
    assert (W2 : forall x, i_rs2 (r_insn i) = Some x -> In x S) by (intros x E; apply W; auto).
    assert (W0 : forall x, i_rd (r_insn i) = Some x -> In x S) by (intros x E; apply W; auto).
    assert (SE : forall x, sep (a_args s) (extend_liveness live_out b k x (r_sz i) s)).
    { intros x. unfold extend_liveness. destruct (check_live_out live_out b x); [exact SP|]. destruct (a_cons s x <? k + r_sz i); exact SP. }
    destruct (i_op (r_insn i)) eqn:Eo; destruct (i_rd (r_insn i)) as [d|] eqn:Ed; destruct (i_rs1 (r_insn i)) as [x|] eqn:Ex; destruct (i_rs2 (r_insn i)) as [y|] eqn:Ey;
      cbn [binary]; try reflexivity; try contradiction;
      lazymatch goal with
      | |- differ _ _ _ _ _ _ = true => eapply differ_ok; eauto
      | |- match v_func _ _ with _ => _ end = true => destruct (v_func V y); [reflexivity|]; eapply differ_ok; eauto; eapply sep_shrinks; [apply shrinks_alive|exact SP]
      | |- context [has_room] => eapply room_has; eauto; destruct (a_push _); [apply SE|]; eapply sep_shrinks; [apply shrinks_alive|apply SE]
      | |- _ => idtac
      end.
    all: assert (Nd : x <> d) by (intros ->; eapply NA; eauto); destruct (find_in_regs x s); [reflexivity|];
      pose proof (gets_operand (a_args s) b x None s Le SP (W1 x eq_refl)) as G; destruct (prepare_operand V live_out b x None s) as [r0 s1];
      pose proof (sep_gets _ x r0 s s1 SP (W1 x eq_refl) G) as SP1; pose proof (gets_dest (a_args s) b d (Some r0) None s1 Le SP1 (W0 d eq_refl)) as G';
      destruct (prepare_dest V live_out b d (Some r0) None s1) as [r s2]; cbn [fst]; destruct (Nat.eqb_spec r0 r) as [E|]; [|reflexivity];
      exfalso; eapply (gets_differ x d r0 r); eauto; apply G.
  Qed.

  Definition fine (d : nat) (s : ra) : Prop := a_args s = d /\ sep d s.
  Lemma fine_shrinks d s s' : fine d s -> shrinks s s' -> a_args s' = a_args s -> fine d s'.
  Proof. intros [A B] H E. split; [congruence|]. eapply sep_shrinks; eauto. Qed.
  Lemma shrinks_eq s s' : a_var s' = a_var s -> shrinks s s'.
  Proof. intros E i _. right. congruence. Qed.
  Lemma fine_emit d p s : fine d s -> fine d (emit p s). Proof. exact (fun H => H). Qed.
  Lemma fine_args p n s : sep n s -> fine n (set_args p n s). Proof. intros H. split; [reflexivity|exact H]. Qed.
  Lemma fine_slot d v s : fine d s -> fine d (give_slot v s).
  Proof. unfold give_slot. destruct (a_off s v =? 0); exact (fun H => H). Qed.
  Lemma fine_off d v o z s : fine d s -> fine d (set_off v o z s). Proof. exact (fun H => H). Qed.
  Lemma fine_alive d b k s : fine d s -> fine d (spill_alive V live_out b k s).
  Proof. intros H. eapply fine_shrinks; eauto; [apply shrinks_alive|apply alive_args]. Qed.
  Lemma fine_out d b s : fine d s -> fine d (spill_live_out V live_out killed b s).
  Proof. intros H. eapply fine_shrinks; eauto; [apply shrinks_out|apply out_args]. Qed.
  Lemma fine_refresh d b k s : fine d s -> fine d (refresh live_out b k s).
  Proof. intros H. eapply fine_shrinks; eauto; [apply shrinks_refresh|apply refresh_args]. Qed.
  Lemma fine_extend d b k v z s : fine d s -> fine d (extend_liveness live_out b k v z s).
  Proof. unfold extend_liveness. destruct (check_live_out live_out b v); [auto|]. destruct (a_cons s v <? k + z); exact (fun H => H). Qed.
  Lemma fine_global d v r s : fine d s -> fine d (store_global V v r s).
  Proof.
    intros H. unfold store_global. destruct (v_global V v); [|exact H]. eapply fine_shrinks; eauto. intros i _. cbn. unfold upd. destruct (Nat.eqb_spec i r) as [->|]; auto.
  Qed.
  Lemma fine_none d i p s : fine d s -> fine d (set_reg i None p s).
  Proof. intros H. eapply fine_shrinks; eauto. apply shrinks_none. Qed.
  Lemma fine_clear d s : fine d s -> fine d (fold_left (fun s i => set_reg i None (a_pol s i) s) regs s).
  Proof. apply fold_keep. intros t i _. apply fine_none. Qed.
  Lemma fine_home d x s : fine d s -> fine d (fold_left (fun s i => if holds s x i then emit (ir OP_store (zi i) (a_off s x) 0) s else s) regs s).
  Proof. apply fold_keep. intros t i _ H. destruct (holds t x i); exact H. Qed.
  Definition fo (d : nat) (o : option ra) : Prop := match o with Some s => fine d s | None => True end.
  Lemma fine_operand d b x o s : fine d s -> (d + length S <= 8)%nat -> In x S -> fine d (snd (prepare_operand V live_out b x o s)).
  Proof.
    intros [A B] Le Ix. pose proof (gets_operand d b x o s Le B Ix) as G. destruct (prepare_operand V live_out b x o s) as [r s']. cbn.
    split; [|eapply sep_gets; eauto]. destruct G as (_ & _ & _ & _ & E & _). congruence.
  Qed.
  Lemma fine_dest d b x o0 o1 s : fine d s -> (d + length S <= 8)%nat -> In x S -> fine d (snd (prepare_dest V live_out b x o0 o1 s)).
  Proof.
    intros [A B] Le Ix. pose proof (gets_dest d b x o0 o1 s Le B Ix) as G. destruct (prepare_dest V live_out b x o0 o1 s) as [r s']. cbn.
    split; [|eapply sep_gets; eauto]. destruct G as (_ & _ & _ & _ & E & _). congruence.
  Qed.
  Ltac back := lazymatch goal with
    | |- fine _ (fold_left (fun t i => set_reg i None (a_pol t i) t) regs _) => apply fine_clear; back
    | |- fine _ (fold_left _ regs _) => apply fine_home; back
    | |- fine _ (emit _ _) => apply fine_emit; back
    | |- fine _ (set_reg _ None _ _) => apply fine_none; back
    | |- fine _ (set_off _ _ _ _) => apply fine_off; back
    | |- fine _ (give_slot _ _) => apply fine_slot; back
    | |- fine _ (spill_alive _ _ _ _ _) => apply fine_alive; back
    | |- fine _ (spill_live_out _ _ _ _ _) => apply fine_out; back
    | |- fine _ (extend_liveness _ _ _ _ _ _) => apply fine_extend; back
    | |- fine _ (store_global _ _ _ _) => apply fine_global; back
    | |- fine _ (if ?c then _ else _) => destruct c; back
    | |- fine _ ?t => is_var t; assumption
    | |- _ => idtac
    end.
  Ltac fwd := lazymatch goal with
    | |- fo _ None => exact I
    | |- fo _ (Some _) => change (fo ?s (Some ?t)) with (fine s t); back
    | H : (?d + length S <= 8)%nat |- fo _ (match prepare_operand ?V ?l ?b ?v ?o ?s with _ => _ end) =>
        let G := fresh "G" in let r := fresh "r" in let s1 := fresh "s1" in let F := fresh "F" in
        assert (F : fine d s) by back;
        generalize (fine_operand d b v o s F H ltac:(auto)); destruct (prepare_operand V l b v o s) as [r s1]; cbn [snd]; intros G; fwd
    | H : (?d + length S <= 8)%nat |- fo _ (match prepare_dest ?V ?l ?b ?v ?o0 ?o1 ?s with _ => _ end) =>
        let G := fresh "G" in let r := fresh "r" in let s1 := fresh "s1" in let F := fresh "F" in
        assert (F : fine d s) by back;
        generalize (fine_dest d b v o0 o1 s F H ltac:(auto)); destruct (prepare_dest V l b v o0 o1 s) as [r s1]; cbn [snd]; intros G; fwd
    | |- fo _ (match (match find_in_regs ?x ?s with _ => _ end) with _ => _ end) => destruct (find_in_regs x s); fwd
    | H : (?d + length S <= 8)%nat |- fo _ (match (match prepare_operand ?V ?l ?b ?v ?o ?s with _ => _ end) with _ => _ end) =>
        let G := fresh "G" in let r := fresh "r" in let s1 := fresh "s1" in let F := fresh "F" in
        assert (F : fine d s) by back;
        generalize (fine_operand d b v o s F H ltac:(auto)); destruct (prepare_operand V l b v o s) as [r s1]; cbn [snd]; intros G; fwd
    | |- fo _ (if ?c then _ else _) => destruct c; fwd
    | |- fo _ (match ?c with _ => _ end) => destruct c; fwd
    end.
  Definition args_after (i : rinsn) (d : nat) : nat := match i_op (r_insn i) with OP_push => Datatypes.S d | OP_call => 0%nat | _ => d end.
  Lemma fine_push d b x s : fine d s -> (d + length S <= 8)%nat -> In x S ->
    fo (Datatypes.S d) (let '(r0, s) := prepare_operand V live_out b x None s in
        let d := a_args s in
        let s := set_args (a_push s) (Datatypes.S d) (emit (ir OP_assign (zi r0) 0 (zi d)) s) in
        if (d <? REG_CNT)%nat then Some (set_reg d (Some x) false s) else None).
  Proof.
    intros F Le Ix. pose proof (fine_operand d b x None s F Le Ix) as G. destruct (prepare_operand V live_out b x None s) as [r0 s1]. cbn [snd] in G. cbv zeta.
    destruct G as [G1 [G2 G3]]. rewrite G1. destruct (d <? REG_CNT)%nat; [|exact I]. split; [reflexivity|]. split; cbn.
    - intros i j v Hi Hj. rewrite !upd_other by lia. intros E1 E2. apply (G2 i j v); auto; lia.
    - intros i v Hi. unfold upd. destruct (Nat.eqb_spec i d) as [->|]; [congruence|]. eauto.
  Qed.
  Lemma cleared s : let s' := fold_left (fun s i => set_reg i None (a_pol s i) s) regs s in
    (forall i, (i < 8)%nat -> a_var s' i = None) /\ a_args s' = a_args s.
  Proof. cbn. repeat split. intros i Hi. unfold upd. do 8 (destruct i as [|i]; [reflexivity|]). lia. Qed.
  Lemma fine_core d b k i s : plainly i -> fine d s -> (d + length S <= 8)%nat -> fo (args_after i d) (alloc_core V live_out killed arity then_ else_ b k i s).
  Proof.
    intros (W & NI & NA) F Le. unfold alloc_core, args_after. cbv zeta.
    assert (W1 : forall x, i_rs1 (r_insn i) = Some x -> In x S) by (intros x E; apply W; auto).
    assert (W2 : forall x, i_rs2 (r_insn i) = Some x -> In x S) by (intros x E; apply W; auto).
    assert (W0 : forall x, i_rd (r_insn i) = Some x -> In x S) by (intros x E; apply W; auto).
    destruct (opcode_eq_dec (i_op (r_insn i)) OP_push) as [Ep|Np].
    { rewrite Ep. destruct (i_rs1 (r_insn i)) as [x|]; [|destruct (i_rd (r_insn i)); exact I].
      assert (Q := fine_push d b x (if a_push (extend_liveness live_out b k x (r_sz i) s) then extend_liveness live_out b k x (r_sz i) s
        else set_args true (a_args (extend_liveness live_out b k x (r_sz i) s)) (spill_alive V live_out b k (extend_liveness live_out b k x (r_sz i) s)))).
      assert (FE : fine d (extend_liveness live_out b k x (r_sz i) s)) by (apply fine_extend; exact F).
      destruct (i_rd (r_insn i)); (apply Q; [|exact Le|auto]; destruct (a_push _); [exact FE|]; destruct FE as [E1 E2]; rewrite E1; apply fine_args; eapply sep_shrinks; [apply shrinks_alive|exact E2]). }
    destruct (opcode_eq_dec (i_op (r_insn i)) OP_call) as [Ec|Nc].
    { rewrite Ec. destruct (i_rd (r_insn i)), (i_rs1 (r_insn i)), (i_rs2 (r_insn i)); cbn [fo];
        match goal with |- fine _ (fold_left _ regs ?t) => generalize (cleared t); assert (A0 : a_args t = 0%nat) by reflexivity; revert A0; generalize t end;
        intros t A0 [C1 C2]; (split; [congruence|]); (split; [intros i0 j v Hi Hj Q|intros i0 v Hi Q]; rewrite C1 in Q by lia; discriminate). }
    destruct (i_op (r_insn i)); try exact I; try contradiction; destruct (i_rd (r_insn i)) as [dd|]; try exact I; destruct (i_rs1 (r_insn i)) as [x|]; try exact I;
      try (destruct (i_rs2 (r_insn i)) as [y|]; try exact I); fwd.
  Qed.
End Room.

Section Blocks.
  Variable V : vars.
  Variable g : cfg.
  Variable code : nat -> list rinsn.
  Variables entry exit : nat.
  Variable params : list nat.
  Variable order : list nat.
  Variable rpo : nat -> Z.
  Variable live_out : nat -> list nat.
  Variable killed : nat -> nat -> bool.
  Variable cons : nat -> Z.
  Variable arity : Z -> Z.
  Hypothesis OK : allocatable V g code entry exit params order rpo live_out killed cons arity.
  (** the variables of each block *)
  Variable vs : nat -> list nat.
  Hypothesis IN : forall b i v, In b order -> In i (plain_code code b) -> i_rd i = Some v \/ i_rs1 i = Some v \/ i_rs2 i = Some v -> In v (vs b).
  Hypothesis INP : incl params (vs entry).
  Hypothesis FEW : forall b, In b order -> (length (vs b) + most_args 0 (code b) <= 8)%nat.
  Hypothesis NOI : forall b i, In b order -> In i (plain_code code b) -> i_op i <> OP_indirect.
  Notation ainsns := (alloc_insns V live_out killed arity (g_then g) (g_else g)).
  Notation cinsns := (careful_insns V live_out killed arity (g_then g) (g_else g)).

  Lemma carefuls_room b l : In b order -> (forall i, In i l -> In (r_insn i) (plain_code code b)) -> forall k d s, fine (vs b) d s ->
    (length (vs b) + most_args d l <= 8)%nat -> cinsns b k l s = true /\ forall s', ainsns b k l s = Some s' -> exists d', fine (vs b) d' s'.
  Proof.
    intros Hb. induction l as [|i l IH]; intros Il k d s F Le; [split; [reflexivity|]; cbn; intros s' Q; injection Q as <-; eauto|].
    assert (PL : plainly (vs b) i).
    { assert (I : In (r_insn i) (plain_code code b)) by (apply Il; left; reflexivity). split; [intros v; apply (IN b _ v Hb I)|]. split; [eauto|].
      intros v Eo. eapply (v_self _ _ _ _ _ _ _ _ _ _ _ _ OK); eauto. }
    pose proof (most_args_ge (i :: l) d) as Ge.
    assert (FR : fine (vs b) d (refresh live_out b k s)) by (apply (fine_refresh live_out killed (g_then g) (g_else g)); exact F).
    pose proof (fine_core V live_out killed arity (g_then g) (g_else g) (vs b) d b k i _ PL FR ltac:(lia)) as Q.
    assert (C1 : careful_insn V live_out b k i (refresh live_out b k s) = true).
    { apply (careful_room V live_out killed arity (g_then g) (g_else g) (vs b)); auto; [destruct FR as [-> FR]; exact FR|destruct FR as [-> _]; lia]. }
    cbn [careful_insns alloc_insns]. rewrite C1. unfold alloc_insn. destruct (alloc_core V live_out killed arity (g_then g) (g_else g) b k i (refresh live_out b k s)) as [s1|]; [|split; [reflexivity|discriminate]].
    cbn [fo] in Q. cbn [andb]. apply (IH (fun j J => Il j (or_intror J)) (k + 1) (args_after i d) s1 Q).
    clear - Le. cbn [most_args] in Le. unfold args_after. destruct (i_op (r_insn i)); lia.
  Qed.
  Lemma out_clears b s i : (i < 8)%nat -> a_var (spill_live_out V live_out killed b s) i = None.
  Proof.
    intros Hi. apply (fold_each _ (fun _ => True) (fun i s => a_var s i = None) regs); auto; [| |apply regs_In; exact Hi].
    - intros t j _ _. unfold spill_out_reg. destruct (a_var t j) as [v|] eqn:E; [|exact E]. destruct (negb (check_live_out live_out b v)); [cbn; apply upd_same|].
      destruct (negb (killed v b)); [cbn; apply upd_same|]. rewrite spill_regs, Nat.eqb_refl. reflexivity.
    - intros t j j' _ _ _ E. unfold spill_out_reg. destruct (a_var t j') as [v|]; [|exact E]. destruct (negb (check_live_out live_out b v)); [cbn; unfold upd; destruct (Nat.eqb j j'); auto|].
      destruct (negb (killed v b)); [cbn; unfold upd; destruct (Nat.eqb j j'); auto|]. rewrite spill_regs. destruct (Nat.eqb j j'); auto.
  Qed.
  Definition emptied (s : ra) : Prop := forall i, (i < 8)%nat -> a_var s i = None.
  Lemma ainsns_app b l i : forall k s s', ainsns b k (l ++ [i]) s = Some s' -> exists k1 s1, alloc_insn V live_out killed arity (g_then g) (g_else g) b k1 i s1 = Some s'.
  Proof.
    induction l as [|j l IH]; intros k s s' H; cbn [app alloc_insns] in H.
    - destruct (alloc_insn V live_out killed arity (g_then g) (g_else g) b k i s) eqn:E; [|discriminate]. rewrite H in E. eauto.
    - destruct (alloc_insn V live_out killed arity (g_then g) (g_else g) b k j s); [|discriminate]. eauto.
  Qed.
  Lemma block_clears dn b pre s s' : In b order -> (b = exit -> emptied s) ->
    alloc_block V live_out killed arity (g_next g) (g_then g) (g_else g) rpo exit code dn b pre s = Some s' -> emptied s'.
  Proof.
    intros Hb X H. unfold alloc_block in H. destruct (ainsns b 0 (code b) _) as [s1|] eqn:E; [|discriminate].
    assert (Q : finish_block V live_out killed (g_next g) rpo exit (b :: dn) b s1 = s') by congruence. clear H.
    destruct (Nat.eq_dec b exit) as [->|Nx].
    - destruct (o_exit _ _ _ _ _ _ _ _ _ _ _ _ OK) as (E1 & E2 & _). rewrite E1 in E. cbn in E. unfold finish_block in Q. unfold succs in E2.
      destruct (g_next g exit); [discriminate|]. rewrite <- Q. intros i Hi. assert (E3 : a_var s1 = a_var s) by (injection E as <-; reflexivity). rewrite E3. apply (X eq_refl). exact Hi.
    - destruct (o_shape _ _ _ _ _ _ _ _ _ _ _ _ OK b Hb Nx) as [c N1 _ _ _|t f l i N1 N2 N3 PC Bo _].
      + unfold finish_block in Q. rewrite N1 in Q. cbv zeta in Q. rewrite <- Q. intros i Hi.
        destruct (Nat.eqb b exit); [apply out_clears; exact Hi|]. destruct (Nat.eqb c exit); [apply out_clears; exact Hi|].
        destruct (mem c (b :: dn) || negb (rpo c =? rpo b + 1)); apply out_clears; exact Hi.
      + unfold finish_block in Q. rewrite N1 in Q. rewrite <- Q. unfold plain_code in PC.
        destruct (exists_last (l := code b)) as (l' & i' & Ec); [intros E0; rewrite E0 in PC; destruct l; discriminate|].
        rewrite Ec, map_app in PC. apply app_inj_tail in PC. destruct PC as [_ PC]. rewrite Ec in E. apply ainsns_app in E. destruct E as (k1 & s2 & E).
        unfold alloc_insn, alloc_core in E. rewrite PC, Bo in E. clear - E N2 N3.
        destruct (i_rd i) as [dd|]; destruct (i_rs1 i) as [x|]; try discriminate;
          destruct (prepare_operand V live_out b x None _) as [r0 s3]; rewrite N2, N3 in E; apply (f_equal (fun o => match o with Some t => a_var t | None => fun _ => None end)) in E;
          cbn [emit a_var] in E; intros j Hj; rewrite <- E; apply out_clears; exact Hj.
  Qed.
  Lemma careful_rest l : forall dn pre s, (forall b, In b l -> In b order) -> ~ In entry l -> emptied s ->
    careful_blocks V live_out killed arity (g_next g) (g_then g) (g_else g) rpo exit code dn l pre s = true.
  Proof.
    induction l as [|b l IH]; intros dn pre s Il NE EM; [reflexivity|]. cbn [careful_blocks].
    assert (Hb : In b order) by (apply Il; left; reflexivity).
    assert (F : fine (vs b) 0 (mkra (a_var s) (a_pol s) (a_off s) (a_size s) (a_cons s) pre false 0)).
    { split; [reflexivity|]. split; cbn; [intros i j v Hi _ E|intros i v Hi E]; rewrite EM in E by lia; discriminate. }
    destruct (carefuls_room b (code b) Hb ltac:(intros i I; unfold plain_code; apply in_map; exact I) 0 0%nat _ F (FEW b Hb)) as [-> _]. cbn [andb].
    destruct (alloc_block V live_out killed arity (g_next g) (g_then g) (g_else g) rpo exit code dn b pre s) as [s1|] eqn:E; [|reflexivity].
    apply IH; [intros c C; apply Il; right; exact C|intros C; apply NE; right; exact C|]. eapply block_clears; eauto.
  Qed.
  Theorem few_variables s : careful V live_out killed arity (g_next g) (g_then g) (g_else g) rpo exit code params false order s = true.
  Proof.
    unfold careful. cbn [store_params]. destruct (o_start _ _ _ _ _ _ _ _ _ _ _ _ OK) as [l El]. pose proof (o_nodup _ _ _ _ _ _ _ _ _ _ _ _ OK) as ND. rewrite El in ND. apply NoDup_cons_iff in ND. destruct ND as [NE _].
    assert (Hb : In entry order) by (rewrite El; left; reflexivity). rewrite El. cbn [careful_blocks].
    remember (start_regs params (mkra (a_var s) (a_pol s) (a_off s) (a_size s) (a_cons s) [] false 0)) as s0 eqn:E0.
    assert (SV : forall i v, (i < 8)%nat -> a_var s0 i = Some v -> nth_error params i = Some v).
    { intros i v Hi. rewrite E0. unfold start_regs. destruct (v_params _ _ _ _ _ _ _ _ _ _ _ _ OK) as (_ & LP & _).
      match goal with |- context [fold_left _ regs ?t] => pose proof (proj1 (cleared live_out killed (g_then g) (g_else g) t)) as Z1; revert Z1; generalize (fold_left (fun s i => set_reg i None (a_pol s i) s) regs t) end.
      clear - Hi LP. assert (Q : forall l n s2, (forall j, (n <= j < 8)%nat -> a_var s2 j = None) ->
        let s3 := fold_left (fun s p => set_reg (fst p) (Some (snd p)) true s) (combine (seq n (length l)) l) s2 in
        ((i < n)%nat -> a_var s3 i = a_var s2 i) /\ ((n <= i < 8)%nat -> a_var s3 i = nth_error l (i - n))).
      { induction l as [|x l IH]; intros n s2 Z2; cbn.
        - split; [auto|]. intros Ln. rewrite Z2 by lia. destruct (i - n)%nat; reflexivity.
        - destruct (IH (Datatypes.S n) (set_reg n (Some x) true s2)) as [I1 I2]; [intros j Hj; cbn; rewrite upd_other by lia; apply Z2; lia|]. split.
          + intros L. rewrite I1 by lia. cbn. apply upd_other. lia.
          + intros L. destruct (Nat.eq_dec i n) as [->|N]; [rewrite Nat.sub_diag, I1 by lia; cbn; apply upd_same|].
            replace (i - n)%nat with (Datatypes.S (i - Datatypes.S n)) by lia. apply I2. lia. }
      intros t Z1 E. destruct (Q params 0%nat t) as [_ Q2]; [intros; apply Z1; lia|]. rewrite Q2 in E by lia. rewrite Nat.sub_0_r in E. exact E. }
    assert (F : fine (vs entry) 0 (mkra (a_var s0) (a_pol s0) (a_off s0) (a_size s0) (a_cons s0) (a_code s0) false 0)).
    { destruct (v_params _ _ _ _ _ _ _ _ _ _ _ _ OK) as (NP & _ & _). split; [reflexivity|]. split; cbn.
      - intros i j v Hi Hj E1 E2. apply SV in E1; [|lia]. apply SV in E2; [|lia]. eapply (proj1 (NoDup_nth_error params) NP); [apply nth_error_Some|]; congruence.
      - intros i v Hi E1. apply SV in E1; [|lia]. apply INP. eapply nth_error_In; eauto. }
    clear E0.
    destruct (carefuls_room entry (code entry) Hb ltac:(intros i I; unfold plain_code; apply in_map; exact I) 0 0%nat _ F (FEW entry Hb)) as [-> _]. cbn [andb].
    destruct (alloc_block V live_out killed arity (g_next g) (g_then g) (g_else g) rpo exit code [] entry (a_code s0) s0) as [s1|] eqn:E; [|reflexivity].
    apply careful_rest; [intros c C; rewrite El; right; exact C|exact NE|]. eapply block_clears; [exact Hb| |exact E].
    intros Ex. exfalso. destruct (o_exit _ _ _ _ _ _ _ _ _ _ _ _ OK) as (_ & _ & NX). congruence.
  Qed.
End Blocks.
