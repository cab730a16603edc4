(** The meaning of code with variables (AllocSpec.v: sruns) leaves no choice: a function has at most one result. *)
From Verif.Mid Require Import AllocSpec.

Section Det.
  Context {val world : Type}.
  Variable M : meaning val world.
  Variable V : vars.
  Variable goff : nat -> Z.
  Variable place : nat -> val.
  Notation step := (sstep M V goff place).
  Notation blk := (sblock M V goff place).
  Lemma some_args (args : list val) (r : val) : exists A, passes args A.
  Proof. exists (fun j => nth j args r). intros j a H. apply nth_error_nth. exact H. Qed.
  Ltac same := repeat match goal with
    | H : Some _ = Some _ |- _ => injection H as H; subst
    | H : ?x = Some ?a, G : ?x = Some ?b |- _ => assert (a = b) by congruence; subst; clear G
    | H : ?x = true, G : ?x = false |- _ => congruence
    | H : ?x = None, G : ?x = Some _ |- _ => congruence
    end.
  Lemma step_det i s s1 s2 : step i s s1 -> step i s s2 -> s1 = s2.
  Proof.
    intros H G. destruct H; inversion G; subst; same; try congruence;
      try (match goal with B : binary _ = true |- _ => discriminate B end); try (match goal with B : unary _ = true |- _ => discriminate B end);
      try (match goal with B : binary ?o = true, U : unary ?o = true |- _ => destruct o; discriminate end).
    - match goal with H1 : forall A, passes _ A -> _, H2 : forall A, passes _ A -> _ |- _ => destruct (some_args (s_args s) r) as [A P]; destruct (H1 A P) as (A1 & E1 & <-); destruct (H2 A P) as (A2 & E2 & <-) end. congruence.
    - match goal with H1 : forall A, passes _ A -> _, H2 : forall A, passes _ A -> _ |- _ => destruct (some_args (s_args s) r) as [A P]; destruct (H1 A P) as (A1 & E1 & <-); destruct (H2 A P) as (A2 & E2 & <-) end. congruence.
  Qed.
  Lemma step_end i s s1 : step i s s1 -> i_op (r_insn i) <> OP_branch /\ i_op (r_insn i) <> OP_return.
  Proof.
    destruct 1; cbn; try (split; discriminate); match goal with B : binary ?o = true |- _ => destruct o; try discriminate B; split; discriminate | B : unary ?o = true |- _ => destruct o; try discriminate B; split; discriminate end.
  Qed.
  Lemma block_det l s e1 : blk l s e1 -> forall e2, blk l s e2 -> e1 = e2.
  Proof.
    induction 1 as [s|i l s s1 e St B IH|d x y sz str l s a G A|d x y sz str l s a G A|d y sz str l s A]; intros e2 H; inversion H; subst; try reflexivity; try congruence;
      try (match goal with X : step _ s _ |- _ => apply step_end in X; cbn in X; destruct X; congruence end).
    apply IH. match goal with X : step i s ?s2 |- _ => rewrite (step_det _ _ _ _ St X) end. assumption.
  Qed.
  Variable code : nat -> list rinsn.
  Variables next then_ else_ : nat -> option nat.
  Variable exit : nat.
  Variable void : bool.
  Theorem runs_det b s w r : sruns M V goff place code next then_ else_ exit void b s w r ->
    forall w' r', sruns M V goff place code next then_ else_ exit void b s w' r' -> w' = w /\ r' = r.
  Proof.
    induction 1 as [b s w r B|b s s1 B N Hv|b s s1 c w r B N Nc R IH|b s s1 x t e w r B T E R IH]; intros w' r' H; inversion H; subst;
      match goal with B2 : blk (code b) s _ |- _ => pose proof (block_det _ _ _ B _ B2) as Q end; try discriminate Q.
    - injection Q as <- <-. auto.
    - injection Q as <-. auto.
    - congruence.
    - congruence.
    - injection Q as <-. apply IH. assert (c0 = c) by congruence. subst. assumption.
    - injection Q as <- <-. apply IH. assert (t0 = t) by congruence. assert (e0 = e) by congruence. subst. assumption.
  Qed.
End Det.
