(** The groups of primitives in the reader of && || ?: written out. *)
From Verif.Front Require Export ExprPieces.
Open Scope Z_scope.

Definition br (x : nat) : rinsn := mkr (mkinsn OP_branch None (Some x) None) 0 0.
Definition ldc (d : nat) : rinsn := mkr (mkinsn OP_load_constant (Some d) None None) 0 0.
Definition asg (d x : nat) : rinsn := mkr (mkinsn OP_assign (Some d) (Some x) None) 0 0.
Definition rdm (d x : nat) (sz : Z) : rinsn := mkr (mkinsn OP_read (Some d) (Some x) None) sz 0.

Section Groups.
  Variable lim : nat.
  Lemma require_var_eq v k c n t e pr i s x st' : require_var lim (mkp v k c n t e pr i s) = Some (x, st') -> x = v /\ st' = mkp (S v) k c n t e pr i s.
  Proof. unfold require_var. destruct (_ <? _)%nat; [|discriminate]. intros E. injection E as <- <-. split; reflexivity. Qed.
  Lemma label_eq v k c n t e pr i s st' : label lim (mkp v k c n t e pr i s) = Some st' -> st' = mkp (S v) k c n t e pr i s.
  Proof.
    unfold label. destruct (require_var lim _) as [[x q]|] eqn:E; [|discriminate]. intros Q. injection Q as <-. apply (require_var_eq _ _ _ _ _ _ _ _ _ _ _ E).
  Qed.
  Lemma bb_connect_eq p d ty v k c n t e pr i s st' : bb_connect p d ty (mkp v k c n t e pr i s) = Some st' -> exists pr',
    st' = mkp v k c (match ty with NEXT => upd n p (Some d) | _ => n end) (match ty with THEN => upd t p (Some d) | _ => t end)
              (match ty with ELSE => upd e p (Some d) | _ => e end) pr' i s.
  Proof. unfold bb_connect. destruct (_ <? _)%nat; [|discriminate]. intros E. injection E as <-. eexists. reflexivity. Qed.
  Lemma opstack_push_eq x v k c n t e pr i s st' : opstack_push x (mkp v k c n t e pr i s) = Some st' -> st' = mkp v k c n t e pr i (x :: s).
  Proof. unfold opstack_push. destruct (_ <? _)%nat; [|discriminate]. intros E. injection E as <-. reflexivity. Qed.
  Lemma opstack_pop_eq x v k c n t e pr i s st' : opstack_pop (mkp v k c n t e pr i s) = Some (x, st') -> exists l, s = x :: l /\ st' = mkp v k c n t e pr i l.
  Proof. unfold opstack_pop. cbn. destruct s as [|y l]; [discriminate|]. intros E. injection E as <- <-. eauto. Qed.
End Groups.
Ltac step H :=
  match type of H with
  | match ?x with Some _ => _ | None => None end = Some _ =>
      let E := fresh "E" in destruct x eqn:E; [|discriminate H];
      repeat match goal with p : (_ * _)%type |- _ => destruct p end;
      first [apply label_eq in E; subst
            |apply opstack_push_eq in E; subst
            |apply require_var_eq in E; destruct E as [? E]; subst
            |apply bb_connect_eq in E; let pr := fresh "pr" in destruct E as [pr E]; subst
            |apply opstack_pop_eq in E; let l := fresh "l" in let S := fresh "S" in destruct E as (l & S & E); subst]
  end; unfold add_insn, set_init in H; cbn [p_var p_blk p_code p_next p_then p_else p_pred p_init p_stack] in H.

Section Groups2.
  Variable lim : nat.
  Lemma read_logical_eq o v k c n t e pr i s b st' d : read_logical lim o (mkp v k c n t e pr i s) b = Some (st', d) -> exists x l pr, s = x :: l /\ d = k /\
    st' = mkp (3 + v) (S k) (upd c b (c b ++ [br x])) n (if is_and o then upd t b (Some k) else t) (if is_and o then e else upd e b (Some k)) pr i l.
  Proof.
    unfold read_logical, bb_create. intros H. repeat step H. injection H as <- <-.
    exists n0, l, pr0. split; [reflexivity|]. split; [reflexivity|]. destruct (is_and o); reflexivity.
  Qed.
  Lemma finalize_logical_eq o v k c n t e pr i s b sh st' d : b <> sh -> b <> S k -> sh <> S k -> c (S k) = [] ->
    finalize_logical lim o (mkp v k c n t e pr i s) b sh = Some (st', d) -> exists x l pr c', s = x :: l /\ d = k /\
    st' = mkp (9 + v) (2 + k) c'
              (upd (upd n (if is_and o then S k else sh) (Some k)) (if is_and o then sh else S k) (Some k))
              (upd t b (Some (if is_and o then S k else sh)))
              (upd e b (Some (if is_and o then sh else S k))) pr
              (upd (upd i (3 + v) (if is_and o then 1 else 0)) (7 + v) (if is_and o then 0 else 1)) (4 + v :: l)%nat /\
    c' b = c b ++ [br x] /\ c' (S k) = [ldc (3 + v); asg (4 + v) (3 + v)] /\ c' sh = c sh ++ [ldc (7 + v); asg (4 + v) (7 + v)] /\
    forall q, q <> b -> q <> S k -> q <> sh -> c' q = c q.
  Proof.
    intros N1 N2 N3 N4. unfold finalize_logical, bb_create. cbn [p_var p_blk p_code p_next p_then p_else p_pred p_init p_stack]. intros H. repeat step H. injection H as <- <-.
    exists n0, l. do 2 eexists. split; [reflexivity|]. split; [reflexivity|]. split; [reflexivity|].
    unfold upd. rewrite !Nat.eqb_refl. repeat split.
    - rewrite (proj2 (Nat.eqb_neq b sh) N1), (proj2 (Nat.eqb_neq b (S k)) N2). reflexivity.
    - rewrite (proj2 (Nat.eqb_neq (S k) sh)), (proj2 (Nat.eqb_neq (S k) b)), N4 by congruence. reflexivity.
    - rewrite (proj2 (Nat.eqb_neq sh (S k)) N3), (proj2 (Nat.eqb_neq sh b)) by congruence. rewrite <- app_assoc. reflexivity.
    - intros q Q1 Q2 Q3. rewrite (proj2 (Nat.eqb_neq q b) Q1), (proj2 (Nat.eqb_neq q (S k)) Q2), (proj2 (Nat.eqb_neq q sh) Q3). reflexivity.
  Qed.
End Groups2.
