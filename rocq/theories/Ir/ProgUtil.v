(** Small facts shared by the two whole-program proofs. *)
From Verif.Base Require Import Int32 Mem MemProofs Bits.
From Verif.Ir Require Import Ph2 Ph2Sem Layout.

(** the code image [ws] is intact at [a] *)
Fixpoint words_atb (m : mem) (a : Z) (ws : list Z) : bool :=
  match ws with
  | [] => true
  | w :: r => (ldw m a =? w32 w) && words_atb m (a + 4) r
  end.
Lemma words_atb_ok m ws : forall a, words_atb m a ws = true <-> words_at m a ws.
Proof.
  induction ws as [|w r IH]; intros a; cbn; [tauto|].
  rewrite andb_true_iff, Z.eqb_eq, IH. tauto.
Qed.

Lemma find_idx_spec {A} (P : A -> bool) l : forall n, find_idx P l = Some n ->
  exists x, nth_error l n = Some x /\ P x = true /\ find P l = Some x.
Proof.
  induction l as [|y r IH]; intros n H; cbn in *; [discriminate|].
  destruct (P y) eqn:E.
  - inversion H; subst. exists y. auto.
  - destruct (find_idx P r) as [k|]; [|discriminate]. cbn in H. inversion H; subst.
    destruct (IH k eq_refl) as (x & ? & ? & ?). exists x. auto.
Qed.

Lemma find_block_spec p id f b : find_block p id = Some (f, b) ->
  exists fn bl, nth_error (p_funcs p) f = Some fn /\ nth_error (f_blocks fn) b = Some bl /\
    b_id bl = id.
Proof.
  unfold find_block. intros H.
  destruct (find_idx _ (p_funcs p)) as [fi|] eqn:E1; [|discriminate].
  destruct (nth_error (p_funcs p) fi) as [fn|] eqn:E2; [|discriminate].
  destruct (find_idx _ (f_blocks fn)) as [bi|] eqn:E3; [|discriminate].
  cbn in H. inversion H; subst. destruct (find_idx_spec _ _ _ E3) as (bl & ? & Hb & _).
  exists fn, bl. repeat split; auto. apply Z.eqb_eq. exact Hb.
Qed.
