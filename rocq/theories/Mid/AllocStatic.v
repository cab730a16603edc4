(** What holds of the allocator's own state while it goes through a block. *)
From Verif.Mid Require Import AllocSpec.
From Coq Require Import Lia.

Lemma fold_keep {A} (f : ra -> A -> ra) (P : ra -> Prop) l : (forall s i, In i l -> P s -> P (f s i)) -> forall s, P s -> P (fold_left f l s).
Proof.
  induction l as [|i l IH]; cbn; intros H s Hs; [exact Hs|]. apply IH; [intros s' j I; apply H; auto|]. apply H; auto.
Qed.
Lemma fold_each {A} (f : ra -> A -> ra) (P : ra -> Prop) (Q : A -> ra -> Prop) l :
  (forall s i, In i l -> P s -> P (f s i)) -> (forall s i, In i l -> P s -> Q i (f s i)) ->
  (forall s i j, In i l -> In j l -> P s -> Q i s -> Q i (f s j)) ->
  forall s, P s -> forall i, In i l -> Q i (fold_left f l s).
Proof.
  induction l as [|a l IH]; cbn; intros HP HQ HK s Hs i I; [destruct I|].
  destruct I as [<-|I].
  - assert (G : forall l' s', incl l' (a :: l) -> P s' -> Q a s' -> Q a (fold_left f l' s')).
    { induction l' as [|j l' IH']; cbn; intros s' I1 Hs' Hq; [exact Hq|].
      assert (J : In j (a :: l)) by (apply I1; left; reflexivity). apply IH'.
      - intros x Hx. apply I1. right. exact Hx.
      - apply HP; assumption.
      - apply HK; auto. }
    apply G; [intros x Hx; right; exact Hx|apply HP; auto|apply HQ; auto].
  - apply IH; auto.
Qed.
Lemma regs_In i : In i regs <-> (i < 8)%nat.
Proof. unfold regs. rewrite in_seq. unfold REG_CNT. lia. Qed.
Lemma upd_same {A} (f : nat -> A) i x : upd f i x i = x.
Proof. unfold upd. rewrite Nat.eqb_refl. reflexivity. Qed.
Lemma upd_other {A} (f : nat -> A) i j x : j <> i -> upd f i x j = f j.
Proof. intros H. unfold upd. destruct (Nat.eqb_spec j i); [contradiction|reflexivity]. Qed.
Lemma upd_cases {A} (f : nat -> A) i j x y : upd f i x j = y -> (j = i /\ x = y) \/ (j <> i /\ f j = y).
Proof. unfold upd. destruct (Nat.eqb_spec j i); auto. Qed.

(** ** the searches through the registers *)
Lemma holds_true s v i : holds s v i = true <-> a_var s i = Some v.
Proof.
  unfold holds. destruct (a_var s i) as [u|]; [|split; congruence]. rewrite Nat.eqb_eq. split; congruence.
Qed.
Lemma find_regs_some v s i : find_in_regs v s = Some i -> (i < 8)%nat /\ a_var s i = Some v.
Proof.
  unfold find_in_regs. intros H. apply find_some in H. destruct H as [I E]. split; [apply regs_In; exact I|apply holds_true; exact E].
Qed.
Lemma find_regs_none v s : find_in_regs v s = None -> forall i, (i < 8)%nat -> a_var s i <> Some v.
Proof.
  unfold find_in_regs. intros H i I E. apply regs_In in I. pose proof (find_none _ _ H i I) as C. apply holds_true in E. congruence.
Qed.
Lemma find_free_some s i : find_free s = Some i -> (i < 8)%nat /\ a_var s i = None.
Proof.
  unfold find_free. intros H. apply find_some in H. destruct H as [I E]. split; [apply regs_In; exact I|].
  unfold is_free in E. destruct (a_var s i); congruence.
Qed.
Lemma find_free_none s : find_free s = None -> forall i, (i < 8)%nat -> exists v, a_var s i = Some v.
Proof.
  unfold find_free. intros H i I. apply regs_In in I. pose proof (find_none _ _ H i I) as C. unfold is_free in C.
  destruct (a_var s i) as [v|]; [eauto|discriminate].
Qed.
Lemma find_live_some lo b o0 o1 s i : find_live lo b o0 o1 s = Some i ->
  (i < 8)%nat /\ is_op o0 i = false /\ is_op o1 i = false /\ exists v, a_var s i = Some v /\ In v (lo b).
Proof.
  unfold find_live. intros H. apply find_some in H. destruct H as [I E]. apply andb_prop in E. destruct E as [E1 E2].
  apply andb_prop in E1. destruct E1 as [E0 E1]. split; [apply regs_In; exact I|].
  destruct (is_op o0 i), (is_op o1 i); try discriminate. split; [reflexivity|]. split; [reflexivity|].
  destruct (a_var s i) as [v|]; [|discriminate]. exists v. split; [reflexivity|]. apply mem_In. exact E2.
Qed.
Lemma farthest_lt o0 o1 s : (farthest o0 o1 s < 8)%nat.
Proof.
  unfold farthest.
  assert (G : forall l n, (n < 8)%nat -> (forall i, In i l -> (i < 8)%nat) ->
    (fold_left (fun sp i => if is_op o0 i || is_op o1 i || is_free s i then sp
       else if (last_use s sp <? last_use s i)%Z then i else sp) l n < 8)%nat).
  { induction l as [|i l IH]; cbn; intros n Hn Hl; [exact Hn|].
    assert (Hi : (i < 8)%nat) by (apply Hl; left; reflexivity). assert (Hl' : forall j, In j l -> (j < 8)%nat) by (intros j J; apply Hl; right; exact J).
    destruct (is_op o0 i || is_op o1 i || is_free s i); [apply IH; assumption|].
    destruct (last_use s n <? last_use s i); apply IH; assumption. }
  apply G; [lia|]. intros i I. apply regs_In. exact I.
Qed.

Section Cases.
  Variable V : vars.
  Variable live_out : nat -> list nat.
  (** s1 is s, with register i given up if it was not free *)
  Definition freed (i : nat) (s s1 : ra) : Prop :=
    (s1 = s /\ a_var s i = None) \/ exists u, a_var s i = Some u /\ s1 = spill_var V u i s.
  Lemma spill_reg_freed i s : freed i s (spill_reg V i s).
  Proof. unfold freed, spill_reg. destruct (a_var s i) as [u|]; [right; eauto|left; auto]. Qed.
  Lemma freed_none i s s1 : freed i s s1 -> a_var s1 i = None.
  Proof.
    intros [[-> H]|(u & H & ->)]; [exact H|]. unfold spill_var. destruct (negb (a_pol s i)); cbn; apply upd_same.
  Qed.
  Lemma spill_regs u i s j : a_var (spill_var V u i s) j = if Nat.eqb j i then None else a_var s j.
  Proof.
    unfold spill_var. destruct (negb (a_pol s i)); cbn; [reflexivity|]. unfold give_slot. destruct (a_off s u =? 0); reflexivity.
  Qed.
  Lemma spill_pols u i s j : a_pol (spill_var V u i s) j = if Nat.eqb j i then false else a_pol s j.
  Proof.
    unfold spill_var. destruct (negb (a_pol s i)); cbn; [reflexivity|]. unfold give_slot. destruct (a_off s u =? 0); reflexivity.
  Qed.
  Lemma spill_cons u i s : a_cons (spill_var V u i s) = a_cons s.
  Proof.
    unfold spill_var. destruct (negb (a_pol s i)); cbn; [reflexivity|]. unfold give_slot. destruct (a_off s u =? 0); reflexivity.
  Qed.
  Lemma spill_push u i s : a_push (spill_var V u i s) = a_push s /\ a_args (spill_var V u i s) = a_args s.
  Proof.
    unfold spill_var. destruct (negb (a_pol s i)); cbn; [auto|]. unfold give_slot. destruct (a_off s u =? 0); auto.
  Qed.
  Lemma freed_regs i s s1 j : freed i s s1 -> a_var s1 j = if Nat.eqb j i then None else a_var s j.
  Proof.
    intros [[-> H]|(u & H & ->)]; [|apply spill_regs]. destruct (Nat.eqb_spec j i); [subst; exact H|reflexivity].
  Qed.

  Lemma operand_cases b v o0 s i s' : prepare_operand V live_out b v o0 s = (i, s') -> (i < 8)%nat /\
    ((a_var s i = Some v /\ s' = s /\ find_in_regs v s = Some i) \/
     ((forall j, (j < 8)%nat -> a_var s j <> Some v) /\ exists s1, freed i s s1 /\ s' = load_var V v i s1)).
  Proof.
    unfold prepare_operand. destruct (find_in_regs v s) as [j|] eqn:F.
    { intros [= <- <-]. pose proof (find_regs_some _ _ _ F) as [L E]. auto. }
    pose proof (find_regs_none _ _ F) as N. destruct (find_free s) as [j|] eqn:Fr.
    { intros [= <- <-]. apply find_free_some in Fr. destruct Fr as [L E]. split; [exact L|]. right. split; [exact N|].
      exists s. split; [left; auto|reflexivity]. }
    destruct (find_live live_out b o0 None s) as [j|] eqn:Fl; intros [= <- <-].
    - apply find_live_some in Fl. destruct Fl as (L & _). split; [exact L|]. right. split; [exact N|].
      eexists. split; [apply spill_reg_freed|reflexivity].
    - split; [apply farthest_lt|]. right. split; [exact N|]. eexists. split; [apply spill_reg_freed|reflexivity].
  Qed.
  Lemma dest_cases b v o0 o1 s i s' : prepare_dest V live_out b v o0 o1 s = (i, s') -> (i < 8)%nat /\ exists s1,
    s' = set_reg i (Some v) true s1 /\
    ((s1 = s /\ a_var s i = Some v) \/ (freed i s s1 /\ forall j, (j < 8)%nat -> a_var s j <> Some v)).
  Proof.
    unfold prepare_dest. destruct (find_in_regs v s) as [j|] eqn:F.
    { intros [= <- <-]. apply find_regs_some in F. destruct F as [L E]. split; [exact L|]. exists s. auto. }
    pose proof (find_regs_none _ _ F) as N. destruct (find_free s) as [j|] eqn:Fr.
    { intros [= <- <-]. apply find_free_some in Fr. destruct Fr as [L E]. split; [exact L|]. exists s. split; [reflexivity|].
      right. split; [left; auto|exact N]. }
    destruct (find_live live_out b o0 o1 s) as [j|] eqn:Fl; intros [= <- <-].
    - apply find_live_some in Fl. destruct Fl as (L & _). split; [exact L|]. eexists. split; [reflexivity|]. right. split; [apply spill_reg_freed|exact N].
    - split; [apply farthest_lt|]. eexists. split; [reflexivity|]. right. split; [apply spill_reg_freed|exact N].
  Qed.
End Cases.

(** ** the code already there stays *)
Definition grows (s s' : ra) : Prop := exists l, a_code s' = a_code s ++ l.
Lemma grows_eq s s' : a_code s' = a_code s -> grows s s'.
Proof. intros E. exists []. rewrite app_nil_r. exact E. Qed.
Lemma grows_trans s1 s2 s3 : grows s1 s2 -> grows s2 s3 -> grows s1 s3.
Proof. intros [l1 E1] [l2 E2]. exists (l1 ++ l2). rewrite E2, E1, app_assoc. reflexivity. Qed.
Lemma grows_emit p s : grows s (emit p s).
Proof. exists [p]. reflexivity. Qed.
Lemma grows_fold {A} (f : ra -> A -> ra) l : (forall s i, grows s (f s i)) -> forall s, grows s (fold_left f l s).
Proof. intros H. induction l as [|i l IH]; cbn; intros s; [apply grows_eq; reflexivity|]. eapply grows_trans; [apply H|apply IH]. Qed.
Section Grows.
  Variable V : vars.
  Variable live_out : nat -> list nat.
  Variable killed : nat -> nat -> bool.
  Variable arity : Z -> Z.
  Variables then_ else_ : nat -> option nat.
  Lemma grows_slot v s : grows s (give_slot v s).
  Proof. unfold give_slot. destruct (a_off s v =? 0); apply grows_eq; reflexivity. Qed.
  Lemma grows_spill v i s : grows s (spill_var V v i s).
  Proof.
    unfold spill_var. destruct (negb (a_pol s i)); [apply grows_eq; reflexivity|].
    eapply grows_trans; [apply (grows_slot v)|]. eapply grows_trans; [apply grows_emit|apply grows_eq; reflexivity].
  Qed.
  Lemma grows_spill_reg i s : grows s (spill_reg V i s).
  Proof. unfold spill_reg. destruct (a_var s i); [apply grows_spill|apply grows_eq; reflexivity]. Qed.
  Lemma grows_load v i s : grows s (load_var V v i s).
  Proof. unfold load_var. eapply grows_trans; [apply grows_emit|apply grows_eq; reflexivity]. Qed.
  Lemma grows_operand b v o s : grows s (snd (prepare_operand V live_out b v o s)).
  Proof.
    unfold prepare_operand. destruct (find_in_regs v s); [apply grows_eq; reflexivity|]. destruct (find_free s); [apply grows_load|].
    cbn. eapply grows_trans; [apply grows_spill_reg|apply grows_load].
  Qed.
  Lemma grows_dest b v o0 o1 s : grows s (snd (prepare_dest V live_out b v o0 o1 s)).
  Proof.
    unfold prepare_dest. destruct (find_in_regs v s); [apply grows_eq; reflexivity|]. destruct (find_free s); [apply grows_eq; reflexivity|].
    cbn [snd]. eapply grows_trans; [apply grows_spill_reg|apply grows_eq; reflexivity].
  Qed.
  Lemma grows_alive b k s : grows s (spill_alive V live_out b k s).
  Proof.
    apply grows_fold. intros s' i. unfold spill_alive_reg. destruct (a_var s' i); [|apply grows_eq; reflexivity].
    destruct (check_live_out live_out b n); [apply grows_spill|]. destruct (k <? a_cons s' n); [apply grows_spill|apply grows_eq; reflexivity].
  Qed.
  Lemma grows_out b s : grows s (spill_live_out V live_out killed b s).
  Proof.
    apply grows_fold. intros s' i. unfold spill_out_reg. destruct (a_var s' i); [|apply grows_eq; reflexivity].
    destruct (negb (check_live_out live_out b n)); [apply grows_eq; reflexivity|].
    destruct (negb (killed n b)); [apply grows_eq; reflexivity|apply grows_spill].
  Qed.
  Lemma grows_refresh b k s : grows s (refresh live_out b k s).
  Proof.
    apply grows_fold. intros s' i. unfold refresh_reg. destruct (a_var s' i); [|apply grows_eq; reflexivity].
    destruct (check_live_out live_out b n); [apply grows_eq; reflexivity|]. destruct (a_cons s' n <? k); apply grows_eq; reflexivity.
  Qed.
  Lemma grows_global v d s : grows s (store_global V v d s).
  Proof. unfold store_global. destruct (v_global V v); [|apply grows_eq; reflexivity]. eapply grows_trans; [apply grows_emit|apply grows_eq; reflexivity]. Qed.
  Lemma grows_extend b k v sz s : grows s (extend_liveness live_out b k v sz s).
  Proof.
    unfold extend_liveness. destruct (check_live_out live_out b v); [apply grows_eq; reflexivity|].
    destruct (a_cons s v <? k + sz); apply grows_eq; reflexivity.
  Qed.
  Lemma grows_l s s1 s2 : grows s1 s2 -> grows s s1 -> grows s s2.
  Proof. intros; eapply grows_trans; eassumption. Qed.
  Lemma grows_set_args p n s : grows s (set_args p n s). Proof. apply grows_eq; reflexivity. Qed.
  Lemma grows_set_reg i o p s : grows s (set_reg i o p s). Proof. apply grows_eq; reflexivity. Qed.
  Lemma grows_set_off v o z s : grows s (set_off v o z s). Proof. apply grows_eq; reflexivity. Qed.
  Lemma grows_refl s : grows s s. Proof. apply grows_eq; reflexivity. Qed.
  Lemma grows_clear s : grows s (fold_left (fun s i => set_reg i None (a_pol s i) s) regs s).
  Proof. apply grows_fold. intros. apply grows_set_reg. Qed.
  Lemma grows_home x s : grows s (fold_left (fun s i => if holds s x i then emit (ir OP_store (zi i) (a_off s x) 0) s else s) regs s).
  Proof. apply grows_fold. intros s' i. destruct (holds s' x i); [apply grows_emit|apply grows_refl]. Qed.
  Definition gr (s : ra) (o : option ra) : Prop := match o with Some s' => grows s s' | None => True end.
  Ltac back := lazymatch goal with
    | |- grows ?z ?z => apply grows_refl
    | |- grows ?z (fold_left (fun t i => set_reg i None (a_pol t i) t) regs _) => refine (grows_l _ _ _ (grows_clear _) _); back
    | |- grows ?z (fold_left _ regs _) => refine (grows_l _ _ _ (grows_home _ _) _); back
    | |- grows ?z (emit _ _) => refine (grows_l _ _ _ (grows_emit _ _) _); back
    | |- grows ?z (set_args _ _ _) => refine (grows_l _ _ _ (grows_set_args _ _ _) _); back
    | |- grows ?z (set_reg _ _ _ _) => refine (grows_l _ _ _ (grows_set_reg _ _ _ _) _); back
    | |- grows ?z (set_off _ _ _ _) => refine (grows_l _ _ _ (grows_set_off _ _ _ _) _); back
    | |- grows ?z (give_slot _ _) => refine (grows_l _ _ _ (grows_slot _ _) _); back
    | |- grows ?z (spill_alive _ _ _ _ _) => refine (grows_l _ _ _ (grows_alive _ _ _) _); back
    | |- grows ?z (spill_live_out _ _ _ _ _) => refine (grows_l _ _ _ (grows_out _ _) _); back
    | |- grows ?z (extend_liveness _ _ _ _ _ _) => refine (grows_l _ _ _ (grows_extend _ _ _ _ _) _); back
    | |- grows ?z (store_global _ _ _ _) => refine (grows_l _ _ _ (grows_global _ _ _) _); back
    | |- grows ?z (if ?c then _ else _) => destruct c; back
    | |- grows ?z ?t => is_var t; match goal with H : grows _ t |- _ => refine (grows_l _ _ _ H _) end; back
    end.
  Ltac fwd := lazymatch goal with
    | |- gr _ None => exact I
    | |- gr _ (Some _) => change (gr ?s (Some ?t)) with (grows s t); back
    | |- gr _ (match prepare_operand ?V ?l ?b ?v ?o ?s with _ => _ end) =>
        let G := fresh "G" in let r := fresh "r" in let s1 := fresh "s1" in
        generalize (grows_operand b v o s); destruct (prepare_operand V l b v o s) as [r s1]; cbn [snd]; intros G; fwd
    | |- gr _ (match prepare_dest ?V ?l ?b ?v ?o0 ?o1 ?s with _ => _ end) =>
        let G := fresh "G" in let r := fresh "r" in let s1 := fresh "s1" in
        generalize (grows_dest b v o0 o1 s); destruct (prepare_dest V l b v o0 o1 s) as [r s1]; cbn [snd]; intros G; fwd
    | |- gr _ (match (match find_in_regs ?x ?s with _ => _ end) with _ => _ end) => destruct (find_in_regs x s); fwd
    | |- gr _ (match (match prepare_operand ?V ?l ?b ?v ?o ?s with _ => _ end) with _ => _ end) =>
        let G := fresh "G" in let r := fresh "r" in let s1 := fresh "s1" in
        generalize (grows_operand b v o s); destruct (prepare_operand V l b v o s) as [r s1]; cbn [snd]; intros G; fwd
    | |- gr _ (if ?c then _ else _) => destruct c; fwd
    | |- gr _ (match ?c with _ => _ end) => destruct c; fwd
    end.
  Lemma grows_core b k i s : gr s (alloc_core V live_out killed arity then_ else_ b k i s).
  Proof.
    unfold alloc_core. cbv zeta.
    destruct (i_op (r_insn i)); try exact I; destruct (i_rd (r_insn i)) as [d|]; try exact I; destruct (i_rs1 (r_insn i)) as [x|]; try exact I;
      try (destruct (i_rs2 (r_insn i)) as [y|]; try exact I); fwd.
  Qed.
  Lemma grows_insn b k i s s' : alloc_insn V live_out killed arity then_ else_ b k i s = Some s' -> grows s s'.
  Proof.
    unfold alloc_insn. intros H. pose proof (grows_core b k i (refresh live_out b k s)) as G. rewrite H in G.
    eapply grows_trans; [apply grows_refresh|exact G].
  Qed.
  Lemma grows_insns b l k s s' : alloc_insns V live_out killed arity then_ else_ b k l s = Some s' -> grows s s'.
  Proof.
    revert k s. induction l as [|i l IH]; cbn; intros k s H; [injection H as <-; apply grows_refl|].
    destruct (alloc_insn V live_out killed arity then_ else_ b k i s) as [s1|] eqn:E; [|discriminate].
    eapply grows_trans; [eapply grows_insn; eauto|eapply IH; eauto].
  Qed.
End Grows.
