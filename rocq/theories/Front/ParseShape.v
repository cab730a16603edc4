(** The form of the graph and of the instructions that the readers of ExprParse.v and StmtParse.v produce, for any tokens. *)
From Coq Require Import Permutation.
From Verif.Front Require Export ExprGroups StmtParse.
From Verif.Front Require Import StmtSpec.
Open Scope Z_scope.

Definition no_result : list opcode := [OP_write; OP_push; OP_call; OP_indirect; OP_branch; OP_return].
Record insn_ok (n : nat) (i : insn) : Prop := mkio {
  io_vars : forall x, i_rd i = Some x \/ reads i x -> (x < n)%nat;
  io_dest : In (i_op i) no_result -> i_rd i = None;
  io_plain : i_op i <> OP_unwound_phi }.
Record list_ok (n : nat) (l : list rinsn) : Prop := mklo {
  lo_insn : forall i, In i l -> insn_ok n (r_insn i);
  lo_branch : forall l1 i l2, l = l1 ++ i :: l2 -> i_op (r_insn i) = OP_branch -> l2 = [];
  lo_push : forall l1 i, l = l1 ++ [i] -> i_op (r_insn i) <> OP_push }.
Definition open (l : list rinsn) : Prop := forall i, In i l -> i_op (r_insn i) <> OP_branch.
(** block 0 is the entry, 1 the exit *)
Record inv (st : pst) : Prop := mkinv {
  in_code : forall b, list_ok (p_var st) (p_code st b);
  in_stack : forall v, In v (p_stack st) -> (v < p_var st)%nat;
  in_edges : forall a c, p_next st a = Some c \/ p_then st a = Some c \/ p_else st a = Some c -> a <> 1%nat /\ (0 < c < p_blk st)%nat;
  in_fresh : forall b, (p_blk st <= b)%nat -> p_code st b = [];
  in_exit : p_code st 1 = [] /\ (2 <= p_blk st)%nat }.
Definition tgt (st : pst) (c : nat) : Prop := (c < p_blk st)%nat /\ c <> 1%nat /\ open (p_code st c).
(** the state, the current block (if any) and blocks that will be written to later.  z: the current block may be the entry *)
Record A (z : bool) (P : list nat) (st : pst) (o : option nat) : Prop := mkA {
  a_inv : inv st;
  a_cur : forall b, o = Some b -> tgt st b /\ (b = 0%nat -> z = true);
  a_pend : forall c, In c P -> tgt st c /\ c <> 0%nat /\ o <> Some c;
  a_nodup : NoDup P }.
Definition le2 (st st' : pst) : Prop := (p_var st <= p_var st')%nat /\ (p_blk st <= p_blk st')%nat.
Lemma le2_refl st : le2 st st. Proof. split; lia. Qed.
Lemma le2_trans a b c : le2 a b -> le2 b c -> le2 a c. Proof. intros [] []. split; lia. Qed.

Lemma insn_ok_le n m i : (n <= m)%nat -> insn_ok n i -> insn_ok m i.
Proof. intros L [H1 H2 H3]. constructor; auto. intros x Hx. specialize (H1 x Hx). lia. Qed.
Lemma list_ok_le n m l : (n <= m)%nat -> list_ok n l -> list_ok m l.
Proof. intros L [H1 H2 H3]. constructor; auto. intros i J. eapply insn_ok_le; eauto. Qed.
Lemma list_ok_nil n : list_ok n [].
Proof. constructor; [intros i []|intros [|? ?] ? ? Q; discriminate|intros [|? ?] ? Q; discriminate]. Qed.
Lemma open_nil : open []. Proof. intros i []. Qed.
Lemma open_app l i : open l -> i_op (r_insn i) <> OP_branch -> open (l ++ [i]).
Proof. intros H Hi j J. apply in_app_or in J as [J|[<-|[]]]; auto. Qed.
Lemma split_open l1 i l2 l s : l ++ s = l1 ++ i :: l2 -> open l -> i_op (r_insn i) = OP_branch -> exists s1, s = s1 ++ i :: l2.
Proof.
  intros E. revert l1 E. induction l as [|a l IH]; intros l1 E O Bi; [exists l1; exact E|]. destruct l1 as [|b l1]; cbn in E.
  - injection E as -> _. destruct (O i (or_introl eq_refl) Bi).
  - injection E as _ E. apply (IH l1 E); [intros j J; apply O; right; exact J|exact Bi].
Qed.
(** appending [s] to a block without a branch *)
Lemma list_ok_app n l s : list_ok n l -> open l -> s <> [] -> list_ok n s -> list_ok n (l ++ s).
Proof.
  intros Hl Ol Ns Hs. constructor.
  - intros i J. apply in_app_or in J as [J|J]; [apply (lo_insn _ _ Hl i J)|apply (lo_insn _ _ Hs i J)].
  - intros l1 i l2 E Bi. destruct (split_open _ _ _ _ _ E Ol Bi) as (s1 & ->). apply (lo_branch _ _ Hs s1 i l2 eq_refl Bi).
  - intros l1 i E. destruct s as [|j s _] using rev_ind; [destruct (Ns eq_refl)|]. rewrite app_assoc in E. apply app_inj_tail in E as [_ ->]. apply (lo_push _ _ Hs s i eq_refl).
Qed.
Lemma list_ok_one n i : insn_ok n (r_insn i) -> i_op (r_insn i) <> OP_push -> list_ok n [i].
Proof.
  intros H Np. constructor.
  - intros j [<-|[]]. exact H.
  - intros [|? [|? ?]] j l2 E _; try discriminate. injection E as _ <-. reflexivity.
  - intros [|? [|? ?]] j E; try discriminate. injection E as <-. exact Np.
Qed.

(** ** the primitives *)
Section Prim.
  Variable z : bool.
  Variable P : list nat.
  Lemma tgt_eq st st' c : p_code st' = p_code st -> (p_blk st <= p_blk st')%nat -> tgt st c -> tgt st' c.
  Proof. intros E L (H1 & H2 & H3). unfold tgt. rewrite E. repeat split; auto; lia. Qed.
  Lemma A_eq st st' o : p_code st' = p_code st -> (p_blk st <= p_blk st')%nat -> inv st' -> A z P st o -> A z P st' o.
  Proof.
    intros E L I [H1 H2 H3 H4]. constructor; auto.
    - intros b Eb. destruct (H2 b Eb) as [T Z]. split; [eapply tgt_eq; eauto|exact Z].
    - intros c J. destruct (H3 c J) as [T Q]. split; [eapply tgt_eq; eauto|exact Q].
  Qed.
  Lemma A_require lim st o v st' : A z P st o -> require_var lim st = Some (v, st') -> A z P st' o /\ (v < p_var st')%nat /\ le2 st st'.
  Proof.
    intros K. unfold require_var. destruct (_ <? _)%nat; [|discriminate]. intros E. injection E as <- <-. split; [|unfold le2; cbn; lia].
    apply (A_eq st); [reflexivity|cbn; lia| |exact K]. destruct (a_inv _ _ _ _ K) as [I1 I2 I3 I4 I5]. constructor; cbn; auto.
    - intros b. apply (list_ok_le (p_var st)); [lia|apply I1].
    - intros v J. specialize (I2 v J). lia.
  Qed.
  Lemma A_label lim st o st' : A z P st o -> label lim st = Some st' -> A z P st' o /\ le2 st st'.
  Proof.
    intros K. unfold label. destruct (require_var lim st) as [[v s]|] eqn:E; [|discriminate]. intros Q. apply some_inj in Q. subst. destruct (A_require _ _ _ _ _ K E) as (? & _ & ?). auto.
  Qed.
  Lemma A_set st o l : A z P st o -> (forall v, In v l -> (v < p_var st)%nat) -> A z P (set_stack l st) o.
  Proof. intros K H. apply (A_eq st); [reflexivity|cbn; lia| |exact K]. destruct (a_inv _ _ _ _ K) as [I1 I2 I3 I4 I5]. constructor; cbn; auto. Qed.
  Lemma A_push st o v st' : A z P st o -> (v < p_var st)%nat -> opstack_push v st = Some st' -> A z P st' o /\ le2 st st'.
  Proof.
    intros K L. unfold opstack_push. destruct (_ <? _)%nat; [|discriminate]. intros Q. apply some_inj in Q. subst. split; [|unfold le2; cbn; lia].
    apply A_set; [exact K|]. intros w [<-|J]; [exact L|]. apply (in_stack _ (a_inv _ _ _ _ K) w J).
  Qed.
  Lemma A_pop st o v st' : A z P st o -> opstack_pop st = Some (v, st') -> A z P st' o /\ (v < p_var st')%nat /\ le2 st st'.
  Proof.
    intros K. unfold opstack_pop. destruct (p_stack st) as [|w l] eqn:E; [discriminate|]. intros Q. injection Q as <- <-.
    assert (S : forall x, In x (w :: l) -> (x < p_var st)%nat) by (intros x J; apply (in_stack _ (a_inv _ _ _ _ K)); rewrite E; exact J).
    split; [|split; [cbn; apply S; left; reflexivity|unfold le2; cbn; lia]]. apply A_set; [exact K|]. intros x J. apply S. right. exact J.
  Qed.
  Lemma A_init st o v c : A z P st o -> A z P (set_init v c st) o.
  Proof. intros K. apply (A_eq st); [reflexivity|cbn; lia| |exact K]. destruct (a_inv _ _ _ _ K) as [I1 I2 I3 I4 I5]. constructor; cbn; auto. Qed.
  Definition opt_lt (x : option nat) (n : nat) : Prop := forall v, x = Some v -> (v < n)%nat.
  Lemma code_app st o b s st' : A z P st o -> tgt st b -> s <> [] -> list_ok (p_var st) s ->
    st' = mkp (p_var st) (p_blk st) (upd (p_code st) b (p_code st b ++ s)) (p_next st) (p_then st) (p_else st) (p_pred st) (p_init st) (p_stack st) -> inv st'.
  Proof.
    intros K (T1 & T2 & T3) Ns Hs ->. destruct (a_inv _ _ _ _ K) as [I1 I2 I3 I4 I5]. constructor; cbn; auto.
    - intros c. unfold upd. destruct (Nat.eqb_spec c b) as [->|]; [|apply I1]. apply list_ok_app; auto.
    - intros c L. unfold upd. destruct (Nat.eqb_spec c b) as [->|]; [lia|auto].
    - unfold upd. destruct (Nat.eqb_spec 1 b) as [<-|]; [congruence|auto].
  Qed.
  Lemma insn_vars n o rd r1 r2 : opt_lt rd n -> opt_lt r1 n -> opt_lt r2 n -> (In o no_result -> rd = None) -> o <> OP_unwound_phi -> insn_ok n (mkinsn o rd r1 r2).
  Proof. intros H1 H2 H3 H4 H5. constructor; cbn; auto. intros x [E|[E|E]]; cbn in E; auto. Qed.
  Ltac side := lazymatch goal with
    | |- opt_lt None _ => let Q := fresh in intros ? Q; discriminate Q
    | |- opt_lt (Some _) _ => let Q := fresh in intros ? Q; injection Q as <-; assumption
    | |- In _ no_result -> None = None => reflexivity
    | |- In _ no_result -> _ = None => let J := fresh in intros J; cbn in J; intuition discriminate
    | |- _ <> _ => discriminate
    | |- _ => idtac
    end.
  (* an instruction other than a branch or push *)
  Lemma A_insn st o b op rd r1 r2 sz str : A z P st o -> tgt st b -> opt_lt rd (p_var st) -> opt_lt r1 (p_var st) -> opt_lt r2 (p_var st) ->
    (In op no_result -> rd = None) -> op <> OP_unwound_phi -> op <> OP_push -> op <> OP_branch -> A z P (add_insn b op rd r1 r2 sz str st) o.
  Proof.
    intros K T L1 L2 L3 D N1 N2 N3. set (i := mkr (mkinsn op rd r1 r2) sz str).
    assert (I : inv (add_insn b op rd r1 r2 sz str st)).
    { eapply (code_app st o b [i]); [exact K|exact T|discriminate| |reflexivity]. apply list_ok_one; [apply insn_vars; assumption|exact N2]. }
    assert (Tt : forall c, tgt st c -> tgt (add_insn b op rd r1 r2 sz str st) c).
    { intros c (T1 & T2 & T3). split; [exact T1|]. split; [exact T2|]. cbn. unfold upd. destruct (Nat.eqb_spec c b) as [->|]; [|exact T3]. apply open_app; [exact T3|exact N3]. }
    destruct K as [_ H2 H3 H4]. constructor; auto.
    - intros c Ec. destruct (H2 c Ec). auto.
    - intros c J. destruct (H3 c J). auto.
  Qed.
  (* a branch; nothing more goes to the block *)
  Lemma A_branch st b r1 sz str : A z P st (Some b) -> opt_lt r1 (p_var st) -> A z P (add_insn b OP_branch None r1 None sz str st) None.
  Proof.
    intros K L. destruct (a_cur _ _ _ _ K b eq_refl) as [T _]. set (i := mkr (mkinsn OP_branch None r1 None) sz str).
    assert (I : inv (add_insn b OP_branch None r1 None sz str st)).
    { eapply (code_app st _ b [i]); [exact K|exact T|discriminate| |reflexivity]. apply list_ok_one; [apply insn_vars; try exact L; side|discriminate]. }
    destruct K as [_ H2 H3 H4]. constructor; auto; [discriminate|]. intros c J. destruct (H3 c J) as ((T1 & T2 & T3) & N0 & Nb). split; [|split; [exact N0|discriminate]].
    split; [exact T1|]. split; [exact T2|]. cbn. unfold upd. destruct (Nat.eqb_spec c b) as [->|]; [congruence|exact T3].
  Qed.
  Lemma A_create st o k st' : A z P st o -> bb_create st = (k, st') -> A z (k :: P) st' o /\ (1 < k)%nat /\ (k < p_blk st')%nat /\ le2 st st'.
  Proof.
    intros K E. unfold bb_create in E. injection E as <- <-. pose proof (a_inv _ _ _ _ K) as I. pose proof (proj2 (in_exit _ I)) as L2.
    match goal with |- A _ _ ?s _ /\ _ => assert (K' : A z P s o) end.
    { apply (A_eq st); [reflexivity|cbn; lia| |exact K]. destruct I as [I1 I2 I3 I4 I5]. constructor; cbn; auto; [|intros b L; apply I4; lia|split; [apply I5|lia]].
      intros a c H. destruct (I3 a c H). split; [assumption|lia]. }
    split; [|cbn; unfold le2; cbn; lia]. destruct K as [_ H2 H3 H4]. constructor; [apply K'|apply K'| |].
    - intros c [<-|J]; [|apply K'; exact J]. split; [|split; [lia|]].
      + split; [cbn; lia|]. split; [lia|]. cbn. rewrite (in_fresh _ I) by lia. apply open_nil.
      + intros ->. destruct (H2 _ eq_refl) as ((Q & _) & _). lia.
    - constructor; [|exact H4]. intros J. destruct (H3 _ J) as ((Q & _) & _). lia.
  Qed.
  Lemma A_connect st o a d t st' : A z P st o -> a <> 1%nat -> (0 < d < p_blk st)%nat -> bb_connect a d t st = Some st' -> A z P st' o /\ le2 st st'.
  Proof.
    intros K Na Ld. unfold bb_connect. destruct (_ <? _)%nat; [|discriminate]. intros Q. apply some_inj in Q. subst. split; [|unfold le2; cbn; lia].
    apply (A_eq st); [reflexivity|cbn; lia| |exact K]. destruct (a_inv _ _ _ _ K) as [I1 I2 I3 I4 I5]. constructor; cbn; auto.
    intros x c H. destruct t; unfold upd in H; destruct (Nat.eqb_spec x a) as [->|].
    all: try solve [apply (I3 x c); tauto].
    all: destruct H as [H|[H|H]]; try (injection H as <-; auto); apply (I3 a c); auto.
  Qed.
  Lemma A_push_args b l : forall st o, A z P st o -> tgt st b -> (forall v, In v l -> (v < p_var st)%nat) ->
    forall f, A z P (add_insn b OP_call None None None 0 f (push_args b l st)) o /\ le2 st (push_args b l st) /\ p_var (push_args b l st) = p_var st.
  Proof.
    (* the code that is appended *)
    assert (E : forall l st, (forall v, In v l -> (v < p_var st)%nat) -> exists s, p_var (push_args b l st) = p_var st /\ p_blk (push_args b l st) = p_blk st /\
      (forall c, p_code (push_args b l st) c = if (c =? b)%nat then p_code st b ++ s else p_code st c) /\ p_next (push_args b l st) = p_next st /\ p_then (push_args b l st) = p_then st /\
      p_else (push_args b l st) = p_else st /\ p_stack (push_args b l st) = p_stack st /\
      forall i, In i s -> exists v k, (v < p_var st)%nat /\ i = mkr (mkinsn OP_push None (Some v) None) k 0).
    { clear. induction l as [|v l IH]; intros st H.
      - exists []. cbn. repeat split; auto; [intros c; destruct (Nat.eqb_spec c b) as [->|]; [rewrite app_nil_r|]; reflexivity|intros i []].
      - cbn [push_args]. set (s1 := add_insn b OP_push None (Some v) None (Z.of_nat (length (v :: l))) 0 st). destruct (IH s1) as (s & E1 & E2 & E3 & E4 & E5 & E6 & E7 & E8).
        { intros w J. cbn. apply H. right. exact J. }
        exists (mkr (mkinsn OP_push None (Some v) None) (Z.of_nat (length (v :: l))) 0 :: s). rewrite E1, E2, E4, E5, E6, E7. repeat split; auto.
        + intros c. rewrite E3. cbn. unfold upd. destruct (Nat.eqb_spec c b) as [->|]; [|reflexivity]. rewrite Nat.eqb_refl, <- app_assoc. reflexivity.
        + intros i [<-|J]; [|apply E8; exact J]. exists v, (Z.of_nat (length (v :: l))). split; [apply H; left; reflexivity|reflexivity]. }
    intros st o K T H f. destruct (E l st H) as (s & E1 & E2 & E3 & E4 & E5 & E6 & E7 & E8). set (st1 := push_args b l st) in *.
    split; [|split; [split; lia|exact E1]]. set (call := mkr (mkinsn OP_call None None None) 0 f).
    destruct T as (T1 & T2 & T3).
    assert (C : forall c, p_code (add_insn b OP_call None None None 0 f st1) c = if (c =? b)%nat then p_code st b ++ (s ++ [call]) else p_code st c).
    { intros c. cbn. unfold upd. destruct (Nat.eqb_spec c b) as [->|Nc]; rewrite E3; [rewrite Nat.eqb_refl, <- app_assoc; reflexivity|]. destruct (Nat.eqb_spec c b); [contradiction|reflexivity]. }
    assert (Hs : list_ok (p_var st) (s ++ [call])).
    { assert (Os : open s) by (intros i J; destruct (E8 i J) as (v & k & _ & ->); discriminate).
      assert (Oc : forall i, In i (s ++ [call]) -> i_op (r_insn i) <> OP_branch) by (intros i J; apply in_app_or in J as [J|[<-|[]]]; [apply (Os i J)|discriminate]).
      constructor.
      - intros i J. apply in_app_or in J as [J|[<-|[]]].
        + destruct (E8 i J) as (v & k & Lv & ->). cbn. apply insn_vars; side.
        + cbn. apply insn_vars; side.
      - intros l1 i l2 Q Bi. destruct (Oc i); [rewrite Q; apply in_or_app; right; left; reflexivity|exact Bi].
      - intros l1 i Q. apply app_inj_tail in Q as [_ <-]. discriminate. }
    assert (Op : forall c, open (p_code st c) -> open (p_code (add_insn b OP_call None None None 0 f st1) c)).
    { intros c Oc. rewrite C. destruct (Nat.eqb_spec c b) as [->|]; [|exact Oc]. intros i J. apply in_app_or in J as [J|J]; [apply Oc; exact J|].
      apply in_app_or in J as [J|[<-|[]]]; [destruct (E8 i J) as (v & k & _ & ->)|]; discriminate. }
    assert (Tt : forall c, tgt st c -> tgt (add_insn b OP_call None None None 0 f st1) c).
    { intros c (Q1 & Q2 & Q3). split; [cbn; rewrite E2; exact Q1|]. split; [exact Q2|]. apply Op. exact Q3. }
    destruct K as [[I1 I2 I3 I4 I5] H2 H3 H4]. constructor; auto.
    - constructor.
      + intros c. change (p_var (add_insn b OP_call None None None 0 f st1)) with (p_var st1). rewrite E1, C. destruct (Nat.eqb_spec c b) as [->|]; [|apply I1]. apply list_ok_app; auto. destruct s; discriminate.
      + cbn. rewrite E7, E1. exact I2.
      + cbn. rewrite E4, E5, E6, E2. exact I3.
      + cbn [p_blk add_insn]. rewrite E2. intros c L. rewrite C. destruct (Nat.eqb_spec c b) as [->|]; [lia|auto].
      + split; [rewrite C; destruct (Nat.eqb_spec 1 b) as [<-|]; [congruence|apply I5]|]. cbn. rewrite E2. apply I5.
    - intros c Ec. destruct (H2 c Ec). auto.
    - intros c J. destruct (H3 c J). auto.
  Qed.
  Lemma A_cur st b : A z P st (Some b) -> tgt st b.
  Proof. intros K. apply (a_cur _ _ _ _ K b eq_refl). Qed.
  Lemma A_in st o c : A z P st o -> In c P -> tgt st c.
  Proof. intros K J. apply (a_pend _ _ _ _ K c J). Qed.
  Lemma A_drop st o : A z P st o -> A z P st None.
  Proof. intros [H1 H2 H3 H4]. constructor; auto; [discriminate|]. intros c J. destruct (H3 c J) as (T & N0 & _). repeat split; auto; try apply T. discriminate. Qed.
  Lemma A_sub st o P' : A z P st o -> NoDup P' -> incl P' P -> A z P' st o.
  Proof. intros [H1 H2 H3 H4] Nd S. constructor; auto. Qed.
  Lemma A_switch z' st o k : A z (k :: P) st o -> A z' P st (Some k).
  Proof.
    intros [H1 H2 H3 H4]. inversion H4 as [|k' P' Nk Nd]; subst. destruct (H3 k (or_introl eq_refl)) as (T & N0 & _). constructor; auto.
    - intros b E. injection E as <-. split; [exact T|]. intros ->. congruence.
    - intros c J. destruct (H3 c (or_intror J)) as (T' & N0' & _). split; [exact T'|]. split; [exact N0'|]. intros E. injection E as <-. contradiction.
  Qed.
  Lemma A_forget st o k : A z (k :: P) st o -> A z P st o.
  Proof. intros K. apply (A_eq st); auto; [apply K|]. destruct K as [H1 H2 H3 H4]. inversion H4; subst. constructor; auto. intros c J. apply H3. right. exact J. Qed.
End Prim.
Lemma A_swap z P st o k j : A z (k :: j :: P) st o -> A z (j :: k :: P) st o.
Proof.
  intros [H1 H2 H3 H4]. constructor; auto.
  - intros c [<-|[<-|J]]; apply H3; cbn; auto.
  - inversion H4 as [|a l N1 N2]; subst. inversion N2 as [|b m N3 N4]; subst. constructor; [intros [<-|J]; [apply N1; left; reflexivity|contradiction]|]. constructor; [intros J; apply N1; right; exact J|exact N4].
Qed.

Ltac arith := solve [repeat match goal with H : le2 _ _ |- _ => destruct H | H : tgt _ _ |- _ => destruct H as (? & ? & _) end; unfold le2; cbn [p_var p_blk p_code add_insn set_init set_stack] in *; lia].
Ltac target K := first [exact (A_cur _ _ _ _ K)|eapply A_in; [exact K|cbn; tauto]|eapply A_in; [exact K|assumption]].
Ltac iside := lazymatch goal with
  | |- opt_lt None _ => let Q := fresh in intros ? Q; discriminate Q
  | |- opt_lt (Some _) _ => let Q := fresh in intros ? Q; injection Q as <-; arith
  | |- In _ no_result -> None = None => reflexivity
  | |- In _ no_result -> _ = None => let J := fresh in intros J; cbn in J; intuition discriminate
  | |- _ <> _ => discriminate
  | |- _ => idtac
  end.
Ltac renew K T := let K' := fresh "K" in pose proof T as K'; clear K; rename K' into K.
Ltac ready K s := lazymatch s with
  | add_insn ?b OP_branch ?rd ?r1 ?r2 ?u ?v ?s1 => ready K s1; let K' := fresh "K" in lazymatch type of K with A ?zz ?PP _ _ =>
      assert (K' : A zz PP s None) by (eapply A_branch; [exact K|iside]); clear K; rename K' into K end
  | add_insn ?b ?o ?rd ?r1 ?r2 ?u ?v ?s1 => ready K s1; let K' := fresh "K" in lazymatch type of K with A ?zz ?PP _ ?oo =>
      assert (K' : A zz PP s oo); [eapply A_insn; [exact K|target K|iside|iside|iside|try iside|try iside|try iside|try iside]|clear K; rename K' into K] end
  | set_init ?v ?c ?s1 => ready K s1; renew K (A_init _ _ _ _ v c K)
  | _ => idtac
  end.
Ltac stp H K :=
  lazymatch type of H with
  | match ?x with Some _ => _ | None => None end = Some _ =>
    let E := fresh "E" in
    lazymatch x with
    | require_var _ ?s => ready K s; destruct x as [[? ?]|] eqn:E; [|discriminate H]; apply (A_require _ _ _ _ _ _ _ K) in E; clear K; destruct E as (K & ? & ?)
    | label _ ?s => ready K s; destruct x as [?|] eqn:E; [|discriminate H]; apply (A_label _ _ _ _ _ _ K) in E; clear K; destruct E as (K & ?)
    | opstack_push _ ?s => ready K s; destruct x as [?|] eqn:E; [|discriminate H]; apply (fun L => A_push _ _ _ _ _ _ K L) in E; [clear K; destruct E as (K & ?)|arith]
    | opstack_pop ?s => ready K s; destruct x as [[? ?]|] eqn:E; [|discriminate H]; apply (A_pop _ _ _ _ _ _ K) in E; clear K; destruct E as (K & ? & ?)
    | bb_connect ?a ?d _ ?s => ready K s; destruct x as [?|] eqn:E; [|discriminate H];
        let Na := fresh in let Nd := fresh in
        assert (Na : a <> 1%nat) by arith; assert (Nd : (0 < d < p_blk s)%nat) by arith;
        apply (A_connect _ _ _ _ _ _ _ _ K Na Nd) in E; clear K; destruct E as (K & ?)
    | _ => destruct x eqn:E; [|discriminate H]; repeat match goal with p : (_ * _)%type |- _ => destruct p end
    end
  | (let '(_, _) := bb_create ?s in _) = Some _ => ready K s; let E := fresh "E" in destruct (bb_create s) eqn:E; apply (A_create _ _ _ _ _ _ K) in E; clear K; destruct E as (K & ? & ? & ?)
  end.
Ltac finish H K := lazymatch type of H with
  | Some (_, ?s) = Some _ => ready K s; apply some_inj in H; injection H; clear H; intros; subst
  | Some ?s = Some _ => ready K s; apply some_inj in H; subst
  end.

Section Expr.
  Variable lim : nat.
  (* the operators that take two values *)
  Definition arith_op (o : opcode) : Prop := ~ In o no_result /\ o <> OP_unwound_phi.
  Lemma A_const z P c b st st' : A z P st (Some b) -> load_constant lim c b st = Some st' -> A z P st' (Some b) /\ le2 st st'.
  Proof. intros K H. unfold load_constant in H. stp H K. stp H K. finish H K. split; [exact K|arith]. Qed.
  Lemma arith_op_neq o : arith_op o -> o <> OP_push /\ o <> OP_branch.
  Proof. intros [H _]. split; intros ->; apply H; cbn; auto 10. Qed.
  Lemma A_unary z P o b st st' : arith_op o -> A z P st (Some b) -> unary_op lim o b st = Some st' -> A z P st' (Some b) /\ le2 st st'.
  Proof.
    intros Ho K H. pose proof (arith_op_neq o Ho) as [N1 N2]. destruct Ho as [N3 N4]. unfold unary_op in H. stp H K. stp H K. stp H K. apply some_inj in H. subst.
    split; [|arith]. eapply A_insn; [exact K|target K|iside..| | | |]; auto. intros J. contradiction.
  Qed.
  Lemma A_binary z P o b st st' : arith_op o -> A z P st (Some b) -> binary_op lim o b st = Some st' -> A z P st' (Some b) /\ le2 st st'.
  Proof.
    intros Ho K H. pose proof (arith_op_neq o Ho) as [N1 N2]. destruct Ho as [N3 N4]. unfold binary_op in H. stp H K. stp H K. stp H K. stp H K. apply some_inj in H. subst.
    split; [|arith]. eapply A_insn; [exact K|target K|iside..| | | |]; auto. intros J. contradiction.
  Qed.
  Lemma A_logical z P o st b st' b' : A z P st (Some b) -> read_logical lim o st b = Some (st', b') -> A z P st' (Some b') /\ le2 st st' .
  Proof.
    intros K H. pose proof (A_cur _ _ _ _ K). unfold read_logical in H. stp H K. stp H K. stp H K. stp H K. stp H K. stp H K. finish H K. split; [eapply A_switch; exact K|arith].
  Qed.
  Lemma A_finalize z P o st b sh st' b' : A z P st (Some b) -> In sh P -> finalize_logical lim o st b sh = Some (st', b') -> A z P st' (Some b') /\ le2 st st'.
  Proof.
    intros K J H. pose proof (A_cur _ _ _ _ K). pose proof (A_in _ _ _ _ _ K J). pose proof (proj1 (proj2 (a_pend _ _ _ _ K sh J))).
    unfold finalize_logical in H. stp H K. stp H K.
    assert (Hif : forall n : nat, (0 < n < p_blk p0)%nat -> (0 < (if is_and o then n else sh) < p_blk p0)%nat /\ (0 < (if is_and o then sh else n) < p_blk p0)%nat /\ (if is_and o then n else sh) <> 1%nat /\ (if is_and o then sh else n) <> 1%nat \/ n = 1%nat)
      by (intros k Hk; destruct (Nat.eq_dec k 1); [right; assumption|left]; destruct (is_and o); repeat split; try arith).
    destruct (Hif n0) as [(? & ? & ? & ?)|?]; [arith| |arith]. clear Hif.
    remember (if is_and o then n0 else sh) as x eqn:Ex. remember (if is_and o then sh else n0) as y eqn:Ey. clear Ex Ey.
    do 9 stp H K. do 6 stp H K. finish H K. split; [|arith]. apply A_forget in K. eapply A_switch. exact K.
  Qed.
  Lemma A_reduce z P p b ops : forall st ops' st', Forall arith_op ops -> A z P st (Some b) -> reduce lim p b ops st = Some (ops', st') ->
    A z P st' (Some b) /\ le2 st st' /\ Forall arith_op ops'.
  Proof.
    induction ops as [|o r IH]; cbn [reduce]; intros st ops' st' F K H; [finish H K; split; [exact K|]; split; [arith|constructor]|].
    inversion F as [|o1 r1 Fo Fr]; subst. destruct (_ >=? p); [|finish H K; split; [exact K|]; split; [arith|exact F]].
    destruct (binary_op lim o b st) as [s|] eqn:E; [|discriminate]. destruct (A_binary _ _ _ _ _ _ Fo K E) as [K1 L1]. destruct (IH _ _ _ Fr K1 H) as (K2 & L2 & F2).
    split; [exact K2|]. split; [eapply le2_trans; eauto|exact F2].
  Qed.
  Lemma A_unwind z P b ops : forall st st', Forall arith_op ops -> A z P st (Some b) -> unwind lim b ops st = Some st' -> A z P st' (Some b) /\ le2 st st'.
  Proof.
    induction ops as [|o r IH]; cbn [unwind]; intros st st' F K H; [finish H K; split; [exact K|arith]|].
    inversion F as [|o1 r1 Fo Fr]; subst.
    destruct (binary_op lim o b st) as [s|] eqn:E; [|discriminate]. destruct (A_binary _ _ _ _ _ _ Fo K E) as [K1 L1]. destruct (IH _ _ Fr K1 H) as (K2 & L2).
    split; [exact K2|]. eapply le2_trans; eauto.
  Qed.
  (* the blocks of the pending && and || *)
  Definition both (P : list nat) (l : lg) : Prop := In (l_and l) P /\ In (l_or l) P.
  Lemma both_shared P o l : both P l -> In (shared o l) P.
  Proof. intros [H1 H2]. unfold shared. destruct (is_and o); assumption. Qed.
  Lemma A_connect_to z P st b d t st' : A z P st (Some b) -> In d P -> bb_connect b d t st = Some st' -> A z P st' (Some b) /\ le2 st st'.
  Proof.
    intros K J H. pose proof (A_cur _ _ _ _ K) as (_ & Nb & _). pose proof (A_in _ _ _ _ _ K J) as (Ld & _). pose proof (proj1 (proj2 (a_pend _ _ _ _ K d J))).
    apply (A_connect _ _ _ _ b d t st' K Nb); [arith|exact H].
  Qed.
  Lemma A_test z P o st b l st' b' : both P l -> A z P st (Some b) -> test_operand lim o st b l = Some (st', b') -> A z P st' (Some b') /\ le2 st st'.
  Proof.
    intros B K H. unfold test_operand in H. destruct (bb_connect b (shared o l) _ st) as [s|] eqn:E; [|discriminate].
    destruct (A_connect_to _ _ _ _ _ _ _ K (both_shared P o l B) E) as [K1 L1]. destruct (A_logical _ _ _ _ _ _ _ K1 H) as [K2 L2]. split; [exact K2|eapply le2_trans; eauto].
  Qed.
  (* new shared blocks may be made: Q *)
  Definition more (P : list nat) (z : bool) (st' : pst) (b' : nat) (l' : lg) : Prop := exists Q, incl P Q /\ A z Q st' (Some b') /\ both Q l'.
  Lemma more_id P z st b l : A z P st (Some b) -> both P l -> more P z st b l.
  Proof. intros K B. exists P. split; [apply incl_refl|auto]. Qed.
  Lemma A_next z P o st b l st' b' l' : both P l -> A z P st (Some b) -> next_logical lim o st b l = Some (st', b', l') -> more P z st' b' l' /\ le2 st st'.
  Proof.
    intros B K H. unfold next_logical in H. destruct (_ || _).
    - destruct (test_operand lim o st b l) as [[s c]|] eqn:E; [|discriminate]. apply some_inj in H. injection H as <- <- <-. destruct (A_test _ _ _ _ _ _ _ _ B K E) as [K1 L1].
      split; [apply more_id; [exact K1|exact B]|exact L1].
    - destruct (is_and (l_prev l)).
      + destruct (finalize_logical lim OP_log_and st b (l_and l)) as [[s c]|] eqn:E; [|discriminate]. destruct (A_finalize _ _ _ _ _ _ _ _ K (proj1 B) E) as [K1 L1].
        destruct (bb_create s) as [a s1] eqn:E1. destruct (A_create _ _ _ _ _ _ K1 E1) as (K2 & _ & _ & L2).
        destruct (bb_connect c _ _ _) as [s2|] eqn:E2; [|discriminate]. destruct (A_connect_to _ _ _ _ _ _ _ K2 (or_intror (proj2 B)) E2) as [K3 L3].
        destruct (read_logical lim o s2 c) as [[s3 c3]|] eqn:E3; [|discriminate]. destruct (A_logical _ _ _ _ _ _ _ K3 E3) as [K4 L4].
        apply some_inj in H. injection H as <- <- <-. split; [|eapply le2_trans; [exact L1|]; eapply le2_trans; [exact L2|]; eapply le2_trans; eauto].
        exists (a :: P). split; [apply incl_tl, incl_refl|]. split; [exact K4|]. split; cbn; [auto|right; apply B].
      + destruct (bb_connect b _ _ _) as [s2|] eqn:E2; [|discriminate]. destruct (A_connect_to _ _ _ _ _ _ _ K (proj1 B) E2) as [K3 L3].
        destruct (read_logical lim o s2 b) as [[s3 c3]|] eqn:E3; [|discriminate]. destruct (A_logical _ _ _ _ _ _ _ K3 E3) as [K4 L4].
        apply some_inj in H. injection H as <- <- <-. split; [apply more_id; [exact K4|exact B]|eapply le2_trans; eauto].
  Qed.
  Lemma A_leave z n : forall P o st b l st' b' l', both P l -> A z P st (Some b) -> leave_logical lim n o st b l = Some (st', b', l') -> more P z st' b' l' /\ le2 st st'.
  Proof.
    induction n as [|n IH]; cbn [leave_logical]; intros P o st b l st' b' l' B K H; destruct (_ && _); try discriminate;
      try (apply some_inj in H; injection H as <- <- <-; split; [apply more_id; assumption|apply le2_refl]).
    destruct (finalize_logical lim _ _ _ _) as [[s c]|] eqn:E; [|discriminate]. destruct (A_finalize _ _ _ _ _ _ _ _ K (both_shared P _ l B) E) as [K1 L1].
    destruct (bb_create s) as [a s1] eqn:E1. destruct (A_create _ _ _ _ _ _ K1 E1) as (K2 & _ & _ & L2).
    match type of H with leave_logical lim n o s1 c ?l1 = _ => assert (B' : both (a :: P) l1) end.
    { destruct B. destruct (is_and (l_prev l)); split; cbn; auto. }
    destruct (IH (a :: P) _ _ _ _ _ _ _ B' K2 H) as [(Q & S & M) L3].
    split; [|eapply le2_trans; [exact L1|]; eapply le2_trans; eauto]. exists Q. split; [|exact M]. intros x J. apply S. right. exact J.
  Qed.
  Lemma A_end z P n : forall st b l st' b', both P l -> A z P st (Some b) -> end_logical lim n st b l = Some (st', b') -> A z P st' (Some b') /\ le2 st st'.
  Proof.
    induction n as [|n IH]; cbn [end_logical]; intros st b l st' b' B K H; destruct (l_has l); try discriminate; try (finish H K; split; [exact K|apply le2_refl]).
    destruct (finalize_logical lim _ _ _ _) as [[s c]|] eqn:E; [|discriminate]. destruct (A_finalize _ _ _ _ _ _ _ _ K (both_shared P _ l B) E) as [K1 L1].
    destruct (IH _ _ (mklg (negb (op_eqb (l_pprev l) OP_generic)) (l_pprev l) OP_generic (l_and l) (l_or l)) _ _ B K1 H) as [K2 L2]. split; [exact K2|eapply le2_trans; eauto].
  Qed.
  Lemma get_op_arith ts o ts' : get_operator ts = (o, ts') -> stops o = false -> is_logical o = false -> arith_op o.
  Proof.
    intros H S N. destruct ts as [|[t w] r]; [injection H as <- _; discriminate S|]. unfold arith_op.
    destruct t; cbn in H; injection H as <- _; try discriminate S; try discriminate N; split; try discriminate; cbn; intuition discriminate.
  Qed.

  (** ** the readers *)
  Section Readers.
  Variable find_constant : text -> option Z.
  Variable find_var : text -> option vinfo.
  Variable find_func : text -> option Z.
  Variable special : text -> bool.
  Variable nv : nat.
  Hypothesis Hvar : forall x v, find_var x = Some v -> (vi_id v < nv)%nat.
  Notation rop := (read_operand find_constant find_var find_func special lim).
  Notation rexp := (read_expr find_constant find_var find_func special lim).
  Notation rtern := (read_ternary find_constant find_var find_func special lim).
  Notation rargs := (read_args find_constant find_var find_func special lim).
  Notation rcall := (read_call find_constant find_var find_func special lim).
  Notation rlval := (read_lvalue find_constant find_var find_func special lim).
  Notation rsubs := (read_subscripts find_constant find_var find_func special lim).
  Notation rplus := (read_plus find_constant find_var find_func special lim).
  Notation eloop := (expr_loop find_constant find_var find_func special lim).
  Definition good (z : bool) (P : list nat) (st : pst) (b : nat) : Prop := A z P st (Some b) /\ (nv <= p_var st)%nat.
  Definition keeps (z : bool) (P : list nat) (st st' : pst) (b' : nat) : Prop := good z P st' b' /\ le2 st st'.
  Definition all_shape (n : nat) : Prop := forall z P st b, good z P st b ->
    (forall ts ts' st' b', rop n ts st b = Some (ts', st', b') -> keeps z P st st' b') /\
    (forall f ts ts' st' b', rcall n f ts st b = Some (ts', st', b') -> keeps z P st st' b') /\
    (forall l ts ts' st' b' l', (forall v, In v l -> (v < p_var st)%nat) -> rargs n l ts st b = Some (ts', st', b', l') ->
      keeps z P st st' b' /\ forall v, In v l' -> (v < p_var st')%nat) /\
    (forall v ts ts' st' b', (vi_id v < nv)%nat -> rlval n v ts st b = Some (ts', st', b') -> keeps z P st st' b') /\
    (forall v s m ts ts' st' b' s' r, rsubs n v s m ts st b = Some (ts', st', b', s', r) -> keeps z P st st' b') /\
    (forall v s r ts ts' st' b', rplus n v s r ts st b = Some (ts', st', b') -> keeps z P st st' b') /\
    (forall ts ts' st' b', rexp n ts st b = Some (ts', st', b') -> keeps z P st st' b') /\
    (forall o ts ops l ts' st' b', (exists ts0, get_operator ts0 = (o, ts)) -> both P l -> Forall arith_op ops -> eloop n o ts st b ops l = Some (ts', st', b') -> keeps z P st st' b') /\
    (forall ts ts' st' b', rtern n ts st b = Some (ts', st', b') -> keeps z P st st' b').
  Lemma keeps_step z P st st1 b1 st2 b2 : keeps z P st st1 b1 -> keeps z P st1 st2 b2 -> keeps z P st st2 b2.
  Proof. intros [_ L1] [G2 L2]. split; [exact G2|eapply le2_trans; eauto]. Qed.
  Lemma keeps_A z P st b st' b' : good z P st b -> A z P st' (Some b') /\ le2 st st' -> keeps z P st st' b'.
  Proof. intros [_ N] [K L]. split; [split; [exact K|arith]|exact L]. Qed.
  Lemma keeps_id z P st b : good z P st b -> keeps z P st st b.
  Proof. intros G. split; [exact G|apply le2_refl]. Qed.
  Lemma A_pick z P1 k P2 st o : A z (P1 ++ k :: P2) st o -> A z (k :: P1 ++ P2) st o.
  Proof.
    intros K. eapply A_sub; [exact K| |].
    - eapply Permutation_NoDup; [symmetry; apply Permutation_middle|apply (a_nodup _ _ _ _ K)].
    - intros x J. eapply Permutation_in; [apply Permutation_middle|exact J].
  Qed.
  Lemma A_nonzero P st b : A false P st (Some b) -> (0 < b < p_blk st)%nat /\ b <> 1%nat.
  Proof. intros K. destruct (a_cur _ _ _ _ K b eq_refl) as ((H1 & H2 & _) & Z). split; [|exact H2]. destruct b; [discriminate (Z eq_refl)|lia]. Qed.
  Lemma shapes : forall n, all_shape n.
  Proof.
    induction n as [|n IH].
    { intros z P st b _. repeat split; intros; discriminate. }
    Ltac reader H K N IH :=
      lazymatch type of H with match ?x with Some _ => _ | None => None end = Some _ =>
        lazymatch type of K with A ?zz ?PP _ _ =>
        let E := fresh "E" in let L := fresh "L" in let NN := fresh "NN" in
        lazymatch x with
        | read_operand _ _ _ _ _ _ ?ts ?s ?b => ready K s; assert (NN : (nv <= p_var s)%nat) by arith; destruct x as [[[? ?] ?]|] eqn:E; [|discriminate H]; apply (proj1 (IH zz PP s b (conj K NN))) in E; clear K N NN; destruct E as ([K N] & L)
        | read_call _ _ _ _ _ _ ?f ?ts ?s ?b => ready K s; assert (NN : (nv <= p_var s)%nat) by arith; destruct x as [[[? ?] ?]|] eqn:E; [|discriminate H]; apply (proj1 (proj2 (IH zz PP s b (conj K NN)))) in E; clear K N NN; destruct E as ([K N] & L)
        | read_lvalue _ _ _ _ _ _ ?f ?ts ?s ?b => ready K s; assert (NN : (nv <= p_var s)%nat) by arith; destruct x as [[[? ?] ?]|] eqn:E; [|discriminate H]; apply (fun Lv => proj1 (proj2 (proj2 (proj2 (IH zz PP s b (conj K NN))))) _ _ _ _ _ Lv) in E; [clear K N NN; destruct E as ([K N] & L)|]
        | read_subscripts _ _ _ _ _ _ _ _ _ ?ts ?s ?b => ready K s; assert (NN : (nv <= p_var s)%nat) by arith; destruct x as [[[[[? ?] ?] ?] ?]|] eqn:E; [|discriminate H]; apply (proj1 (proj2 (proj2 (proj2 (proj2 (IH zz PP s b (conj K NN))))))) in E; clear K N NN; destruct E as ([K N] & L)
        | read_expr _ _ _ _ _ _ ?ts ?s ?b => ready K s; assert (NN : (nv <= p_var s)%nat) by arith; destruct x as [[[? ?] ?]|] eqn:E; [|discriminate H]; apply (proj1 (proj2 (proj2 (proj2 (proj2 (proj2 (proj2 (IH zz PP s b (conj K NN))))))))) in E; clear K N NN; destruct E as ([K N] & L)
        | read_ternary _ _ _ _ _ _ ?ts ?s ?b => ready K s; assert (NN : (nv <= p_var s)%nat) by arith; destruct x as [[[? ?] ?]|] eqn:E; [|discriminate H]; apply (proj2 (proj2 (proj2 (proj2 (proj2 (proj2 (proj2 (proj2 (IH zz PP s b (conj K NN)))))))))) in E; clear K N NN; destruct E as ([K N] & L)
        end end end.
    Ltac pure H := lazymatch type of H with match ?x with Some _ => _ | None => None end = Some _ => let E := fresh "P" in destruct x eqn:E; [|discriminate H] end.
    Ltac done H K := lazymatch type of H with
      | Some (_, ?s, _) = Some _ => ready K s; apply some_inj in H; injection H; clear H; intros; subst
      | Some (_, ?s, _, _) = Some _ => ready K s; apply some_inj in H; injection H; clear H; intros; subst
      | Some (_, ?s, _, _, _) = Some _ => ready K s; apply some_inj in H; injection H; clear H; intros; subst
      end; split; [split; [exact K|arith]|arith].
    Ltac group1 H K lem := lazymatch type of H with match ?x with Some _ => _ | None => None end = Some _ => let E := fresh "E" in destruct x as [?|] eqn:E; [|discriminate H]; apply lem in E; [clear K; destruct E as [K ?]|..|exact K] end.
    Ltac const H K := lazymatch type of H with match ?x with Some _ => _ | None => None end = Some _ => let E := fresh "E" in destruct x as [?|] eqn:E; [|discriminate H]; apply (A_const _ _ _ _ _ _ K) in E; clear K; destruct E as [K ?] end.
    Ltac unary H K := lazymatch type of H with match ?x with Some _ => _ | None => None end = Some _ => let E := fresh "E" in destruct x as [?|] eqn:E; [|discriminate H];
      apply (fun Ho => A_unary _ _ _ _ _ _ Ho K) in E; [clear K; destruct E as [K ?]|split; [cbn; intuition discriminate|discriminate]] end.
    Ltac binary H K := lazymatch type of H with match ?x with Some _ => _ | None => None end = Some _ => let E := fresh "E" in destruct x as [?|] eqn:E; [|discriminate H];
      apply (fun Ho => A_binary _ _ _ _ _ _ Ho K) in E; [clear K; destruct E as [K ?]|split; [cbn; intuition discriminate|discriminate]] end.
    intros z P st b [K N]. repeat match goal with |- _ /\ _ => split end; intros; match goal with Q : _ = Some _ |- _ => revert Q end; intros Hx.
    - (* read_operand *) rewrite read_operand_S in Hx. cbv zeta in Hx.
      destruct (match lex_accept T_minus ts with Some r => (true, r) | None => (false, ts) end) as [neg ts1]. destruct (_ && _); [discriminate|].
      destruct ts1 as [|[t w] r]; [discriminate|]. destruct t; try discriminate.
      + pure Hx. const Hx K. done Hx K.
      + destruct (special w); [discriminate|]. 
        match type of Hx with match ?x with _ => _ end = _ => destruct x as [[[ts2 st2] b2]|] eqn:E; [|discriminate Hx] end.
        assert (Q : keeps z P st st2 b2).
        { destruct (find_constant w); [const E K; done E K|]. destruct (find_var w) as [v|] eqn:Fv.
          - reader E K N IH; [|apply (Hvar _ _ Fv)]. destruct (peek _ _); [discriminate|]. done E K.
          - destruct (find_func w); [|discriminate]. destruct (peek _ _); [|discriminate]. apply (proj1 (proj2 (IH z P st b (conj K N)))) in E. exact E. }
        clear K N. destruct Q as [[K N] L]. destruct neg; [unary Hx K|]; done Hx K.
      + const Hx K. done Hx K.
      + reader Hx K N IH. reader Hx K N IH. pure Hx. done Hx K.
      + reader Hx K N IH. unary Hx K. done Hx K.
      + reader Hx K N IH. unary Hx K. done Hx K.
    - (* read_call *) rewrite read_call_S in Hx. cbv zeta in Hx. pure Hx.
      destruct (rargs n [] t st b) as [[[[ts2 st2] b2] l2]|] eqn:E; [|discriminate]. apply (proj1 (proj2 (proj2 (IH z P st b (conj K N))))) in E; [|intros v []].
      clear K N. destruct E as (([K N] & L) & Hl). destruct (A_push_args _ _ b2 l2 _ _ K (A_cur _ _ _ _ K) Hl f) as (K1 & L1 & E1). clear K. rename K1 into K. cbv zeta in Hx.
      assert (L2 : le2 st2 (add_insn b2 OP_call None None None 0 f (push_args b2 l2 st2))) by exact L1.
      set (s := add_insn b2 OP_call None None None 0 f (push_args b2 l2 st2)) in *. clearbody s. stp Hx K. stp Hx K. done Hx K.
    - (* read_args *) rewrite read_args_S in Hx. destruct (lex_accept T_close_bracket ts).
      + apply some_inj in Hx. injection Hx as <- <- <- <-. split; [split; [split; [exact K|arith]|arith]|auto].
      + reader Hx K N IH. reader Hx K N IH. stp Hx K. destruct (_ <? _)%nat; [|discriminate].
        match type of Hx with read_args _ _ _ _ _ _ _ _ ?s ?c = _ => assert (NN : (nv <= p_var s)%nat) by arith; apply (fun X => proj1 (proj2 (proj2 (IH z P s c (conj K NN)))) _ _ _ _ _ _ X) in Hx end.
        * destruct Hx as ([G L2] & Hl). split; [|exact Hl]. split; [exact G|arith].
        * intros x J. apply in_app_or in J as [J|[<-|[]]]; [|assumption]. match goal with Q : forall v, In v l -> _ |- _ => specialize (Q x J) end. arith.
    - (* read_lvalue *) rewrite read_lvalue_S in Hx. stp Hx K. reader Hx K N IH. destruct (_ && _).
      + apply (proj1 (proj2 (proj2 (proj2 (proj2 (proj2 (IH z P _ _ (conj K N)))))))) in Hx. destruct Hx as [G L2]. split; [exact G|arith].
      + destruct (_ || _); [discriminate|]. match type of Hx with (if ?x then _ else _) = _ => destruct x end; [|done Hx K]. stp Hx K. stp Hx K. stp Hx K. done Hx K.
    - (* read_subscripts *) rewrite read_subscripts_S in Hx. destruct (_ || _); [discriminate|]. destruct (lex_accept T_open_square ts); [|done Hx K].
      match type of Hx with match ?x with _ => _ end = _ => destruct x as [st1|] eqn:E; [|discriminate Hx] end.
      assert (Q : keeps z P st st1 b). { destruct (negb (vi_ptr v =? 0) && m); [stp E K; stp E K; stp E K|]; (apply some_inj in E; subst st1); match goal with |- keeps _ _ _ ?s _ => ready K s end; (split; [split; [exact K|arith]|arith]). }
      clear K N. destruct Q as [[K N] L]. cbv zeta in Hx. destruct ((vi_ptr v =? 0) && (vi_array v =? 0)); [discriminate|]. reader Hx K N IH.
      match type of Hx with match ?x with _ => _ end = _ => destruct x as [st2|] eqn:E2; [|discriminate Hx] end.
      assert (Q : keeps z P p st2 n0). { destruct (_ =? 1); [apply some_inj in E2; subst; split; [split; [exact K|arith]|arith]|]. const E2 K. apply A_binary with (3 := E2) in K as [K' ?]; [split; [split; [exact K'|arith]|arith]|split; [cbn; intuition discriminate|discriminate]]. }
      clear K N. destruct Q as [[K N] L2]. binary Hx K. pure Hx. match type of K with A _ _ ?s _ => assert (NN : (nv <= p_var s)%nat) by arith end. apply (proj1 (proj2 (proj2 (proj2 (proj2 (IH z P _ _ (conj K NN))))))) in Hx. destruct Hx as [G L3]. split; [exact G|arith].
    - (* read_plus *) rewrite read_plus_S in Hx. destruct (lex_accept T_plus ts); [|done Hx K].
      match type of Hx with match ?x with _ => _ end = _ => destruct x as [st1|] eqn:E; [|discriminate Hx] end.
      assert (Q : keeps z P st st1 b). { destruct r; [stp E K; stp E K; stp E K|]; (apply some_inj in E; subst st1); match goal with |- keeps _ _ _ ?s _ => ready K s end; (split; [split; [exact K|arith]|arith]). }
      clear K N. destruct Q as [[K N] L]. reader Hx K N IH. cbv zeta in Hx.
      match type of Hx with match ?x with _ => _ end = _ => destruct x as [st2|] eqn:E2; [|discriminate Hx] end.
      assert (Q : keeps z P p st2 n0). { destruct (1 <? _); [|apply some_inj in E2; subst; split; [split; [exact K|arith]|arith]]. const E2 K. apply A_binary with (3 := E2) in K as [K' ?]; [split; [split; [exact K'|arith]|arith]|split; [cbn; intuition discriminate|discriminate]]. }
      clear K N. destruct Q as [[K N] L2]. binary Hx K. match type of K with A _ _ ?s _ => assert (NN : (nv <= p_var s)%nat) by arith end. apply (proj1 (proj2 (proj2 (proj2 (proj2 (proj2 (IH z P _ _ (conj K NN)))))))) in Hx. destruct Hx as [G L3]. split; [exact G|arith].
    - (* read_expr *) rewrite read_expr_S in Hx. stp Hx K. stp Hx K. cbv zeta in Hx. reader Hx K N IH. destruct (get_operator _) as [op ts1] eqn:Eo.
      assert (Ft : forall s s' c, keeps z (n1 :: n0 :: P) s s' c -> le2 st s -> keeps z P st s' c) by (intros ? ? ? [[? ?] ?] ?; split; [split; [eapply A_forget, A_forget; eassumption|assumption]|arith]).
      destruct (stops op) eqn:So; [apply some_inj in Hx; injection Hx as _ <- <-; apply (Ft p1 p1 n2); [split; [split; [exact K|exact N]|arith]|arith]|].
      destruct (is_logical op) eqn:Lo.
      + match type of Hx with match ?x with _ => _ end = _ => destruct x as [[st1 b1]|] eqn:E; [|discriminate Hx] end.
        apply (fun B => A_test _ _ _ _ _ _ _ _ B K) in E; [|split; cbn; auto]. clear K. destruct E as [K ?]. reader Hx K N IH. match type of Hx with context [get_operator ?x] => destruct (get_operator x) as [op' ts2] eqn:Eo' end.
        apply (proj1 (proj2 (proj2 (proj2 (proj2 (proj2 (proj2 (proj2 (IH _ _ _ _ (conj K N)))))))))) in Hx; [eapply Ft; [exact Hx|arith]|eauto|split; cbn; auto|constructor].
      + reader Hx K N IH. match type of Hx with context [get_operator ?x] => destruct (get_operator x) as [op' ts2] eqn:Eo' end.
        apply (proj1 (proj2 (proj2 (proj2 (proj2 (proj2 (proj2 (proj2 (IH _ _ _ _ (conj K N)))))))))) in Hx; [eapply Ft; [exact Hx|arith]|eauto|split; cbn; auto|constructor; [eapply get_op_arith; eauto|constructor]].
    - (* expr_loop *) rewrite expr_loop_S in Hx. match goal with Q : exists ts0, _ |- _ => destruct Q as [ts0 Eo] end. destruct (stops o) eqn:So.
      + pure Hx. apply A_unwind with (2 := K) in P0 as [K1 L1]; [|assumption]. destruct (end_logical _ _ _ _ _) as [[st2 b2]|] eqn:E2; [|discriminate].
        apply A_end with (2 := K1) in E2 as [K2 L2]; [|assumption]. done Hx K2.
      + destruct (reduce _ _ _ _ _) as [[ops1 st1]|] eqn:E1; [|discriminate]. apply A_reduce with (2 := K) in E1 as (K1 & L1 & F1); [|assumption].
        match type of Hx with match ?x with _ => _ end = _ => destruct x as [[[st2 b2] l2]|] eqn:E2; [|discriminate Hx] end.
        assert (Q : more P z st2 b2 l2 /\ le2 st1 st2) by (destruct (is_logical o); [eapply A_next|eapply A_leave]; eassumption).
        destruct Q as [(Q & S & K2 & B2) L2]. clear K. reader Hx K2 N IH.
        match type of Hx with match ?x with _ => _ end = _ => destruct x as [ops2|] eqn:E4; [|discriminate Hx] end.
        assert (F2 : Forall arith_op ops2).
        { destruct (is_logical o) eqn:Lo; [apply some_inj in E4; subst; exact F1|]. destruct (_ <? _)%nat; [|discriminate]. apply some_inj in E4. subst. constructor; [eapply get_op_arith; eauto|exact F1]. }
        match type of Hx with context [get_operator ?x] => destruct (get_operator x) as [op' ts2] eqn:Eo' end.
        apply (proj1 (proj2 (proj2 (proj2 (proj2 (proj2 (proj2 (proj2 (IH _ _ _ _ (conj K2 N)))))))))) in Hx; [|eauto|exact B2|exact F2].
        destruct Hx as [[K4 N4] L4]. split; [split; [|exact N4]|arith]. eapply A_sub; [exact K4|apply (a_nodup _ _ _ _ K1)|exact S].
    - (* read_ternary *) rewrite read_ternary_S in Hx. destruct (lex_accept T_question ts); [|done Hx K]. pose proof (A_cur _ _ _ _ K) as Cb. cbv zeta in Hx.
      stp Hx K. stp Hx K. stp Hx K. stp Hx K. stp Hx K. stp Hx K. stp Hx K. stp Hx K. stp Hx K.
      apply (A_pick z [n3; n2] n1 P), A_switch with (z' := false) in K. cbn [app] in K.
      reader Hx K N IH. pose proof (A_nonzero _ _ _ K). stp Hx K. pure Hx. stp Hx K. stp Hx K. stp Hx K. stp Hx K.
      apply (A_pick false [n3] n2 P), A_switch with (z' := false) in K. cbn [app] in K.
      reader Hx K N IH. pose proof (A_nonzero _ _ _ K). stp Hx K. stp Hx K. stp Hx K. stp Hx K. apply A_switch with (z' := z) in K. done Hx K.
  Qed.
  End Readers.
End Expr.
