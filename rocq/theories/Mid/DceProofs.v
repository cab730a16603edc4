From Verif.Mid Require Import Insn Edges EdgesProofs Dom Dce DceSpec CfgProofs LiveSpec.

Lemma tail_of_app l x : tail_of (l ++ [x]) = Some x.
Proof. induction l as [|y l IH]; [reflexivity|]. cbn. destruct (l ++ [x]) eqn:E; [destruct l; discriminate|exact IH]. Qed.
Lemma tail_final l : tail_of l = final l.
Proof.
  destruct l as [|x l] using rev_ind; [reflexivity|]. rewrite tail_of_app. unfold final. rewrite rev_app_distr. reflexivity.
Qed.
Lemma final_split {A} (l : list A) x : final l = Some x -> exists l', l = l' ++ [x].
Proof.
  unfold final. intros H. destruct l as [|y l _] using rev_ind; [discriminate|]. rewrite rev_app_distr in H. injection H as ->. eauto.
Qed.
Lemma final_In {A} (l : list A) x : final l = Some x -> In x l.
Proof. intros H. destruct (final_split _ _ H) as (l' & ->). apply in_or_app. right. left. reflexivity. Qed.
Lemma bind_done {A B} (x : outcome A) (f : A -> outcome B) y : bind x f = Done y -> exists a, x = Done a /\ f a = Done y.
Proof. destruct x; cbn; try discriminate. eauto. Qed.

Section Mark.
  Variable ins : nat -> insn.
  Variable own : nat -> nat.
  Variable code : nat -> list nat.
  Variable is_global : nat -> bool.
  Variable last : nat -> option nat.
  Variable rdf : nat -> list nat.
  Hypothesis Hown : forall b i, In i (code b) -> own i = b.
  Hypothesis Hret : forall i v, op ins i = OP_func_ret -> ~ reads (ins i) v.

  Definition closedD (u : nat -> bool) (i : nat) : Prop := forall v j, reads (ins i) v -> last v = Some j -> u j = true.
  Definition closedC (u : nat -> bool) (b : nat) : Prop :=
    forall r t, In r (rdf b) -> tail_of (code r) = Some t -> op ins t = OP_branch -> u t = true.
  Record inv (u ub : nat -> bool) (pend : list nat) : Prop := mkinv {
    v_data : forall i, u i = true -> In i pend \/ closedD u i;
    v_ctrl : forall i, u i = true -> (exists j, In j pend /\ own j = own i) \/ closedC u (own i);
    v_block : forall i, u i = true -> ub (own i) = true;
    v_insn : forall b, ub b = true -> exists i, u i = true /\ own i = b }.
  Definition le (u u' : nat -> bool) : Prop := forall i, u i = true -> u' i = true.
  Lemma upd_le (u : nat -> bool) i : le u (upd u i true).
  Proof. intros j H. unfold upd. destruct (Nat.eqb j i); auto. Qed.
  Lemma le_refl (u : nat -> bool) : le u u. Proof. intros i H. exact H. Qed.
  Lemma le_trans (u v w : nat -> bool) : le u v -> le v w -> le u w. Proof. intros A B i H. auto. Qed.
  Lemma closedD_le u u' i : le u u' -> closedD u i -> closedD u' i.
  Proof. intros L C v j R E. apply L. eapply C; eassumption. Qed.
  Lemma closedC_le u u' b : le u u' -> closedC u b -> closedC u' b.
  Proof. intros L C r t I E B. apply L. eapply C; eassumption. Qed.

  (** marking a new instruction: its block is marked (or was), and it is put on the list, or reads nothing and shares its
      block with an instruction on the list *)
  Lemma inv_mark u ub pend i ub' pend' : inv u ub pend -> incl pend pend' ->
    (In i pend' \/ (forall v, ~ reads (ins i) v)) -> (exists j, In j pend' /\ own j = own i) ->
    (forall b, ub' b = true <-> ub b = true \/ b = own i) -> inv (upd u i true) ub' pend'.
  Proof.
    intros [D C B I] P A A' U. assert (L := upd_le u i). split.
    - intros j Hj. unfold upd in Hj. destruct (Nat.eqb_spec j i) as [Eq|N]; [subst j|].
      + destruct A as [A|A]; [auto|]. right. intros v k R. destruct (A v R).
      + destruct (D j Hj) as [Q|Q]; [left; apply P, Q|right; eapply closedD_le; eassumption].
    - intros j Hj. unfold upd in Hj. destruct (Nat.eqb_spec j i) as [Eq|N]; [subst j; auto|].
      destruct (C j Hj) as [(k & Ik & E)|Q]; [left; exists k; auto|right; eapply closedC_le; eassumption].
    - intros j Hj. apply U. unfold upd in Hj. destruct (Nat.eqb_spec j i) as [Eq|N]; [subst j|]; auto.
    - intros b Hb. apply U in Hb as [Hb| ->].
      + destruct (I b Hb) as (j & Hj & E). exists j. split; [apply L, Hj|exact E].
      + exists i. rewrite upd_same. auto.
  Qed.
  Lemma inv_pend u ub pend pend' : inv u ub pend -> incl pend pend' -> inv u ub pend'.
  Proof.
    intros [D C B I] P. split; auto.
    - intros i Hi. destruct (D i Hi); auto.
    - intros i Hi. destruct (C i Hi) as [(j & Ij & E)|Q]; [left; exists j; auto|auto].
  Qed.

  Definition ext (s s' : dce) : Prop := le (d_useful s) (d_useful s') /\ incl (d_work s) (d_work s').
  Lemma ext_refl s : ext s s. Proof. split; [apply le_refl|apply incl_refl]. Qed.
  Lemma ext_trans s t r : ext s t -> ext t r -> ext s r.
  Proof. intros [A B] [C D]. split; [eapply le_trans; eassumption|eapply incl_tran; eassumption]. Qed.
  (** marking, then pushing *)
  Lemma add_spec i s s' E : push i (mark_block (own i) (mark i s)) = Done s' ->
    inv (d_useful s) (d_block s) (E ++ d_work s) ->
    inv (d_useful s') (d_block s') (E ++ d_work s') /\ ext s s' /\ d_useful s' i = true /\ d_useful s' = upd (d_useful s) i true.
  Proof.
    unfold push. destruct (Nat.ltb _ _); [|discriminate]. intros [= <-] V. cbn.
    assert (W : incl (E ++ d_work s) (E ++ i :: d_work s)).
    { intros x Hx. apply in_app_iff in Hx. apply in_or_app. cbn. tauto. }
    assert (Ii : In i (E ++ i :: d_work s)) by (apply in_or_app; right; left; reflexivity).
    split; [|split; [|split; [apply upd_same|reflexivity]]].
    - eapply inv_mark; [exact V|exact W|auto|eauto|]. intros b. unfold upd. destruct (Nat.eqb_spec b (own i)); tauto.
    - split; [apply upd_le|]. cbn. intros x Hx. right. exact Hx.
  Qed.
  Lemma push_spec i s s' E : push i s = Done s' -> inv (d_useful s) (d_block s) (E ++ d_work s) ->
    inv (d_useful s') (d_block s') (E ++ d_work s') /\ ext s s' /\ d_useful s' = d_useful s.
  Proof.
    unfold push. destruct (Nat.ltb _ _); [|discriminate]. intros [= <-] V. cbn. split; [|split; [|reflexivity]].
    - eapply inv_pend; [exact V|]. intros x Hx. apply in_app_iff in Hx. apply in_or_app. cbn. tauto.
    - split; [apply le_refl|]. cbn. intros x Hx. right. exact Hx.
  Qed.
  Lemma mark_pushes_spec b : forall before s s', mark_pushes ins before s = Done s' ->
    (forall p, In p before -> own p = b) -> d_block s b = true ->
    inv (d_useful s) (d_block s) (d_work s) ->
    inv (d_useful s') (d_block s') (d_work s') /\ ext s s' /\
    (forall p l1 l2, before = l1 ++ p :: l2 -> (forall q, In q (l1 ++ [p]) -> op ins q = OP_push) -> d_useful s' p = true).
  Proof.
    induction before as [|p r IH]; intros s s' E O Hb V; cbn [mark_pushes] in E.
    - injection E as <-. split; [exact V|]. split; [apply ext_refl|]. intros p l1 l2 Q. destruct l1; discriminate.
    - destruct (opcode_eq_dec (op ins p) OP_push) as [Hp|Hp].
      + apply bind_done in E as (s1 & E1 & E). unfold push in E1. destruct (Nat.ltb _ _) in E1; [|discriminate]. injection E1 as <-.
        apply IH in E; [|intros q Iq; apply O; right; exact Iq|exact Hb|].
        * destruct E as (V' & [L W] & P). split; [exact V'|]. split; [split|].
          -- intros x Hx. apply L. cbn. apply upd_le. exact Hx.
          -- intros x Hx. apply W. cbn. right. exact Hx.
          -- intros q l1 l2 Q A. destruct l1 as [|y l1]; cbn in Q; injection Q as <- Q.
             ++ apply L. cbn. apply upd_same.
             ++ eapply P; [exact Q|]. intros z Iz. apply A. right. exact Iz.
        * cbn. eapply inv_mark; [exact V| |left; left; reflexivity|exists p; split; [left; reflexivity|reflexivity]|].
          -- intros x Hx. right. exact Hx.
          -- rewrite (O p (or_introl eq_refl)). intros c. split; [auto|]. intros [Q| ->]; assumption.
      + injection E as <-. split; [exact V|]. split; [apply ext_refl|]. intros q l1 l2 Q A. destruct Hp.
        destruct l1 as [|y l1]; cbn in Q; injection Q as <- Q; apply A; left; reflexivity.
  Qed.

  Definition init_useful (before : list nat) (i : nat) (after : list nat) (u : nat -> bool) : Prop :=
    (In (op ins i) [OP_return; OP_write; OP_address_of; OP_unwound_phi; OP_allocat; OP_call; OP_indirect] -> u i = true) /\
    (forall v, i_rd (ins i) = Some v -> is_global v = true -> u i = true) /\
    (is_call (op ins i) = true ->
      (forall n r, after = n :: r -> op ins n = OP_func_ret -> u n = true) /\
      (forall p l1 l2, before = l1 ++ p :: l2 -> (forall q, In q (l1 ++ [p]) -> op ins q = OP_push) -> u p = true)).
  Lemma init_useful_le before i after u u' : le u u' -> init_useful before i after u -> init_useful before i after u'.
  Proof.
    intros L (A & B & C). split; [auto|]. split; [eauto|]. intros K. destruct (C K) as [C1 C2]. split; eauto.
  Qed.
  Lemma init_mark_spec b before i after s s' : dce_init_mark ins own is_global before i after s = Done s' ->
    (forall p, In p (before ++ i :: after) -> own p = b) ->
    inv (d_useful s) (d_block s) (d_work s) ->
    inv (d_useful s') (d_block s') (d_work s') /\ ext s s' /\ init_useful before i after (d_useful s').
  Proof.
    intros E O V.
    assert (Oi : own i = b) by (apply O, in_or_app; right; left; reflexivity).
    assert (A : push i (mark_block (own i) (mark i s)) = Done s' -> is_call (op ins i) = false ->
      inv (d_useful s') (d_block s') (d_work s') /\ ext s s' /\ init_useful before i after (d_useful s')).
    { intros E' N. destruct (add_spec i s s' [] E' V) as (V' & X & U & _). split; [exact V'|]. split; [exact X|].
      split; [auto|]. split; [auto|]. intros K. congruence. }
    assert (C : is_call (op ins i) = true ->
      (do s <- push i (mark_block (own i) (mark i s));
       do s <- match after with n :: _ => if opcode_eq_dec (op ins n) OP_func_ret then push i (mark n s) else Done s | [] => Done s end;
       mark_pushes ins before s) = Done s' ->
      inv (d_useful s') (d_block s') (d_work s') /\ ext s s' /\ init_useful before i after (d_useful s')).
    { clear E A. intros K E. apply bind_done in E as (s1 & E1 & E). apply bind_done in E as (s2 & E2 & E).
      destruct (add_spec i s s1 [] E1 V) as (V1 & X1 & U1 & Q1). cbn [app] in V1.
      assert (Ii : In i (d_work s1)). { unfold push in E1. destruct (Nat.ltb _ _) in E1; [|discriminate]. injection E1 as <-. left. reflexivity. }
      assert (H2 : inv (d_useful s2) (d_block s2) (d_work s2) /\ ext s1 s2 /\
                   (forall n r, after = n :: r -> op ins n = OP_func_ret -> d_useful s2 n = true)).
      { destruct after as [|n r]; [injection E2 as <-; split; [exact V1|split; [apply ext_refl|discriminate]]|].
        destruct (opcode_eq_dec (op ins n) OP_func_ret) as [Hn|Hn].
        - unfold push in E2. destruct (Nat.ltb _ _) in E2; [|discriminate]. injection E2 as <-. cbn. split; [|split].
          + eapply inv_mark; [exact V1| | | |].
            * intros x Hx. right. exact Hx.
            * right. intros v. apply Hret. exact Hn.
            * exists i. split; [left; reflexivity|]. rewrite Oi. symmetry. apply O, in_or_app. right. right. left. reflexivity.
            * assert (On : own n = b) by (apply O, in_or_app; right; right; left; reflexivity). rewrite On. intros c. split; [auto|].
              intros [Hc| ->]; [exact Hc|]. rewrite <- Oi. apply (v_block _ _ _ V1). exact U1.
          + split; [apply upd_le|]. intros x Hx. right. exact Hx.
          + intros n' r' [= <- <-] _. apply upd_same.
        - injection E2 as <-. split; [exact V1|]. split; [apply ext_refl|]. intros n' r' [= <- <-] Q. contradiction. }
      destruct H2 as (V2 & X2 & P2).
      destruct (mark_pushes_spec b before s2 s' E) as (V3 & X3 & P3); [| |exact V2|].
      - intros p Ip. apply O, in_or_app. left. exact Ip.
      - rewrite <- Oi. apply (v_block _ _ _ V2). apply X2. exact U1.
      - split; [exact V3|]. split; [eapply ext_trans; [exact X1|]; eapply ext_trans; eassumption|].
        assert (Ui : d_useful s' i = true) by (apply X3, X2, U1).
        split; [auto|]. split; [auto|]. intros _. split; [|exact P3]. intros n r En Hn. apply X3. eapply P2; eassumption. }
    assert (D : match i_rd (ins i) with
                | None => Done s
                | Some v => if is_global v && negb (d_useful s i) then push i (mark_block (own i) (mark i s)) else Done s
                end = Done s' ->
                ~ In (op ins i) [OP_return; OP_write; OP_address_of; OP_unwound_phi; OP_allocat; OP_call; OP_indirect] ->
      inv (d_useful s') (d_block s') (d_work s') /\ ext s s' /\ init_useful before i after (d_useful s')).
    { clear E C. intros E N.
      assert (NC : is_call (op ins i) = false).
      { destruct (is_call (op ins i)) eqn:K; [|reflexivity]. destruct N. destruct (op ins i); try discriminate K; cbn; tauto. }
      destruct (i_rd (ins i)) as [v|] eqn:Er.
      - destruct (is_global v) eqn:G; cbn [andb] in E.
        + destruct (d_useful s i) eqn:U; cbn [negb] in E; [|auto]. injection E as <-. split; [exact V|]. split; [apply ext_refl|].
          split; [tauto|]. split; [auto|]. congruence.
        + injection E as <-. split; [exact V|]. split; [apply ext_refl|]. split; [tauto|]. split; [congruence|]. congruence.
      - injection E as <-. split; [exact V|]. split; [apply ext_refl|]. split; [tauto|]. split; [congruence|]. congruence. }
    unfold dce_init_mark in E. unfold is_call in *.
    destruct (op ins i) eqn:Eo; auto; apply D; try exact E; cbn; intuition discriminate.
  Qed.
  Lemma dce_init_spec b : forall l before s s', dce_init ins own is_global before l s = Done s' ->
    (forall p, In p (rev before ++ l) -> own p = b) ->
    inv (d_useful s) (d_block s) (d_work s) ->
    inv (d_useful s') (d_block s') (d_work s') /\ ext s s' /\
    (forall l1 i l2, l = l1 ++ i :: l2 -> init_useful (rev l1 ++ before) i l2 (d_useful s')).
  Proof.
    induction l as [|i r IH]; intros before s s' E O V; cbn [dce_init] in E.
    - injection E as <-. split; [exact V|]. split; [apply ext_refl|]. intros [|? ?] ? ? Q; discriminate.
    - apply bind_done in E as (s1 & E1 & E). destruct (Nat.ltb _ _) in E; [discriminate|].
      destruct (init_mark_spec b before i r s s1 E1) as (V1 & X1 & U1); [|exact V|].
      { intros p Ip. apply O. rewrite in_app_iff in *. rewrite <- in_rev. exact Ip. }
      destruct (IH (i :: before) s1 s' E) as (V2 & X2 & U2); [|exact V1|].
      { cbn [rev]. rewrite <- app_assoc. exact O. }
      split; [exact V2|]. split; [eapply ext_trans; eassumption|]. intros l1 j l2 Q. destruct l1 as [|y l1]; cbn in Q; injection Q as <- Q.
      + subst l2. cbn [rev app]. eapply init_useful_le; [apply X2|exact U1].
      + cbn [rev]. rewrite <- app_assoc. exact (U2 l1 j l2 Q).
  Qed.

  Lemma trace_back_spec o s s' E : trace_back own last o s = Done s' -> inv (d_useful s) (d_block s) (E ++ d_work s) ->
    inv (d_useful s') (d_block s') (E ++ d_work s') /\ ext s s' /\
    (forall v j, o = Some v -> last v = Some j -> d_useful s' j = true).
  Proof.
    unfold trace_back. intros H V. assert (R : s' = s -> inv (d_useful s') (d_block s') (E ++ d_work s') /\ ext s s').
    { intros ->. split; [exact V|apply ext_refl]. }
    destruct o as [v|]; [|injection H as <-; destruct (R eq_refl); split; [assumption|split; [assumption|discriminate]]].
    destruct (last v) as [j|] eqn:El.
    - destruct (d_useful s j) eqn:U.
      + injection H as <-. destruct (R eq_refl). split; [assumption|]. split; [assumption|]. intros v' j' [= <-] E'. congruence.
      + destruct (add_spec j s s' E H V) as (V' & X & Uj & _). split; [exact V'|]. split; [exact X|]. intros v' j' [= <-] E'. congruence.
    - injection H as <-. destruct (R eq_refl). split; [assumption|]. split; [assumption|]. intros v' j' [= <-] E'. congruence.
  Qed.
  Lemma mark_branches_spec E : forall l s s', mark_branches ins code l s = Done s' -> inv (d_useful s) (d_block s) (E ++ d_work s) ->
    inv (d_useful s') (d_block s') (E ++ d_work s') /\ ext s s' /\
    (forall r t, In r l -> tail_of (code r) = Some t -> op ins t = OP_branch -> d_useful s' t = true).
  Proof.
    induction l as [|r l IH]; intros s s' H V; cbn [mark_branches] in H.
    - injection H as <-. split; [exact V|]. split; [apply ext_refl|]. intros ? ? [].
    - destruct (tail_of (code r)) as [t|] eqn:Et; [|discriminate].
      assert (Ot : own t = r) by (apply Hown; rewrite tail_final in Et; apply final_In; exact Et).
      assert (K : exists s1, mark_branches ins code l s1 = Done s' /\ inv (d_useful s1) (d_block s1) (E ++ d_work s1) /\ ext s s1 /\
                  (op ins t = OP_branch -> d_useful s1 t = true)).
      { destruct (opcode_eq_dec (op ins t) OP_branch) as [B|B]; [|exists s; split; [exact H|split; [exact V|split; [apply ext_refl|contradiction]]]].
        destruct (d_useful s t) eqn:U; [exists s; split; [exact H|split; [exact V|split; [apply ext_refl|auto]]]|].
        apply bind_done in H as (s1 & E1 & H). rewrite <- Ot in E1. destruct (add_spec t s s1 E E1 V) as (V1 & X1 & U1 & _).
        exists s1. split; [exact H|]. split; [exact V1|]. split; [exact X1|auto]. }
      destruct K as (s1 & H1 & V1 & X1 & U1). destruct (IH s1 s' H1 V1) as (V2 & X2 & U2).
      split; [exact V2|]. split; [eapply ext_trans; eassumption|]. intros r' t' [<-|I] E' B'.
      + assert (t' = t) by congruence. subst t'. apply X2. auto.
      + eapply U2; eassumption.
  Qed.
  Lemma dce_loop_spec : forall n s s', dce_loop ins own code last rdf n s = Done s' ->
    inv (d_useful s) (d_block s) (d_work s) ->
    inv (d_useful s') (d_block s') [] /\ le (d_useful s) (d_useful s').
  Proof.
    induction n as [|n IH]; intros s s' H V; cbn [dce_loop] in H; [discriminate|].
    destruct (d_work s) as [|c w] eqn:W; [injection H as <-; split; [exact V|apply le_refl]|].
    apply bind_done in H as (s1 & E1 & H). apply bind_done in H as (s2 & E2 & H). apply bind_done in H as (s3 & E3 & H).
    destruct (trace_back_spec _ _ _ [c] E1) as (V1 & X1 & U1); [exact V|].
    destruct (trace_back_spec _ _ _ [c] E2 V1) as (V2 & X2 & U2).
    destruct (mark_branches_spec [c] _ _ _ E3 V2) as (V3 & X3 & U3).
    assert (Cd : closedD (d_useful s3) c).
    { intros v j [R|R] E; [apply X3, X2; eapply U1; eassumption|apply X3; eapply U2; eassumption]. }
    assert (Cc : closedC (d_useful s3) (own c)) by (intros r t I E B; eapply U3; eassumption).
    assert (V4 : inv (d_useful s3) (d_block s3) (d_work s3)).
    { destruct V3 as [D C B I]. split; auto.
      - intros i Hi. destruct (D i Hi) as [[<-|Q]|Q]; auto.
      - intros i Hi. destruct (C i Hi) as [(j & [<-|Q] & E)|Q]; [right; rewrite <- E; exact Cc|left; eauto|auto]. }
    destruct (IH s3 s' H V4) as [V5 L5]. split; [exact V5|]. eapply le_trans; [|exact L5].
    eapply le_trans; [|apply X3]. eapply le_trans; [|apply X2]. exact (proj1 X1).
  Qed.
  Lemma dce_insn_spec n b s s' : dce_insn ins own code is_global last rdf n b s = Done s' -> inv (d_useful s) (d_block s) [] ->
    inv (d_useful s') (d_block s') [] /\ le (d_useful s) (d_useful s') /\
    (forall l1 i l2, code b = l1 ++ i :: l2 -> init_useful (rev l1) i l2 (d_useful s')).
  Proof.
    unfold dce_insn. intros H V. apply bind_done in H as (s1 & E1 & H).
    destruct (dce_init_spec b (code b) [] _ _ E1) as (V1 & X1 & U1).
    { cbn [rev app]. intros p Ip. apply Hown. exact Ip. }
    { cbn. exact V. }
    destruct (dce_loop_spec n s1 s' H V1) as (V2 & L2). split; [exact V2|]. split; [eapply le_trans; [apply X1|exact L2]|].
    intros l1 i l2 E. specialize (U1 l1 i l2 E). rewrite app_nil_r in U1. eapply init_useful_le; eassumption.
  Qed.
  Theorem dce_blocks_spec n : forall order s s', dce_blocks ins own code is_global last rdf n order s = Done s' -> inv (d_useful s) (d_block s) [] ->
    inv (d_useful s') (d_block s') [] /\ le (d_useful s) (d_useful s') /\
    (forall b l1 i l2, In b order -> code b = l1 ++ i :: l2 -> init_useful (rev l1) i l2 (d_useful s')).
  Proof.
    induction order as [|b r IH]; intros s s' H V; cbn [dce_blocks] in H.
    - injection H as <-. split; [exact V|]. split; [apply le_refl|]. intros ? ? ? ? [].
    - apply bind_done in H as (s1 & E1 & H). destruct (dce_insn_spec n b s s1 E1 V) as (V1 & L1 & U1).
      destruct (IH s1 s' H V1) as (V2 & L2 & U2). split; [exact V2|]. split; [eapply le_trans; eassumption|].
      intros c l1 i l2 [<-|I] E; [|eapply U2; eassumption]. eapply init_useful_le; [exact L2|]. apply U1. exact E.
  Qed.
End Mark.
