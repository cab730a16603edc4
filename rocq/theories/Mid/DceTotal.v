(** Dead code elimination ends normally when the function fits the work list and the predecessor tables. *)
From Verif.Mid Require Import Insn Edges EdgesProofs Graph Dom Dce DceSpec CfgProofs DceProofs DceSweep DceGraph LiveSpec.

Section Total.
  Variable ins : nat -> insn.
  Variable own : nat -> nat.
  Variable code : nat -> list nat.
  Variable is_global : nat -> bool.
  Variable last : nat -> option nat.
  Variable rdf : nat -> list nat.
  Variable U : list nat.
  Hypothesis Hlast : forall v j, last v = Some j -> In j U.
  Hypothesis Hcode : forall b i, In i (code b) -> In i U.
  Hypothesis Htail : forall x r, In r (rdf x) -> code r <> [].

  Definition cnt (u : nat -> bool) : nat := length (filter (fun i => negb (u i)) U).
  Lemma cnt_upd u i : In i U -> u i = false -> (cnt (upd u i true) < cnt u)%nat.
  Proof.
    intros I Ui. unfold cnt. apply filter_lt with (b := i); [exact I| | |].
    - rewrite Ui. reflexivity.
    - rewrite upd_same. reflexivity.
    - intros x _ H. unfold upd in H. destruct (Nat.eqb x i); [discriminate|exact H].
  Qed.
  Lemma cnt_le u i : (cnt (upd u i true) <= cnt u)%nat.
  Proof. unfold cnt. apply filter_le. intros x _ H. unfold upd in H. destruct (Nat.eqb x i); [discriminate|exact H]. Qed.
  Lemma cnt_max u : (cnt u <= length U)%nat.
  Proof. unfold cnt. generalize U. intros l. induction l as [|x l IH]; cbn; [lia|]. destruct (negb (u x)); cbn; lia. Qed.
  Definition pot (s : dce) : nat := (length (d_work s) + cnt (d_useful s))%nat.

  Lemma push_ok i s : (length (d_work s) < 2048)%nat -> push i s = Done (mkdce (d_useful s) (d_block s) (i :: d_work s)).
  Proof. intros H. unfold push. apply Nat.ltb_lt in H. rewrite H. reflexivity. Qed.
  Lemma add_total j b s : In j U -> d_useful s j = false -> (pot s <= 2047)%nat ->
    exists s', push j (mark_block b (mark j s)) = Done s' /\ (pot s' <= pot s)%nat.
  Proof.
    intros I Uj P. pose proof (cnt_upd _ _ I Uj) as C. unfold pot in P. rewrite push_ok by (cbn; lia). eexists. split; [reflexivity|].
    unfold pot. cbn. lia.
  Qed.
  Lemma trace_total o s : (pot s <= 2047)%nat -> exists s', trace_back own last o s = Done s' /\ (pot s' <= pot s)%nat.
  Proof.
    intros P. unfold trace_back. destruct o as [v|]; [|eauto]. destruct (last v) as [j|] eqn:E; [|eauto].
    destruct (d_useful s j) eqn:Uj; [eauto|]. apply add_total; [eapply Hlast; exact E|exact Uj|exact P].
  Qed.
  Lemma branches_total : forall l s, (forall r, In r l -> code r <> []) -> (pot s <= 2047)%nat ->
    exists s', mark_branches ins code l s = Done s' /\ (pot s' <= pot s)%nat.
  Proof.
    induction l as [|r l IH]; intros s Hr P; cbn [mark_branches]; [eauto|].
    destruct (tail_of (code r)) as [t|] eqn:Et.
    - assert (It : In t U) by (apply (Hcode r), final_In; rewrite <- tail_final; exact Et).
      assert (Hl : forall r', In r' l -> code r' <> []) by (intros r' I; apply Hr; right; exact I).
      destruct (opcode_eq_dec (op ins t) OP_branch); [|apply IH; assumption]. destruct (d_useful s t) eqn:Ut; [apply IH; assumption|].
      destruct (add_total t r s It Ut P) as (s1 & E1 & P1). rewrite E1. cbn [bind]. destruct (IH s1 Hl) as (s2 & E2 & P2); [lia|].
      exists s2. split; [exact E2|lia].
    - exfalso. apply (Hr r (or_introl eq_refl)). rewrite tail_final in Et. unfold final in Et. destruct (code r) as [|x l' _] using rev_ind; [reflexivity|].
      rewrite rev_app_distr in Et. discriminate.
  Qed.
  Lemma loop_total : forall n s, (pot s < n)%nat -> (pot s <= 2047)%nat -> exists s', dce_loop ins own code last rdf n s = Done s'.
  Proof.
    induction n as [|n IH]; intros s L P; [lia|]. cbn [dce_loop]. destruct (d_work s) as [|c w] eqn:W; [eauto|].
    assert (P0 : pot s = S (pot (mkdce (d_useful s) (d_block s) w))) by (unfold pot; rewrite W; reflexivity).
    destruct (trace_total (i_rs1 (ins c)) (mkdce (d_useful s) (d_block s) w)) as (s1 & E1 & P1); [lia|]. rewrite E1. cbn [bind].
    destruct (trace_total (i_rs2 (ins c)) s1) as (s2 & E2 & P2); [lia|]. rewrite E2. cbn [bind].
    destruct (branches_total (rdf (own c)) s2 (Htail (own c))) as (s3 & E3 & P3); [lia|]. rewrite E3. cbn [bind].
    apply IH; lia.
  Qed.

  Fixpoint run_len (l : list nat) : nat := match l with [] => 0 | p :: r => if opcode_eq_dec (op ins p) OP_push then S (run_len r) else 0 end.
  Lemma pushes_total : forall l s, (length (d_work s) + run_len l <= 2048)%nat ->
    exists s', mark_pushes ins l s = Done s' /\ length (d_work s') = (length (d_work s) + run_len l)%nat.
  Proof.
    induction l as [|p r IH]; intros s L; cbn [mark_pushes run_len] in *; [exists s; split; [reflexivity|lia]|].
    destruct (opcode_eq_dec (op ins p) OP_push); [|exists s; split; [reflexivity|lia]].
    rewrite push_ok by (cbn; lia). cbn [bind]. destruct (IH (mkdce (d_useful (mark p s)) (d_block (mark p s)) (p :: d_work (mark p s)))) as (s' & E & Q); [cbn; lia|].
    exists s'. split; [exact E|]. rewrite Q. cbn. lia.
  Qed.
  Lemma init_mark_total before i after s : (length (d_work s) + run_len before + 2 <= 2048)%nat ->
    exists s', dce_init_mark ins own is_global before i after s = Done s' /\
      (length (d_work s') + run_len (i :: before) <= length (d_work s) + run_len before + 2)%nat.
  Proof.
    intros L.
    assert (P1 : forall s', (length (d_work s') <= length (d_work s) + 1)%nat -> (length (d_work s') + run_len (i :: before) <= length (d_work s) + run_len before + 2)%nat).
    { intros s' Q. cbn [run_len]. destruct (opcode_eq_dec (op ins i) OP_push); lia. }
    assert (A : exists s', push i (mark_block (own i) (mark i s)) = Done s' /\ (length (d_work s') <= length (d_work s) + 1)%nat).
    { rewrite push_ok by (cbn; lia). eexists. split; [reflexivity|]. cbn. lia. }
    assert (C : is_call (op ins i) = true -> exists s', (do s <- push i (mark_block (own i) (mark i s));
       do s <- match after with n :: _ => if opcode_eq_dec (op ins n) OP_func_ret then push i (mark n s) else Done s | [] => Done s end;
       mark_pushes ins before s) = Done s' /\ (length (d_work s') + run_len (i :: before) <= length (d_work s) + run_len before + 2)%nat).
    { intros K. rewrite push_ok by (cbn; lia). cbn [bind]. set (s1 := mkdce _ _ _).
      assert (Q : exists s2, match after with n :: _ => if opcode_eq_dec (op ins n) OP_func_ret then push i (mark n s1) else Done s1 | [] => Done s1 end = Done s2 /\
                  (length (d_work s2) <= length (d_work s) + 2)%nat).
      { destruct after as [|x r]; [exists s1; split; [reflexivity|cbn; lia]|]. destruct (opcode_eq_dec (op ins x) OP_func_ret).
        - rewrite push_ok by (cbn; lia). eexists. split; [reflexivity|]. cbn. lia.
        - exists s1. split; [reflexivity|cbn; lia]. }
      destruct Q as (s2 & E2 & L2). rewrite E2. cbn [bind]. destruct (pushes_total before s2) as (s3 & E3 & L3); [lia|]. exists s3. split; [exact E3|].
      cbn [run_len]. destruct (opcode_eq_dec (op ins i) OP_push) as [Q|_]; [rewrite Q in K; discriminate|]. lia. }
    assert (D : exists s', match i_rd (ins i) with
        | None => Done s
        | Some v => if is_global v && negb (d_useful s i) then push i (mark_block (own i) (mark i s)) else Done s
        end = Done s' /\ (length (d_work s') <= length (d_work s) + 1)%nat).
    { destruct (i_rd (ins i)) as [v|]; [destruct (_ && _); [exact A|]|]; exists s; split; try reflexivity; lia. }
    destruct A as (sa & Ea & La). destruct D as (sd & Ed & Ld).
    unfold dce_init_mark, is_call in *. destruct (op ins i); try (exists sa; split; [exact Ea|apply P1; exact La]);
      try (exists sd; split; [exact Ed|apply P1; exact Ld]); apply C; reflexivity.
  Qed.
  Lemma init_total : forall l before s, (length (d_work s) + run_len before <= 2 * length before)%nat ->
    (2 * (length before + length l) <= 2047)%nat ->
    exists s', dce_init ins own is_global before l s = Done s' /\ (length (d_work s') <= 2 * (length before + length l))%nat.
  Proof.
    induction l as [|i r IH]; intros before s A L; cbn [dce_init]; [exists s; split; [reflexivity|lia]|].
    cbn [length] in L. destruct (init_mark_total before i r s) as (s1 & E1 & L1); [lia|]. rewrite E1. cbn [bind].
    destruct (Nat.ltb_spec 2047 (length (d_work s1))); [lia|].
    destruct (IH (i :: before) s1) as (s2 & E2 & L2); [cbn [length]; lia|cbn [length]; lia|]. exists s2. split; [exact E2|]. cbn [length] in *. lia.
  Qed.
  Lemma insn_total n b s : (2 * length (code b) + length U <= 2047)%nat -> (2047 < n)%nat ->
    exists s', dce_insn ins own code is_global last rdf n b s = Done s'.
  Proof.
    intros L N. unfold dce_insn. destruct (init_total (code b) [] (mkdce (d_useful s) (d_block s) [])) as (s1 & E1 & L1); [cbn; lia|cbn; lia|].
    rewrite E1. cbn [bind]. pose proof (cnt_max (d_useful s1)). cbn [length] in L1. apply loop_total; unfold pot; lia.
  Qed.
  Theorem blocks_total n : (2047 < n)%nat -> forall order s, (forall b, In b order -> (2 * length (code b) + length U <= 2047)%nat) ->
    exists s', dce_blocks ins own code is_global last rdf n order s = Done s'.
  Proof.
    intros N. induction order as [|b r IH]; intros s L; cbn [dce_blocks]; [eauto|].
    destruct (insn_total n b s (L b (or_introl eq_refl)) N) as (s1 & E1). rewrite E1. cbn [bind]. apply IH. intros c I. apply L. right. exact I.
  Qed.
End Total.

Lemma pdom_antisym S e a b : dominates S e a b -> dominates S e b a -> reach S e a -> a = b.
Proof.
  intros A B R. destruct (Nat.eq_dec a b) as [E|N]; [exact E|]. destruct (walk_avoid S e a b A N R) as (l & W & NI). destruct (NI (B l W)).
Qed.

Section SweepTotal.
  Variable ins : nat -> insn.
  Variable code : nat -> list nat.
  Variable S : nat -> list nat.            (* the predecessors *)
  Variable exit : nat.
  Variable ridom : nat -> option nat.
  Variable s : dce.
  Variable B : list nat.
  Hypothesis Hidom : forall b, reach S exit b -> b <> exit -> exists d, ridom b = Some d /\ reach S exit d /\ immediate_dominator S exit d b.
  Hypothesis HB : forall b, reach S exit b -> In b B.

  Lemma redirect_total b g (C : forall d, exists g', bb_connect g (Some b) (Some d) NEXT = Some g') : forall m j vs,
    reach S exit j -> NoDup vs -> incl vs B -> (forall y, In y vs -> dominates S exit j y /\ j <> y) -> (length B < m + length vs)%nat ->
    exists g', redirect ridom exit m (d_block s) b (Some j) g = Done g'.
  Proof.
    induction m as [|m IH]; intros j vs R N I D L.
    - pose proof (NoDup_incl_length N I). lia.
    - cbn [redirect]. destruct (Nat.eqb_spec j exit) as [E|Ne]; [eauto|]. destruct (d_block s j).
      + destruct (C j) as (g' & E). rewrite E. eauto.
      + destruct (Hidom j R Ne) as (k & Ek & Rk & Nk & Dk & _). rewrite Ek. apply (IH k (j :: vs) Rk).
        * constructor; [|exact N]. intros Ij. destruct (D j Ij) as [_ Q]. congruence.
        * intros y [<-|Iy]; [apply HB; exact R|apply I; exact Iy].
        * intros y [<-|Iy]; [auto|]. destruct (D y Iy) as [D1 D2]. split; [eapply dominates_trans; eassumption|].
          intros E. subst y. apply D2. apply (pdom_antisym S exit); assumption.
        * cbn [length]. lia.
  Qed.

  Definition roomy (g : egraph) : Prop :=
    (forall b t c, edge g t b = Some c -> In b B) /\ (forall c, (length B < length (e_prev g c))%nat).
  Lemma slots_length l : ~ In None l -> length (slots_preds l) = length l.
  Proof.
    induction l as [|[[p t]|] l IH]; intros N; [reflexivity| |destruct N; left; reflexivity].
    rewrite slots_cons_some. cbn [length]. f_equal. apply IH. intros I. apply N. right. exact I.
  Qed.
  Lemma connect_total g b d : linked g -> roomy g -> exists g', bb_connect g (Some b) (Some d) NEXT = Some g'.
  Proof.
    intros K [R1 R2]. cbn [bb_connect]. destruct (fill_slot (e_prev g d) (b, NEXT)) as [l|] eqn:E; [eauto|]. exfalso.
    apply fill_slot_full in E. pose proof (slots_length _ E) as Q.
    assert (I : incl (slots_preds (e_prev g d)) B).
    { intros p Ip. apply slots_In in Ip as (t & Ip). apply (k_both g K) in Ip. eapply R1; exact Ip. }
    pose proof (NoDup_incl_length (k_one g K d) I). specialize (R2 d). lia.
  Qed.
  Lemma connect_roomy g b d g' : roomy g -> In b B -> bb_connect g (Some b) (Some d) NEXT = Some g' -> roomy g'.
  Proof.
    intros [R1 R2] Ib E. cbn [bb_connect] in E. destruct (fill_slot (e_prev g d) (b, NEXT)) as [l|] eqn:El; [|discriminate].
    assert (Eg : g' = set_edge (set_prev g d l) NEXT b (Some d)) by congruence. clear E. subst g'. split.
    - intros x t c. rewrite edge_set, edge_set_prev. destruct (conn_eq_dec t NEXT) as [->|]; [|apply R1]. destruct (Nat.eqb_spec x b) as [->|]; [auto|apply R1].
    - intros c. rewrite prev_set_edge. cbn [set_prev e_prev]. unfold upd. destruct (Nat.eqb_spec c d) as [->|]; [|apply R2].
      destruct (fill_slot_spec _ _ _ El) as (_ & _ & Q). rewrite Q. apply R2.
  Qed.
  Lemma drop_total m b g t e : (length B < m)%nat -> linked g -> roomy g -> reach S exit b -> b <> exit ->
    e_next g b = None -> e_then g b = Some t -> e_else g b = Some e ->
    exists g', drop_branch ridom exit m (d_block s) b g = Done g' /\ roomy g'.
  Proof.
    intros Lm K [R1 R2] Rb Nb En Et Ee. unfold drop_branch. rewrite Et.
    destruct (bb_disconnect_linked g b THEN t K Et) as (g1 & D1 & K1 & T1 & O1 & Z1). rewrite D1.
    assert (Ee1 : e_else g1 b = Some e) by (rewrite <- Ee; apply (O1 ELSE b); congruence). rewrite Ee1.
    destruct (bb_disconnect_linked g1 b ELSE e K1 Ee1) as (g2 & D2 & K2 & T2 & O2 & Z2). rewrite D2.
    assert (R : roomy g2).
    { split; [|intros c; rewrite Z2, Z1; apply R2]. intros x u c E.
      destruct (Nat.eq_dec x b) as [->|N]; [apply HB; exact Rb|]. rewrite O2, O1 in E by congruence. eapply R1; exact E. }
    destruct (Hidom b Rb Nb) as (j & Ej & Rj & _). rewrite Ej.
    destruct (redirect_total b g2 (fun d => connect_total g2 b d K2 R) m j [] Rj (NoDup_nil _) (incl_nil_l _)) as (g' & E'); [intros y []|cbn; lia|].
    exists g'. split; [exact E'|]. destruct (redirect_spec _ _ _ _ _ _ _ _ E') as (j' & d & _ & _ & [[_ ->]|[_ Ec]]); [exact R|].
    eapply connect_roomy; [exact R|apply HB; exact Rb|exact Ec].
  Qed.
  Lemma insns_keep_total m b : forall l g, (forall i, In i l -> op ins i = OP_branch -> d_useful s i = true) ->
    exists k, sweep_insns ins ridom exit m s b l g = Done (g, k).
  Proof.
    induction l as [|i r IH]; intros g A; cbn [sweep_insns]; [eauto|].
    destruct (IH g (fun j I => A j (or_intror I))) as (k & E). destruct (d_useful s i) eqn:U.
    - rewrite E. cbn. eauto.
    - destruct (opcode_eq_dec (op ins i) OP_branch) as [Q|Q]; [rewrite (A i (or_introl eq_refl) Q) in U; discriminate|]. cbn [bind]. eauto.
  Qed.
  Lemma insns_drop_total m b i g g' : drop_branch ridom exit m (d_block s) b g = Done g' -> op ins i = OP_branch -> d_useful s i = false ->
    forall l, (forall j, In j l -> op ins j <> OP_branch) -> exists k, sweep_insns ins ridom exit m s b (l ++ [i]) g = Done (g', k).
  Proof.
    intros E Bi U. induction l as [|x l IH]; intros A; cbn [sweep_insns app].
    - rewrite U. destruct (opcode_eq_dec (op ins i) OP_branch); [|contradiction]. rewrite E. cbn. eauto.
    - destruct (IH (fun j I => A j (or_intror I))) as (k & Ek). destruct (d_useful s x).
      + rewrite Ek. cbn. eauto.
      + destruct (opcode_eq_dec (op ins x) OP_branch) as [Q|Q]; [destruct (A x (or_introl eq_refl) Q)|]. cbn [bind]. eauto.
  Qed.
  Theorem sweep_total m : (length B < m)%nat -> forall order g c, NoDup order -> linked g -> roomy g ->
    (forall b, In b order -> c b = code b /\ branch_shape ins code g b /\ reach S exit b /\ (b = exit -> code b = [])) ->
    exists g' c', dce_sweep ins ridom exit m s order g c = Done (g', c').
  Proof.
    intros Lm. induction order as [|b r IH]; intros g c N K R H; cbn [dce_sweep]; [eauto|].
    inversion N as [|? ? Nb Nr]; subst. destruct (H b (or_introl eq_refl)) as (Ec & W & Rb & Hx). rewrite Ec.
    assert (Q : exists g1 k, sweep_insns ins ridom exit m s b (code b) g = Done (g1, k) /\ linked g1 /\ roomy g1 /\ (forall x, x <> b -> same_edges g g1 x)).
    { destruct (drops_dec ins s code b g W) as [D|A].
      - pose proof D as (i & F & Bi & U). destruct (final_split _ _ F) as (l & El). destruct (W l i [] El Bi) as (_ & En & t & e & Et & Ee).
        assert (NB : forall j, In j l -> op ins j <> OP_branch).
        { intros j I Bj. apply in_split in I as (l1 & l2 & Q). destruct (W l1 j (l2 ++ [i])) as (Q' & _);
            [rewrite El, Q, <- app_assoc; reflexivity|exact Bj|]. destruct l2; discriminate. }
        assert (Nx : b <> exit) by (intros Ex; rewrite (Hx Ex) in El; destruct l; discriminate).
        destruct (drop_total m b g t e Lm K R Rb Nx En Et Ee) as (g1 & E1 & R1).
        destruct (insns_drop_total m b i g g1 E1 Bi U l NB) as (k & Ek). exists g1, k. rewrite El. split; [exact Ek|].
        destruct (drop_branch_spec ridom exit s m b g g1 t e K En Et Ee E1) as (K1 & _ & O1). auto.
      - destruct (insns_keep_total m b (code b) g A) as (k & Ek). exists g, k. split; [exact Ek|]. split; [exact K|]. split; [exact R|].
        intros x _ t. reflexivity. }
    destruct Q as (g1 & k & E1 & K1 & R1 & O1). rewrite E1. cbn [bind]. apply (IH g1 (upd c b k) Nr K1 R1).
    intros x Ix. assert (Nx : x <> b) by congruence. destruct (H x (or_intror Ix)) as (Ex & Wx & Rx & Hxx).
    split; [rewrite upd_other; assumption|]. split; [|auto]. intros l1 i l2 El Bi. destruct (Wx l1 i l2 El Bi) as (Q1 & Q2 & t & e & Q3 & Q4).
    pose proof (O1 x Nx) as Sx. split; [exact Q1|].
    rewrite (Sx NEXT : e_next g1 x = e_next g x), (Sx THEN : e_then g1 x = e_then g x), (Sx ELSE : e_else g1 x = e_else g x). eauto.
  Qed.
End SweepTotal.
