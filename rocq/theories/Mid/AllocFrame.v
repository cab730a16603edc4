(** Where things are in the stack frame. *)
From Verif.Mid Require Export Alloc AllocSpec AllocStatic.
From Coq Require Import ZArith List Lia.
Import ListNotations.
Local Open Scope Z_scope.

Record region := mkreg { r_at : Z; r_len : Z; r_slot : bool }.       (* first offset, length, slot or storage *)
Definition apart (r q : region) : Prop := r_at r + r_len r <= r_at q \/ r_at q + r_len q <= r_at r.
Notation slot a := (mkreg a 4 true).
Notation store a n := (mkreg a n false).
Definition storage_size (V : vars) (d : nat) : Z :=
  let sz := if v_ptr V d then 4 else v_tsize V d in
  if v_array V d =? 0 then align_size sz else align_size (v_array V d * sz).
Lemma align_ge i : 4 <= align_size i /\ i <= align_size i.
Proof.
  unfold align_size. destruct (Z.leb_spec i 4); [lia|].
  assert (E : Z.land (i + 3) (Z.lnot 3) = (i + 3) / 4 * 4).
  { change (Z.lnot 3) with (Z.lnot (Z.ones 2)). rewrite <- Z.ldiff_land, Z.ldiff_ones_r by lia. rewrite Z.shiftr_div_pow2, Z.shiftl_mul_pow2 by lia. reflexivity. }
  rewrite E. pose proof (Z.div_mod (i + 3) 4 ltac:(lia)). pose proof (Z.mod_pos_bound (i + 3) 4 ltac:(lia)). lia.
Qed.

Section Frame.
  Variable V : vars.
  Variable live_out : nat -> list nat.
  Variable killed : nat -> nat -> bool.
  Variable arity : Z -> Z.
  Variables then_ else_ : nat -> option nat.

  Definition is_store (p : ph2) : Prop := p_op p = OP_store.
  (** the regions L of the frame are used, D has been declared *)
  Record good (L : list region) (D : list nat) (s : ra) : Prop := mkgood {
    g_apart : ForallOrdPairs apart L;
    g_in : forall r, In r L -> 4 <= r_at r /\ 4 <= r_len r /\ r_at r + r_len r <= a_size s;
    g_size : 4 <= a_size s;
    g_globals : forall v, v_global V v = true -> a_off s v <> 0;
    g_slots : forall v, v_global V v = false -> a_off s v <> 0 -> In (slot (a_off s v)) L;
    g_inj : forall u v, v_global V u = false -> v_global V v = false -> a_off s u <> 0 -> a_off s u = a_off s v -> u = v;
    g_decl : forall d, In d D -> a_off s d <> 0 /\ v_global V d = false /\ In (store (a_off s d + 4) (storage_size V d)) L;
    g_code : forall p, In p (a_code s) -> is_store p -> In (slot (p_src1 p)) L }.
  Definition goes (s s' : ra) : Prop := forall L D, good L D s -> exists L', good (L' ++ L) D s'.
  Lemma goes_refl s : goes s s.
  Proof. intros L D G. exists []. exact G. Qed.
  Lemma goes_trans s1 s2 s3 : goes s1 s2 -> goes s2 s3 -> goes s1 s3.
  Proof. intros A B L D G. destruct (A L D G) as [L1 G1]. destruct (B _ D G1) as [L2 G2]. exists (L2 ++ L1). rewrite <- app_assoc. exact G2. Qed.
  Lemma goes_l s s1 s2 : goes s1 s2 -> goes s s1 -> goes s s2.
  Proof. intros; eapply goes_trans; eassumption. Qed.
  Lemma goes_same s s' : a_off s' = a_off s -> a_size s' = a_size s -> a_code s' = a_code s -> goes s s'.
  Proof. intros E1 E2 E3 L D [H1 H2 H3 H4 H5 H6 H7 H8]. exists []. split; cbn; try rewrite E1; try rewrite E2; try rewrite E3; auto. Qed.
  Lemma goes_set_args p n s : goes s (set_args p n s). Proof. apply goes_same; reflexivity. Qed.
  Lemma goes_set_reg i o p s : goes s (set_reg i o p s). Proof. apply goes_same; reflexivity. Qed.
  Lemma goes_set_cons v k s : goes s (set_cons v k s). Proof. apply goes_same; reflexivity. Qed.
  Lemma goes_fold {A} (f : ra -> A -> ra) l : (forall s i, goes s (f s i)) -> forall s, goes s (fold_left f l s).
  Proof. intros H. induction l as [|i l IH]; cbn; intros s; [apply goes_refl|]. eapply goes_trans; [apply H|apply IH]. Qed.
  Lemma goes_emit p s : p_op p <> OP_store -> goes s (emit p s).
  Proof.
    intros N L D [H1 H2 H3 H4 H5 H6 H7 H8]. exists []. split; cbn; auto.
    intros q I S. apply in_app_or in I. destruct I as [I|[<-|[]]]; [auto|contradiction].
  Qed.
  Lemma good_emit p v L D s : good L D s -> v_global V v = false -> a_off s v <> 0 -> p_src1 p = a_off s v -> good L D (emit p s).
  Proof.
    intros [H1 H2 H3 H4 H5 H6 H7 H8] G O E. split; cbn; auto.
    intros q I S. apply in_app_or in I. destruct I as [I|[<-|[]]]; [auto|]. rewrite E. auto.
  Qed.
  Lemma goes_slot v s : goes s (give_slot v s).
  Proof.
    intros L D G. unfold give_slot. destruct (Z.eqb_spec (a_off s v) 0) as [E|N]; [|exists []; exact G].
    destruct G as [H1 H2 H3 H4 H5 H6 H7 H8]. exists [slot (a_size s)]. cbn.
    assert (VG : v_global V v = false) by (destruct (v_global V v) eqn:Q; [exfalso; eapply H4; eauto|reflexivity]).
    split; cbn.
    - constructor; [|exact H1]. apply Forall_forall. intros r I. right. cbn. apply H2 in I. lia.
    - intros r [<-|I]; cbn; [lia|]. apply H2 in I. lia.
    - lia.
    - intros u Gu. rewrite upd_other by congruence. auto.
    - intros u Gu. destruct (Nat.eq_dec v u) as [<-|Nu]; [rewrite upd_same; auto|]. rewrite upd_other by congruence. auto.
    - intros u w Gu Gw. destruct (Nat.eq_dec v u) as [<-|Nu], (Nat.eq_dec v w) as [<-|Nw]; try rewrite !upd_same; repeat rewrite upd_other by congruence; auto.
      + intros _ Q. assert (O : a_off s w <> 0) by lia. specialize (H5 w Gw O). apply H2 in H5. cbn in H5. lia.
      + intros O Q. specialize (H5 u Gu O). apply H2 in H5. cbn in H5. lia.
    - intros d I. destruct (H7 d I) as (O & Gd & R). rewrite upd_other by congruence. auto.
    - intros p I S. right. auto.
  Qed.
  Lemma slot_has v s L D : good L D s -> a_off (give_slot v s) v <> 0.
  Proof.
    intros G. unfold give_slot. destruct (Z.eqb_spec (a_off s v) 0) as [E|N]; [|exact N]. cbn. rewrite upd_same. pose proof (g_size _ _ _ G). lia.
  Qed.
  Lemma goes_store v i s : v_global V v = false -> goes s (emit (ir OP_store (zi i) (a_off (give_slot v s) v) 0) (give_slot v s)).
  Proof.
    intros Gv L D G. destruct (goes_slot v s L D G) as [L1 G1]. exists L1. eapply good_emit; eauto. eapply slot_has; eauto.
  Qed.
  Lemma goes_spill v i s : goes s (spill_var V v i s).
  Proof.
    unfold spill_var. destruct (negb (a_pol s i)); [apply goes_set_reg|]. eapply goes_l; [apply goes_set_reg|].
    destruct (v_global V v) eqn:Gv; [|apply goes_store; exact Gv]. eapply goes_l; [apply goes_emit; discriminate|apply goes_slot].
  Qed.
  Lemma goes_spill_reg i s : goes s (spill_reg V i s).
  Proof. unfold spill_reg. destruct (a_var s i); [apply goes_spill|apply goes_refl]. Qed.
  Lemma goes_load v i s : goes s (load_var V v i s).
  Proof. unfold load_var. eapply goes_l; [apply goes_set_reg|]. apply goes_emit. destruct (v_global V v); discriminate. Qed.
  Lemma goes_operand b v o s : goes s (snd (prepare_operand V live_out b v o s)).
  Proof.
    unfold prepare_operand. destruct (find_in_regs v s); [apply goes_refl|]. destruct (find_free s); [apply goes_load|].
    cbn. eapply goes_trans; [apply goes_spill_reg|apply goes_load].
  Qed.
  Lemma goes_dest b v o0 o1 s : goes s (snd (prepare_dest V live_out b v o0 o1 s)).
  Proof.
    unfold prepare_dest. destruct (find_in_regs v s); [apply goes_set_reg|]. destruct (find_free s); [apply goes_set_reg|].
    cbn [snd]. eapply goes_l; [apply goes_set_reg|apply goes_spill_reg].
  Qed.
  Lemma goes_alive b k s : goes s (spill_alive V live_out b k s).
  Proof.
    apply goes_fold. intros s' i. unfold spill_alive_reg. destruct (a_var s' i); [|apply goes_refl].
    destruct (check_live_out live_out b n); [apply goes_spill|]. destruct (k <? a_cons s' n); [apply goes_spill|apply goes_refl].
  Qed.
  Lemma goes_out b s : goes s (spill_live_out V live_out killed b s).
  Proof.
    apply goes_fold. intros s' i. unfold spill_out_reg. destruct (a_var s' i); [|apply goes_refl].
    destruct (negb (check_live_out live_out b n)); [apply goes_set_reg|].
    destruct (negb (killed n b)); [apply goes_set_reg|apply goes_spill].
  Qed.
  Lemma goes_refresh b k s : goes s (refresh live_out b k s).
  Proof.
    apply goes_fold. intros s' i. unfold refresh_reg. destruct (a_var s' i); [|apply goes_refl].
    destruct (check_live_out live_out b n); [apply goes_refl|]. destruct (a_cons s' n <? k); [apply goes_set_reg|apply goes_refl].
  Qed.
  Lemma goes_global v d s : goes s (store_global V v d s).
  Proof. unfold store_global. destruct (v_global V v); [|apply goes_refl]. eapply goes_l; [apply goes_set_reg|]. apply goes_emit. discriminate. Qed.
  Lemma goes_extend b k v sz s : goes s (extend_liveness live_out b k v sz s).
  Proof.
    unfold extend_liveness. destruct (check_live_out live_out b v); [apply goes_refl|].
    destruct (a_cons s v <? k + sz); [apply goes_set_cons|apply goes_refl].
  Qed.
  Lemma goes_clear s : goes s (fold_left (fun s i => set_reg i None (a_pol s i) s) regs s).
  Proof. apply goes_fold. intros. apply goes_set_reg. Qed.
  (** taking the address of a local that has no slot yet *)
  Definition homed (x : nat) (s : ra) : ra :=
    if a_off s x =? 0 then
      let s := give_slot x s in
      fold_left (fun s i => if holds s x i then emit (ir OP_store (zi i) (a_off s x) 0) s else s) regs s
    else s.
  Lemma goes_homed x s : goes s (homed x s).
  Proof.
    unfold homed. destruct (Z.eqb_spec (a_off s x) 0) as [E|N]; [|apply goes_refl]. cbv zeta.
    intros L D G. assert (Gx : v_global V x = false) by (destruct (v_global V x) eqn:Q; [exfalso; eapply (g_globals _ _ _ G); eauto|reflexivity]).
    destruct (goes_slot x s L D G) as [L1 G1]. exists L1. pose proof (slot_has x s L D G) as O. revert G1 O. generalize (give_slot x s).
    induction regs as [|i l IH]; cbn; intros t G1 O; [exact G1|]. apply IH; [|destruct (holds t x i); exact O].
    destruct (holds t x i); [|exact G1]. eapply good_emit; eauto.
  Qed.
  Definition gg (s : ra) (o : option ra) : Prop := match o with Some s' => goes s s' | None => True end.
  Ltac back := lazymatch goal with
    | |- goes ?z ?z => apply goes_refl
    | |- goes ?z (fold_left (fun t i => set_reg i None (a_pol t i) t) regs _) => refine (goes_l _ _ _ (goes_clear _) _); back
    | |- goes ?z (homed _ _) => refine (goes_l _ _ _ (goes_homed _ _) _); back
    | |- goes ?z (emit (ir OP_store _ (a_off (give_slot ?v ?s) ?v) _) (give_slot ?v ?s)) => refine (goes_l _ _ _ (goes_store _ _ _ _) _); [assumption|back]
    | |- goes ?z (emit _ _) => refine (goes_l _ _ _ (goes_emit _ _ _) _); [first [discriminate | match goal with |- context [if ?c then _ else _] => destruct c; discriminate end]|back]
    | |- goes ?z (set_args _ _ _) => refine (goes_l _ _ _ (goes_set_args _ _ _) _); back
    | |- goes ?z (set_reg _ _ _ _) => refine (goes_l _ _ _ (goes_set_reg _ _ _ _) _); back
    | |- goes ?z (give_slot _ _) => refine (goes_l _ _ _ (goes_slot _ _) _); back
    | |- goes ?z (spill_alive _ _ _ _ _) => refine (goes_l _ _ _ (goes_alive _ _ _) _); back
    | |- goes ?z (spill_live_out _ _ _ _ _) => refine (goes_l _ _ _ (goes_out _ _) _); back
    | |- goes ?z (extend_liveness _ _ _ _ _ _) => refine (goes_l _ _ _ (goes_extend _ _ _ _ _) _); back
    | |- goes ?z (store_global _ _ _ _) => refine (goes_l _ _ _ (goes_global _ _ _) _); back
    | |- goes ?z (if ?c then _ else _) => destruct c; back
    | |- goes ?z ?t => is_var t; match goal with H : goes _ t |- _ => refine (goes_l _ _ _ H _) end; back
    end.
  Ltac fwd := lazymatch goal with
    | |- gg _ None => exact I
    | |- gg _ (Some _) => change (gg ?s (Some ?t)) with (goes s t); back
    | |- gg _ (match prepare_operand ?V ?l ?b ?v ?o ?s with _ => _ end) =>
        let G := fresh "G" in let r := fresh "r" in let s1 := fresh "s1" in
        generalize (goes_operand b v o s); destruct (prepare_operand V l b v o s) as [r s1]; cbn [snd]; intros G; fwd
    | |- gg _ (match prepare_dest ?V ?l ?b ?v ?o0 ?o1 ?s with _ => _ end) =>
        let G := fresh "G" in let r := fresh "r" in let s1 := fresh "s1" in
        generalize (goes_dest b v o0 o1 s); destruct (prepare_dest V l b v o0 o1 s) as [r s1]; cbn [snd]; intros G; fwd
    | |- gg _ (match (match find_in_regs ?x ?s with _ => _ end) with _ => _ end) => destruct (find_in_regs x s); fwd
    | |- gg _ (match (match prepare_operand ?V ?l ?b ?v ?o ?s with _ => _ end) with _ => _ end) =>
        let G := fresh "G" in let r := fresh "r" in let s1 := fresh "s1" in
        generalize (goes_operand b v o s); destruct (prepare_operand V l b v o s) as [r s1]; cbn [snd]; intros G; fwd
    | |- gg _ (if ?c then _ else _) => destruct c; fwd
    | |- gg _ (match ?c with _ => _ end) => destruct c; fwd
    end.
  (** i declares storage for d *)
  Definition declares (i : insn) (d : nat) : Prop := i_op i = OP_allocat /\ i_rd i = Some d /\ no_storage V d = false.
  Definition fits (i : insn) : Prop := forall d, i_rd i = Some d -> i_op i = OP_unwound_phi \/ i_op i = OP_allocat -> v_global V d = false.
  Lemma good_declare d L D s : good L D s -> v_global V d = false ->
    good (store (a_size s + 4) (storage_size V d) :: slot (a_size s) :: L) (d :: D) (set_off d (a_size s) (a_size s + 4 + storage_size V d) s).
  Proof.
    intros [H1 H2 H3 H4 H5 H6 H7 H8] Gd.
    assert (SZ : 4 <= storage_size V d) by (unfold storage_size; destruct (v_array V d =? 0); apply align_ge).
    split; cbn.
    - constructor; [constructor; [right; cbn; lia|]|constructor; [|exact H1]]; apply Forall_forall; intros r I; right; cbn; apply H2 in I; lia.
    - intros r [<-|[<-|I]]; cbn; [lia|lia|]. apply H2 in I. lia.
    - lia.
    - intros u Gu. rewrite upd_other by congruence. auto.
    - intros u Gu. destruct (Nat.eq_dec d u) as [<-|Nu]; [rewrite upd_same; auto|]. rewrite upd_other by congruence. auto.
    - intros u w Gu Gw. destruct (Nat.eq_dec d u) as [<-|Nu], (Nat.eq_dec d w) as [<-|Nw]; try rewrite !upd_same; repeat rewrite upd_other by congruence; auto.
      + intros _ Q. assert (O : a_off s w <> 0) by lia. specialize (H5 w Gw O). apply H2 in H5. cbn in H5. lia.
      + intros O Q. specialize (H5 u Gu O). apply H2 in H5. cbn in H5. lia.
    - intros e I. destruct (Nat.eq_dec d e) as [<-|Ne].
      + rewrite upd_same. split; [lia|]. auto.
      + destruct I as [->|I]; [contradiction|]. rewrite upd_other by congruence. destruct (H7 e I) as (O & Ge & R). auto.
    - intros p I S. right. right. auto.
  Qed.
  Definition declared (i : insn) : list nat :=
    match i_op i, i_rd i with OP_allocat, Some d => if no_storage V d then [] else [d] | _, _ => [] end.
  Lemma goes_core b k i s : i_op (r_insn i) <> OP_allocat -> fits (r_insn i) -> gg s (alloc_core V live_out killed arity then_ else_ b k i s).
  Proof.
    intros NA F. unfold fits in F. unfold alloc_core. cbv zeta.
    destruct (i_op (r_insn i)); try exact I; try contradiction; destruct (i_rd (r_insn i)) as [d|]; try exact I; destruct (i_rs1 (r_insn i)) as [x|]; try exact I;
      try (destruct (i_rs2 (r_insn i)) as [y|]; try exact I);
      try (assert (Gd : v_global V d = false) by (apply F; auto));
      try (match goal with |- gg _ (match prepare_dest _ _ _ _ _ _ (if a_off s ?x =? 0 then _ else _) with _ => _ end) => fold (homed x s) end); fwd.
  Qed.
  Lemma goods_insn b k i s s' L D : fits (r_insn i) -> alloc_insn V live_out killed arity then_ else_ b k i s = Some s' -> good L D s ->
    exists L', good (L' ++ L) (declared (r_insn i) ++ D) s'.
  Proof.
    intros F H G. unfold alloc_insn in H. destruct (goes_refresh b k s L D G) as [L1 G1]. destruct (opcode_eq_dec (i_op (r_insn i)) OP_allocat) as [E|N].
    - unfold declared. rewrite E. remember (refresh live_out b k s) as s1 eqn:E1. clear E1. unfold alloc_core in H. rewrite E in H.
      destruct (i_rd (r_insn i)) as [d|] eqn:Ed; [|destruct (i_rs1 (r_insn i)), (i_rs2 (r_insn i)); discriminate].
      assert (Gd : v_global V d = false) by (apply F; auto).
      assert (Q : forall s2, alloc_core V live_out killed arity then_ else_ b k (mkr (mkinsn OP_allocat (Some d) None None) 0 0) s1 = Some s2 ->
                  exists L', good (L' ++ L) ((if no_storage V d then [] else [d]) ++ D) s2).
      { intros s2. unfold alloc_core. cbv zeta. cbn [r_insn i_op i_rd i_rs1 i_rs2]. destruct (no_storage V d); [intros Q; injection Q as <-; exists L1; exact G1|].
        fold (storage_size V d). pose proof (good_declare d _ _ s1 G1 Gd) as G2.
        remember (set_off d (a_size s1) (a_size s1 + 4 + storage_size V d) s1) as s3 eqn:E3.
        pose proof (goes_dest b d None None s3) as G3. destruct (prepare_dest V live_out b d None None s3) as [r s4]. cbn [snd] in G3. intros Q.
        destruct (G3 _ _ G2) as [L4 G4]. destruct (goes_emit (ir OP_address_of (a_size s1 + 4) 0 (zi r)) s4 ltac:(discriminate) _ _ G4) as [L5 G5].
        injection Q as <-. cbn [app] in G5 |- *. exists (L5 ++ L4 ++ [store (a_size s1 + 4) (storage_size V d); slot (a_size s1)] ++ L1). rewrite <- !app_assoc. exact G5. }
      apply Q. unfold alloc_core. cbn [r_insn i_op i_rd i_rs1 i_rs2]. destruct (i_rs1 (r_insn i)), (i_rs2 (r_insn i)); exact H.
    - pose proof (goes_core b k i (refresh live_out b k s) N F) as Q. rewrite H in Q. destruct (Q _ _ G1) as [L2 G2]. exists (L2 ++ L1).
      rewrite <- app_assoc. replace (declared (r_insn i)) with (@nil nat) by (unfold declared; destruct (i_op (r_insn i)); auto; contradiction). exact G2.
  Qed.
  Lemma goods_insns b l : forall k s s' L D, (forall i, In i l -> fits (r_insn i)) -> alloc_insns V live_out killed arity then_ else_ b k l s = Some s' -> good L D s ->
    exists L' D', good (L' ++ L) (D' ++ D) s' /\ forall i d, In i l -> declares (r_insn i) d -> In d D'.
  Proof.
    induction l as [|i l IH]; intros k s s' L D F H G; cbn [alloc_insns] in H.
    - injection H as <-. exists [], []. split; [exact G|intros i d []].
    - destruct (alloc_insn V live_out killed arity then_ else_ b k i s) as [s1|] eqn:E; [|discriminate].
      destruct (goods_insn b k i s s1 L D (F i (or_introl eq_refl)) E G) as [L1 G1].
      destruct (IH (k + 1) s1 s' _ _ (fun j J => F j (or_intror J)) H G1) as (L2 & D2 & G2 & W).
      exists (L2 ++ L1), (D2 ++ declared (r_insn i)). rewrite <- !app_assoc. split; [exact G2|]. intros j d [<-|J] Q; apply in_or_app.
      + right. unfold declared. destruct Q as (Q1 & Q2 & Q3). rewrite Q1, Q2, Q3. left. reflexivity.
      + left. eapply W; eauto.
  Qed.

  Variable next : nat -> option nat.
  Variable rpo : nat -> Z.
  Variable exit : nat.
  Variable code : nat -> list rinsn.
  Lemma goes_finish dn b s : goes s (finish_block V live_out killed next rpo exit dn b s).
  Proof.
    unfold finish_block. destruct (next b) as [c|]; [|apply goes_refl]. cbv zeta. destruct (Nat.eqb b exit); [apply goes_out|]. destruct (Nat.eqb c exit); [apply goes_out|].
    destruct (mem c dn || negb (rpo c =? rpo b + 1)); [|apply goes_out]. eapply goes_l; [apply goes_emit; discriminate|apply goes_out].
  Qed.
  Lemma good_restart pre L D s : good L D s -> (forall p, In p pre -> is_store p -> In (slot (p_src1 p)) L) ->
    good L D (mkra (a_var s) (a_pol s) (a_off s) (a_size s) (a_cons s) pre false 0).
  Proof. intros [H1 H2 H3 H4 H5 H6 H7 H8] P. split; auto. Qed.
  Lemma goods_blocks order : forall dn pre s l sF L D, (forall b i, In b order -> In i (code b) -> fits (r_insn i)) ->
    (forall p, In p pre -> is_store p -> In (slot (p_src1 p)) L) ->
    alloc_blocks V live_out killed arity next then_ else_ rpo exit code dn order pre s = Some (l, sF) -> good L D s ->
    exists L' D', good (L' ++ L) (D' ++ D) sF /\ (forall b i d, In b order -> In i (code b) -> declares (r_insn i) d -> In d D') /\
      forall b c p, In (b, c) l -> In p c -> is_store p -> In (slot (p_src1 p)) (L' ++ L).
  Proof.
    induction order as [|b order IH]; intros dn pre s l sF L D F P H G; cbn [alloc_blocks] in H.
    - injection H as <- <-. exists [], []. split; [exact G|]. split; [intros b i d []|intros b c p []].
    - unfold alloc_block in H. remember (mkra (a_var s) (a_pol s) (a_off s) (a_size s) (a_cons s) pre false 0) as s0 eqn:E0.
      assert (G0 : good L D s0) by (rewrite E0; apply good_restart; auto). clear E0.
      destruct (alloc_insns V live_out killed arity then_ else_ b 0 (code b) s0) as [s1|] eqn:E1; [|discriminate].
      destruct (goods_insns b (code b) 0 s0 s1 L D (fun i I => F b i (or_introl eq_refl) I) E1 G0) as (L1 & D1 & G1 & W1).
      destruct (goes_finish (b :: dn) b s1 _ _ G1) as [L2 G2].
      remember (finish_block V live_out killed next rpo exit (b :: dn) b s1) as s2 eqn:E2. clear E2.
      destruct (alloc_blocks V live_out killed arity next then_ else_ rpo exit code (b :: dn) order [] s2) as [[l' s']|] eqn:E3; [|discriminate]. injection H as <- <-.
      destruct (IH (b :: dn) [] s2 l' s' _ _ (fun c i C I => F c i (or_intror C) I) ltac:(intros p []) E3 G2) as (L3 & D3 & G3 & W3 & C3).
      exists (L3 ++ L2 ++ L1), (D3 ++ D1). rewrite <- !app_assoc. split; [exact G3|]. split.
      + intros c i d [<-|C] I Q; apply in_or_app; [right; eapply W1; eauto|left; eapply W3; eauto].
      + intros c q p [Q|I] J S; [|eapply C3; eauto]. injection Q as <- <-. apply in_or_app. right. apply (g_code _ _ _ G2); auto.
  Qed.
  Variable exit_prev : list nat.
  Variable void : bool.
  Variable params : list nat.
  Variable va_args : bool.
  Lemma add_return_store b : forall l c q p, In (c, q) (add_return code void l b) -> In p q -> is_store p -> exists q', In (c, q') l /\ In p q'.
  Proof.
    unfold add_return. intros l c q p. destruct (negb void || ends_in_return code b); [eauto|]. rewrite in_map_iff. intros ([c' q'] & E & I) J S.
    cbn [fst snd] in E. destruct (Nat.eqb c' b); [|injection E as <- <-; eauto]. injection E as <- <-. apply in_app_or in J. destruct J as [J|[<-|[]]]; [eauto|discriminate].
  Qed.
  Lemma add_returns_store ep : forall l c q p, In (c, q) (fold_left (add_return code void) ep l) -> In p q -> is_store p -> exists q', In (c, q') l /\ In p q'.
  Proof.
    induction ep as [|b ep IH]; cbn; intros l c q p I J S; [eauto|]. destruct (IH _ _ _ _ I J S) as (q1 & I1 & J1). eapply add_return_store; eauto.
  Qed.
  Lemma goes_params : (forall v, In v params -> v_global V v = false) -> NoDup params ->
    forall s, (forall v, In v params -> a_off s v = 0) -> goes s (store_params params va_args s).
  Proof.
    intros PL ND s Z0. unfold store_params. destruct va_args; [|apply goes_refl].
    assert (Q : forall l n, l = seq n (length l) -> forall s, (forall i v, (n <= i)%nat -> nth_error params i = Some v -> a_off s v = 0) ->
      goes s (fold_left (fun s i =>
        let s := match nth_error params i with Some v => set_off v (a_size s) (a_size s) s | None => s end in
        let s := emit (ir OP_store (zi i) (a_size s) 0) s in
        mkra (a_var s) (a_pol s) (a_off s) (a_size s + 4) (a_cons s) (a_code s) (a_push s) (a_args s)) l s)).
    { induction l as [|i l IH]; intros n E s1 Z1; cbn [fold_left]; [apply goes_refl|].
      cbn [length seq] in E. injection E as -> E. cbv zeta. destruct (nth_error params n) as [v|] eqn:Ev.
      - eapply goes_trans; [|apply (IH (S n) E)].
        + intros L D [H1 H2 H3 H4 H5 H6 H7 H8]. exists [slot (a_size s1)]. cbn [app]. assert (Gv : v_global V v = false) by (apply PL; eapply nth_error_In; eauto).
          assert (Zv : a_off s1 v = 0) by (apply (Z1 n); auto).
          split; cbn.
          * constructor; [|exact H1]. apply Forall_forall. intros r I. right. cbn. apply H2 in I. lia.
          * intros r [<-|I]; cbn; [lia|]. apply H2 in I. lia.
          * lia.
          * intros u Gu. rewrite upd_other by congruence. auto.
          * intros u Gu. destruct (Nat.eq_dec v u) as [<-|Nu]; [rewrite upd_same; auto|]. rewrite upd_other by congruence. auto.
          * intros u w Gu Gw. destruct (Nat.eq_dec v u) as [<-|Nu], (Nat.eq_dec v w) as [<-|Nw]; try rewrite !upd_same; repeat rewrite upd_other by congruence; auto.
            -- intros _ Q. assert (O : a_off s1 w <> 0) by lia. specialize (H5 w Gw O). apply H2 in H5. cbn in H5. lia.
            -- intros O Q. specialize (H5 u Gu O). apply H2 in H5. cbn in H5. lia.
          * intros d I. destruct (H7 d I) as (O & Gd & R). rewrite upd_other by congruence. auto.
          * intros p I S. apply in_app_or in I. destruct I as [I|[<-|[]]]; [right; auto|left; reflexivity].
        + intros i u Li Nu. cbn. rewrite upd_other; [apply (Z1 i); auto; lia|]. intros <-.
          assert (n = i) by (eapply (proj1 (NoDup_nth_error params) ND); [apply nth_error_Some|]; congruence). lia.
      - eapply goes_trans; [|apply (IH (S n) E)].
        + intros L D [H1 H2 H3 H4 H5 H6 H7 H8]. exists [slot (a_size s1)]. cbn [app]. split; cbn.
          * constructor; [|exact H1]. apply Forall_forall. intros r I. right. cbn. apply H2 in I. lia.
          * intros r [<-|I]; cbn; [lia|]. apply H2 in I. lia.
          * lia.
          * auto.
          * auto.
          * auto.
          * intros d I. destruct (H7 d I) as (O & Gd & R). auto.
          * intros p I S. apply in_app_or in I. destruct I as [I|[<-|[]]]; [right; auto|left; reflexivity].
        + intros i u Li Nu. cbn. apply (Z1 i); auto; lia. }
    apply (Q regs 0%nat eq_refl). intros i v _ Nv. apply Z0. eapply nth_error_In; eauto.
  Qed.
  (** the whole function *)
  Theorem frame_ok order s prog sF : NoDup params -> (forall v, In v params -> v_global V v = false) ->
    (forall b i, In b order -> In i (code b) -> fits (r_insn i)) ->
    (forall v, v_global V v = false -> a_off s v = 0) -> (forall v, v_global V v = true -> a_off s v <> 0) -> a_size s = 4 ->
    alloc_func V live_out killed arity next then_ else_ rpo exit code exit_prev void params va_args order s = Some (prog, sF) ->
    exists L D, good L D sF /\ (forall b i d, In b order -> In i (code b) -> declares (r_insn i) d -> In d D) /\
      forall b c p, In (b, c) prog -> In p c -> is_store p -> In (slot (p_src1 p)) L.
  Proof.
    intros ND PL F O0 OG SZ H. unfold alloc_func in H.
    remember (start_regs params (mkra (a_var s) (a_pol s) (a_off s) (a_size s) (a_cons s) [] false 0)) as s0 eqn:E0.
    assert (S0 : a_off s0 = a_off s /\ a_size s0 = a_size s /\ a_code s0 = []).
    { rewrite E0. unfold start_regs. apply (fold_keep _ (fun t => a_off t = a_off s /\ a_size t = a_size s /\ a_code t = [])); [intros t j _ Q; exact Q|].
      apply (fold_keep _ (fun t => a_off t = a_off s /\ a_size t = a_size s /\ a_code t = [])); [intros t j _ Q; exact Q|auto]. }
    clear E0. destruct S0 as (S1 & S2 & S3).
    assert (G0 : good [] [] s0).
    { split; try rewrite S1; try rewrite S2; try rewrite S3; cbn.
      - constructor.
      - intros r [].
      - lia.
      - exact OG.
      - intros v Gv N. apply N. auto.
      - intros u v Gu _ N. exfalso. auto.
      - intros d [].
      - intros p []. }
    destruct (goes_params PL ND s0 ltac:(intros v I; rewrite S1; auto) [] [] G0) as [L1 G1]. rewrite app_nil_r in G1.
    destruct (alloc_blocks V live_out killed arity next then_ else_ rpo exit code [] order (a_code (store_params params va_args s0)) (store_params params va_args s0)) as [[l s']|] eqn:EB; [|discriminate].
    injection H as <- ->.
    destruct (goods_blocks order [] _ _ l sF L1 [] F (g_code _ _ _ G1) EB G1) as (L2 & D2 & G2 & W & C). rewrite app_nil_r in G2.
    exists (L2 ++ L1), D2. split; [exact G2|]. split; [exact W|]. intros b c p I J S. destruct (add_returns_store _ _ _ _ _ I J S) as (q & I' & J'). eauto.
  Qed.
End Frame.
