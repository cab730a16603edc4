(** The walk of bb_solve_phi_params over the dominator tree. *)
From Verif.Mid Require Import CfgProofs DomProofs.
From Verif.Mid Require Export SsaRename.

Section Walk.
  Variable V : vars.
  Variable g : cfg.
  Variable kids : nat -> list nat.
  Variable T : tree.
  Variable entry : nat.
  Variable r : nat -> Z.
  Notation R := (reach (succs g) entry).
  Hypothesis W : wf (succs g) entry r T.
  Hypothesis Hkids : forall c p, In c (kids p) <-> R c /\ c <> entry /\ T c = Some p.
  Hypothesis Hnd : forall p, NoDup (kids p).
  Variable nvars : nat.
  Variable O : nat -> list nat.                    (* the variables of the phis *)
  Variable C : nat -> list rinsn.                  (* the code *)
  Hypothesis HC : forall c i x, R c -> In i (map r_insn (C c)) -> i_rd i = Some x \/ reads i x -> (x < nvars)%nat.
  Hypothesis HO : forall c x, In x (O c) -> (x < nvars)%nat /\ v_global V x = false.
  Notation anc := (anc entry T).
  Notation good := (good nvars).

  Lemma tree_some x y : anc x y -> T y <> None -> T x <> None.
  Proof. apply anc_some with (1 := W). Qed.
  Lemma below_kids b c : T c <> None -> anc b c -> c = b \/ exists k, In k (kids b) /\ anc k c.
  Proof.
    intros Ec H. induction H as [x|a x y Nx E H IH]; [auto|]. destruct (w_up _ _ _ _ W _ _ Nx E) as (Ey & _).
    destruct (IH Ey) as [->|(k & I & A)].
    - right. exists x. split; [|apply anc_refl]. apply Hkids. split; [apply (w_reach _ _ _ _ W); congruence|auto].
    - right. exists k. split; [exact I|]. eapply anc_up; eauto.
  Qed.
  Lemma kid_below b k : In k (kids b) -> anc b k.
  Proof. intros I. apply Hkids in I as (_ & N & E). eapply anc_up; [exact N|exact E|apply anc_refl]. Qed.
  Lemma kid_not_above b k : In k (kids b) -> ~ anc k b.
  Proof. intros I A. apply Hkids in I as (_ & N & E). pose proof (anc_le _ _ _ T W _ _ A). destruct (w_up _ _ _ _ W _ _ N E) as (_ & L & _). lia. Qed.
  Lemma kids_apart b k1 k2 c : In k1 (kids b) -> In k2 (kids b) -> anc k1 c -> anc k2 c -> T c <> None -> k1 = k2.
  Proof.
    assert (H : forall k1 k2, In k1 (kids b) -> In k2 (kids b) -> anc k1 c -> anc k2 c -> T c <> None -> r k1 <= r k2 -> k1 = k2).
    { clear k1 k2. intros k1 k2 I1 I2 A1 A2 Ec L. pose proof (anc_linear _ _ _ T W _ _ _ A1 A2 L Ec) as A.
      destruct (Nat.eq_dec k1 k2) as [|N]; [assumption|]. exfalso. pose proof (proj1 (Hkids _ _) I2) as (_ & N2 & E2).
      apply (anc_up_inv _ _ _ _ _ A N) in E2. exact (kid_not_above _ _ I1 E2). }
    intros I1 I2 A1 A2 Ec. destruct (Z.le_ge_cases (r k1) (r k2)); [auto|symmetry; auto].
  Qed.

  Definition pvars (s : sst) : Prop := forall c,
    map (fun f => r_base (s_rn s) (ph_rd f)) (s_phis s c) = O c /\ forall f, In f (s_phis s c) -> (ph_rd f < r_num (s_rn s))%nat.
  Definition fresh (s : sst) (c : nat) : Prop := map ph_rd (s_phis s c) = O c /\ s_code s c = C c.
  (** the versions made in a block *)
  Definition made (s : sst) (c : nat) : list nat := map ph_rd (s_phis s c) ++ targets (s_code s c).
  (** the blocks in L have been dealt with, N being the names at their ends *)
  Record delta (L : list nat) (N : nat -> names) (s s' : sst) : Prop := mkdelta {
    dl_good : good (s_rn s');
    dl_ext : ext (s_rn s) (s_rn s');
    dl_pv : pvars s';
    dl_out : forall c, ~ In c L -> s_code s' c = s_code s c /\ map ph_rd (s_phis s' c) = map ph_rd (s_phis s c);
    dl_ops : forall c k f', nth_error (s_phis s' c) k = Some f' -> exists f x new,
      nth_error (s_phis s c) k = Some f /\ nth_error (O c) k = Some x /\ ph_ops f' = ph_ops f ++ new /\
      (forall p d, In (p, d) new -> In p L /\ In c (succs g p) /\ N p x = Some d) /\
      (forall p, In p L -> In c (succs g p) -> exists d, In (p, d) new);
    dl_new : newly V nvars (s_rn s) (s_rn s') (flat_map (made s') L) /\ forall c f, In c L -> In f (s_phis s' c) -> (nvars <= ph_rd f)%nat }.
  Definition comb {A} (L : list nat) (f h : nat -> A) (c : nat) : A := if mem c L then f c else h c.
  Lemma comb_l {A} L (f h : nat -> A) c : In c L -> comb L f h c = f c.
  Proof. intros I. unfold comb. rewrite (proj2 (mem_In c L) I). reflexivity. Qed.
  Lemma comb_r {A} L (f h : nat -> A) c : ~ In c L -> comb L f h c = h c.
  Proof. intros I. unfold comb. rewrite (proj2 (mem_not c L) I). reflexivity. Qed.
  Lemma delta_trans L1 L2 N1 N2 s s1 s2 : delta L1 N1 s s1 -> delta L2 N2 s1 s2 -> (forall c, In c L1 -> ~ In c L2) ->
    delta (L1 ++ L2) (comb L1 N1 N2) s s2.
  Proof.
    intros [A1 A2 A3 A4 A5 A6] [B1 B2 B3 B4 B5 B6] D. constructor; auto.
    - eapply ext_trans; eassumption.
    - intros c N. destruct (B4 c) as [Q1 Q2]; [intros I; apply N, in_or_app; auto|]. destruct (A4 c) as [Q3 Q4]; [intros I; apply N, in_or_app; auto|]. split; congruence.
    - intros c k f' E. destruct (B5 _ _ _ E) as (f1 & x & n2 & E1 & Ex & Eo & F2 & G2). destruct (A5 _ _ _ E1) as (f & x' & n1 & E0 & Ex' & Eo' & F1 & G1).
      assert (x' = x) by congruence. subst x'. exists f, x, (n1 ++ n2). split; [exact E0|]. split; [exact Ex|]. split; [rewrite Eo, Eo', app_assoc; reflexivity|]. split.
      + intros p d I. apply in_app_or in I as [I|I].
        * destruct (F1 _ _ I) as (Q1 & Q2 & Q3). split; [apply in_or_app; auto|]. split; [exact Q2|]. rewrite comb_l by exact Q1. exact Q3.
        * destruct (F2 _ _ I) as (Q1 & Q2 & Q3). split; [apply in_or_app; auto|]. split; [exact Q2|]. rewrite comb_r by (intros I1; exact (D _ I1 Q1)). exact Q3.
      + intros p I Is. apply in_app_or in I as [I|I]; [destruct (G1 p I Is) as [d Q]|destruct (G2 p I Is) as [d Q]]; exists d; apply in_or_app; auto.
    - destruct A6 as [A6 A7]. destruct B6 as [B6 B7]. split.
      + rewrite flat_map_app. apply (newly_app V nvars _ (s_rn s1)); [apply (e_num _ _ A2)|apply (e_num _ _ B2)| |exact B6].
        replace (flat_map (made s2) L1) with (flat_map (made s1) L1); [exact A6|]. clear - B4 D. induction L1 as [|c L1 IH]; [reflexivity|]. cbn [flat_map].
        rewrite IH by (intros d J; apply D; right; exact J). f_equal. unfold made. destruct (B4 c (D c (or_introl eq_refl))) as [-> ->]. reflexivity.
      + intros c f J Jf. apply in_app_or in J as [J|J]; [|exact (B7 c f J Jf)]. destruct (B4 c (D c J)) as [_ Q].
        assert (Z : In (ph_rd f) (map ph_rd (s_phis s1 c))) by (rewrite <- Q; apply in_map; exact Jf). apply in_map_iff in Z as (f1 & <- & Z). exact (A7 c f1 J Z).
  Qed.
  Lemma delta_nil N s : good (s_rn s) -> pvars s -> delta [] N s s.
  Proof.
    intros G P. constructor; auto; [apply ext_refl| |]. 1: intros c k f E; destruct (P c) as [P1 P2].
    assert (Q : nth_error (O c) k = Some (r_base (s_rn s) (ph_rd f))) by (rewrite <- P1; apply (map_nth_error (fun f => r_base (s_rn s) (ph_rd f))); exact E).
    exists f, (r_base (s_rn s) (ph_rd f)), []. rewrite app_nil_r. split; [exact E|]. split; [exact Q|]. split; [reflexivity|]. split; [intros p d []|intros p []].
    - split; [apply newly_nil|intros c f []].
  Qed.

  (** ** one block *)
  Lemma add_operands_ok b : forall l r0 l', add_operands b l r0 = Some l' ->
    map ph_rd l' = map ph_rd l /\
    forall k f', nth_error l' k = Some f' -> exists f d, nth_error l k = Some f /\ ph_ops f' = ph_ops f ++ [(b, d)] /\ top (r_base r0 (ph_rd f)) r0 = Some d.
  Proof.
    induction l as [|f l IH]; intros r0 l' H; cbn [add_operands] in H.
    - injection H as <-. split; [reflexivity|]. intros [|k] f' E; discriminate.
    - destruct (top _ r0) as [d|] eqn:E; [|discriminate]. destruct (add_operands b l r0) as [l1|] eqn:E1; [|discriminate]. injection H as <-.
      destruct (IH _ _ E1) as [I1 I2]. split; [cbn [map ph_rd]; rewrite I1; reflexivity|]. intros [|k] f' Q; cbn [nth_error] in *; [|exact (I2 _ _ Q)].
      injection Q as <-. exists f, d. auto.
  Qed.
  Lemma feed_ok b oc s s' : pvars s -> feed b oc s = Some s' ->
    s_rn s' = s_rn s /\ s_code s' = s_code s /\ (forall c, map ph_rd (s_phis s' c) = map ph_rd (s_phis s c)) /\ pvars s' /\
    forall c k f', nth_error (s_phis s' c) k = Some f' -> exists f x new,
      nth_error (s_phis s c) k = Some f /\ nth_error (O c) k = Some x /\ ph_ops f' = ph_ops f ++ new /\
      (forall p d, In (p, d) new -> p = b /\ oc = Some c /\ top x (s_rn s) = Some d) /\ (oc = Some c -> exists d, In (b, d) new).
  Proof.
    intros P H. assert (Same : forall c k f, nth_error (s_phis s c) k = Some f -> nth_error (O c) k = Some (r_base (s_rn s) (ph_rd f))).
    { intros c k f E. rewrite <- (proj1 (P c)). apply (map_nth_error (fun f => r_base (s_rn s) (ph_rd f))). exact E. }
    unfold feed in H. destruct oc as [a|].
    - destruct (add_operands b (s_phis s a) (s_rn s)) as [l|] eqn:E; [|discriminate]. injection H as <-. cbn [s_rn s_code s_phis].
      destruct (add_operands_ok _ _ _ _ E) as [A1 A2]. split; [reflexivity|]. split; [reflexivity|].
      assert (Rd : forall c, map ph_rd (upd (s_phis s) a l c) = map ph_rd (s_phis s c)) by (intros c; unfold upd; destruct (Nat.eqb_spec c a) as [->|]; [exact A1|reflexivity]).
      split; [exact Rd|]. split.
      + intros c. cbn [s_rn s_phis]. destruct (P c) as [P1 P2]. split.
        * rewrite <- P1, <- (map_map ph_rd (r_base (s_rn s))), Rd, map_map. reflexivity.
        * intros f I. assert (I' : In (ph_rd f) (map ph_rd (s_phis s c))) by (rewrite <- Rd; apply in_map; exact I). apply in_map_iff in I' as (f0 & <- & I0). auto.
      + intros c k f'. unfold upd. destruct (Nat.eqb_spec c a) as [->|Nc]; intros Q.
        * destruct (A2 _ _ Q) as (f & d & E1 & E2 & E3). exists f, (r_base (s_rn s) (ph_rd f)), [(b, d)]. split; [exact E1|]. split; [apply Same; exact E1|]. split; [exact E2|].
          split; [intros p e [I|[]]; injection I as <- <-; auto|]. intros _. exists d. left. reflexivity.
        * exists f', (r_base (s_rn s) (ph_rd f')), []. rewrite app_nil_r. split; [exact Q|]. split; [apply Same; exact Q|]. split; [reflexivity|]. split; [intros p d []|]. congruence.
    - injection H as <-. split; [reflexivity|]. split; [reflexivity|]. split; [reflexivity|]. split; [exact P|].
      intros c k f' Q. exists f', (r_base (s_rn s) (ph_rd f')), []. rewrite app_nil_r. split; [exact Q|]. split; [apply Same; exact Q|]. split; [reflexivity|]. split; [intros p d []|discriminate].
  Qed.
  Definition blockdone (B : nat -> nat) (s : sst) (Nin Nout : names) (c : nat) : Prop :=
    exists m1, renp B Nin (O c) (map ph_rd (s_phis s c)) m1 /\ ren V B m1 (C c) (s_code s c) Nout.
  Lemma solve_start_ok b s s' : R b -> good (s_rn s) -> pvars s -> fresh s b -> solve_start V g b s = Some s' ->
    delta [b] (fun _ => tops (s_rn s')) s s' /\
    forall B, agree B (s_rn s') -> blockdone B s' (tops (s_rn s)) (tops (s_rn s')) b /\ pushed V B (map ph_rd (s_phis s' b) ++ targets (s_code s' b)) (s_rn s) (s_rn s').
  Proof.
    intros Rb G P [F1 F2] H. unfold solve_start in H.
    destruct (rename_phis V (s_phis s b) (s_rn s)) as [[ps r1]|] eqn:E1; [|discriminate].
    destruct (rename_insns V (s_code s b) r1) as [[l r2]|] eqn:E2; [|discriminate].
    assert (L1 : forall f, In f (s_phis s b) -> (ph_rd f < nvars)%nat /\ v_global V (ph_rd f) = false) by (intros f I; apply (HO b); rewrite <- F1; apply in_map; exact I).
    destruct (rename_phis_ok V nvars _ _ _ _ G L1 E1) as (G1 & X1 & [D1 D1'] & M1 & O1 & K1).
    assert (L2 : forall i x, In i (map r_insn (s_code s b)) -> i_rd i = Some x \/ reads i x -> (x < nvars)%nat) by (intros i x I; apply (HC b); [exact Rb|rewrite <- F2; exact I]).
    destruct (rename_insns_ok V nvars _ _ _ _ G1 L2 E2) as (G2 & X2 & D2 & K2).
    set (s1 := mksst r2 _ _) in H. assert (X : ext (s_rn s) r2) by (eapply ext_trans; eassumption).
    assert (P1 : pvars s1).
    { intros c. unfold s1. cbn [s_rn s_phis]. unfold upd. destruct (Nat.eqb_spec c b) as [->|Nc].
      - pose proof (fun f I => nw_below _ _ _ _ _ D1 (ph_rd f) (in_map ph_rd _ f I)) as D0.
        split; [|intros f I; pose proof (D0 f I); pose proof (e_num _ _ X2); lia]. rewrite <- F1, <- M1. apply map_ext_in. intros f I. apply (e_base _ _ X2). auto.
      - destruct (P c) as [Q1 Q2]. split; [|intros f I; pose proof (Q2 f I); pose proof (e_num _ _ X); lia]. rewrite <- Q1. apply map_ext_in. intros f I. apply (e_base _ _ X). auto. }
    destruct (feed b (g_next g b) s1) as [s2|] eqn:H2; [|discriminate]. destruct (feed b (g_then g b) s2) as [s3|] eqn:H3; [|discriminate].
    destruct (feed_ok _ _ _ _ P1 H2) as (A1 & A2 & A3 & A4 & A5). destruct (feed_ok _ _ _ _ A4 H3) as (B1 & B2 & B3 & B4 & B5). destruct (feed_ok _ _ _ _ B4 H) as (C1 & C2 & C3 & C4 & C5).
    assert (Er : s_rn s' = r2) by (rewrite C1, B1, A1; reflexivity). rewrite A1 in B5. rewrite B1, A1 in C5. change (s_rn s1) with r2 in A5, B5, C5.
    assert (Ec : s_code s' = upd (s_code s) b l) by (rewrite C2, B2, A2; reflexivity).
    assert (Ep : forall c, map ph_rd (s_phis s' c) = map ph_rd (upd (s_phis s) b ps c)) by (intros c; rewrite C3, B3, A3; reflexivity).
    rewrite Er. split.
    - constructor; rewrite ?Er; auto.
      + intros c N. rewrite Ec, Ep. unfold upd. destruct (Nat.eqb_spec c b) as [->|Nc]; [destruct N; left; reflexivity|auto].
      + intros c k f' Q. destruct (C5 _ _ _ Q) as (f3 & x & n3 & Q3 & Qx & O3 & U3 & T3). destruct (B5 _ _ _ Q3) as (f2 & x2 & n2 & Q2 & Qx2 & O2 & U2 & T2). destruct (A5 _ _ _ Q2) as (f1 & x1 & n1 & Q1 & Qx1 & O1' & U1 & T1).
        assert (x2 = x) by congruence. assert (x1 = x) by congruence. subst x1 x2.
        assert (Q0 : exists f, nth_error (s_phis s c) k = Some f /\ ph_ops f1 = ph_ops f).
        { unfold s1 in Q1. cbn [s_phis] in Q1. unfold upd in Q1. destruct (Nat.eqb_spec c b) as [->|Nc]; [|eauto].
          assert (Z : nth_error (map ph_ops ps) k = Some (ph_ops f1)) by (apply map_nth_error; exact Q1). rewrite O1 in Z.
          destruct (nth_error (s_phis s b) k) as [f|] eqn:Z2; [exists f; rewrite (map_nth_error ph_ops _ _ Z2) in Z; split; [reflexivity|congruence]|].
          apply nth_error_None in Z2. assert (k < length (map ph_ops (s_phis s b)))%nat by (apply nth_error_Some; congruence). rewrite map_length in *. lia. }
        destruct Q0 as (f & Q0 & O0). exists f, x, (n1 ++ n2 ++ n3). split; [exact Q0|]. split; [exact Qx|]. split; [rewrite O3, O2, O1', O0, <- !app_assoc; reflexivity|]. unfold succs. split.
        * intros p d I. repeat (apply in_app_or in I as [I|I]); [destruct (U1 _ _ I) as (-> & -> & Z)|destruct (U2 _ _ I) as (-> & -> & Z)|destruct (U3 _ _ I) as (-> & -> & Z)];
            (split; [left; reflexivity|]); (split; [rewrite !in_app_iff; cbn; auto|exact Z]).
        * intros p [<-|[]] I. rewrite !in_app_iff in I. destruct I as [I|[I|I]].
          -- destruct (g_next g b) as [a|]; [|destruct I]. destruct I as [<-|[]]. destruct (T1 eq_refl) as [d Z]. exists d. rewrite !in_app_iff. auto.
          -- destruct (g_then g b) as [a|]; [|destruct I]. destruct I as [<-|[]]. destruct (T2 eq_refl) as [d Z]. exists d. rewrite !in_app_iff. auto.
          -- destruct (g_else g b) as [a|]; [|destruct I]. destruct I as [<-|[]]. destruct (T3 eq_refl) as [d Z]. exists d. rewrite !in_app_iff. auto.
      + split.
        * cbn [flat_map]. unfold made. rewrite app_nil_r, Ec, Ep, !upd_same. apply (newly_app V nvars _ r1); [apply (e_num _ _ X1)|apply (e_num _ _ X2)|exact D1|exact D2].
        * intros c f [<-|[]] J. assert (Z : In (ph_rd f) (map ph_rd ps)) by (rewrite <- (upd_same (s_phis s) b ps), <- Ep; apply in_map; exact J).
          apply in_map_iff in Z as (f1 & <- & Z). exact (D1' f1 Z).
    - intros B A. destruct (K2 B A) as [R2 Pu2]. destruct (K1 B (agree_ext _ _ _ X2 A)) as [R1 Pu1]. rewrite Ec, Ep, !upd_same. split.
      + exists (tops r1). rewrite Ec, Ep, !upd_same, <- F1, <- F2. auto.
      + eapply pushed_app; eassumption.
  Qed.

  (** ** the subtree *)
  Fixpoint each_block (n : nat) (l : list nat) (s : sst) : option sst :=
    match l with
    | [] => Some s
    | c :: rest => match solve_block V g kids n c s with Some s => each_block n rest s | None => None end
    end.
  Lemma solve_block_eq n b s : solve_block V g kids (S n) b s =
    match solve_start V g b s with
    | None => None
    | Some s => match each_block n (kids b) s with None => None | Some s => Some (solve_end V b s) end
    end.
  Proof.
    cbn [solve_block]. destruct (solve_start V g b s) as [s1|]; [|reflexivity].
    assert (E : forall l s, (fix each (l : list nat) (s : sst) : option sst := match l with [] => Some s | c :: r => match solve_block V g kids n c s with Some s => each r s | None => None end end) l s = each_block n l s).
    { induction l as [|c l IH]; intros s2; cbn [each_block]; [reflexivity|]. destruct (solve_block V g kids n c s2); auto. }
    rewrite E. reflexivity.
  Qed.
  Record walked (b : nat) (L : list nat) (Nin Nout : nat -> names) (s s' : sst) : Prop := mkw {
    wk_all : forall c, T c <> None -> (In c L <-> anc b c);
    wk_reach : forall c, In c L -> T c <> None;
    wk_delta : delta L Nout s s';
    wk_stack : forall x, r_stack (s_rn s') x = r_stack (s_rn s) x;
    wk_done : forall B, agree B (s_rn s') -> forall c, In c L -> blockdone B s' (Nin c) (Nout c) c;
    wk_root : forall x, Nin b x = top x (s_rn s);
    wk_up : forall c p, In c L -> c <> b -> T c = Some p -> In p L /\ keeps (Nout p) (Nin c) }.
  Record walked_all (ks : list nat) (L : list nat) (Nin Nout : nat -> names) (s s' : sst) : Prop := mkwa {
    wa_all : forall c, T c <> None -> (In c L <-> exists k, In k ks /\ anc k c);
    wa_reach : forall c, In c L -> T c <> None;
    wa_delta : delta L Nout s s';
    wa_stack : forall x, r_stack (s_rn s') x = r_stack (s_rn s) x;
    wa_done : forall B, agree B (s_rn s') -> forall c, In c L -> blockdone B s' (Nin c) (Nout c) c;
    wa_root : forall k x, In k ks -> Nin k x = top x (s_rn s);
    wa_up : forall c p, In c L -> ~ In c ks -> T c = Some p -> In p L /\ keeps (Nout p) (Nin c) }.
  Lemma done_same B s s' Nin Nout c : s_code s' c = s_code s c -> map ph_rd (s_phis s' c) = map ph_rd (s_phis s c) -> blockdone B s Nin Nout c -> blockdone B s' Nin Nout c.
  Proof. intros E1 E2 (m & A1 & A2). exists m. rewrite E1, E2. auto. Qed.
  Theorem solve_block_ok n : forall b s s', R b -> T b <> None -> good (s_rn s) -> pvars s -> (forall c, T c <> None -> anc b c -> fresh s c) ->
    solve_block V g kids n b s = Some s' -> exists L Nin Nout, walked b L Nin Nout s s'.
  Proof.
    induction n as [|n IH]; intros b s s' Rb Tb G P F H; [discriminate|]. rewrite solve_block_eq in H.
    destruct (solve_start V g b s) as [s1|] eqn:E1; [|discriminate]. destruct (each_block n (kids b) s1) as [s2|] eqn:E2; [|discriminate]. injection H as <-.
    destruct (solve_start_ok b s s1 Rb G P (F b Tb (anc_refl _ _ _)) E1) as [D1 K1].
    assert (Fk : forall ks, (forall k, In k ks -> In k (kids b)) -> NoDup ks -> forall s s', good (s_rn s) -> pvars s -> (forall k c, In k ks -> T c <> None -> anc k c -> fresh s c) ->
      each_block n ks s = Some s' -> exists L Nin Nout, walked_all ks L Nin Nout s s').
    { clear - IH Hkids W Hnd HC HO. induction ks as [|k ks IHk]; intros Hk ND s s' G P F H; cbn [each_block] in H.
      - injection H as <-. exists [], (fun _ _ => None), (fun _ _ => None). constructor; [|intros c []|apply delta_nil; assumption|reflexivity|intros B _ c []|intros k x []|intros c p []].
        intros c _. split; [intros []|intros (k & [] & _)].
      - destruct (solve_block V g kids n k s) as [s1|] eqn:E; [|discriminate]. apply NoDup_cons_iff in ND as [Nk ND].
        pose proof (proj1 (Hkids k b) (Hk k (or_introl eq_refl))) as (Rk & _ & Tk).
        destruct (IH k s s1 Rk ltac:(congruence) G P (fun c Tc A => F k c (or_introl eq_refl) Tc A) E) as (L1 & I1 & O1 & W1).
        pose proof (wk_delta _ _ _ _ _ _ W1) as D1.
        assert (Dis : forall c, In c L1 -> forall k', In k' ks -> ~ anc k' c).
        { intros c I k' Ik A. pose proof (wk_reach _ _ _ _ _ _ W1 c I) as Tc. apply (wk_all _ _ _ _ _ _ W1 c Tc) in I.
          assert (k = k') by (apply (kids_apart b k k' c); auto using in_cons, in_eq). congruence. }
        destruct (IHk (fun j I => Hk j (or_intror I)) ND s1 s' (dl_good _ _ _ _ D1) (dl_pv _ _ _ _ D1)) as (L2 & I2 & O2 & W2); [|exact H|].
        { intros k' c Ik Tc A. destruct (dl_out _ _ _ _ D1 c) as [Q1 Q2]; [intros I; exact (Dis c I k' Ik A)|]. destruct (F k' c (or_intror Ik) Tc A) as [F1 F2]. split; congruence. }
        pose proof (wa_delta _ _ _ _ _ _ W2) as D2.
        assert (Dj : forall c, In c L1 -> ~ In c L2).
        { intros c I J. pose proof (wa_reach _ _ _ _ _ _ W2 c J) as Tc. apply (wa_all _ _ _ _ _ _ W2 c Tc) in J as (k' & Ik & A). exact (Dis c I k' Ik A). }
        exists (L1 ++ L2), (comb L1 I1 I2), (comb L1 O1 O2). constructor.
        + intros c Tc. rewrite in_app_iff, (wk_all _ _ _ _ _ _ W1 c Tc), (wa_all _ _ _ _ _ _ W2 c Tc). split.
          * intros [A|(k' & I & A)]; [exists k|exists k']; split; auto; [left; reflexivity|right; exact I].
          * intros (k' & [<-|I] & A); [auto|right; eauto].
        + intros c I. apply in_app_or in I as [I|I]; [eapply wk_reach; eassumption|eapply wa_reach; eassumption].
        + apply (delta_trans _ _ _ _ _ _ _ D1 D2 Dj).
        + intros x. rewrite (wa_stack _ _ _ _ _ _ W2). apply (wk_stack _ _ _ _ _ _ W1).
        + intros B A c I. destruct (in_dec Nat.eq_dec c L1) as [J|J].
          * rewrite !comb_l by exact J. destruct (dl_out _ _ _ _ D2 c (Dj c J)) as [Q1 Q2]. apply (done_same B s1 s' _ _ c Q1 Q2). apply (wk_done _ _ _ _ _ _ W1); [|exact J]. eapply agree_ext; [exact (dl_ext _ _ _ _ D2)|exact A].
          * rewrite !comb_r by exact J. apply in_app_or in I as [I|I]; [contradiction|]. apply (wa_done _ _ _ _ _ _ W2); assumption.
        + intros j x I. destruct (in_dec Nat.eq_dec j L1) as [J|J].
          * rewrite comb_l by exact J. destruct I as [<-|I]; [apply (wk_root _ _ _ _ _ _ W1)|]. destruct (Dis j J j I (anc_refl _ _ _)).
          * rewrite comb_r by exact J. destruct I as [<-|I]; [destruct J; apply (wk_all _ _ _ _ _ _ W1); [congruence|apply anc_refl]|].
            rewrite (wa_root _ _ _ _ _ _ W2 j x I). apply top_same with (nvars := nvars); [exact G|exact (dl_good _ _ _ _ D1)|exact (dl_ext _ _ _ _ D1)|apply (wk_stack _ _ _ _ _ _ W1)].
        + intros c p I Nk' E0. destruct (in_dec Nat.eq_dec c L1) as [J|J].
          * destruct (wk_up _ _ _ _ _ _ W1 c p J) as [Q1 Q2]; [intros ->; apply Nk'; left; reflexivity|exact E0|]. split; [apply in_or_app; auto|]. rewrite !comb_l by assumption. exact Q2.
          * apply in_app_or in I as [I|I]; [contradiction|]. destruct (wa_up _ _ _ _ _ _ W2 c p I) as [Q1 Q2]; [intros Q; apply Nk'; right; exact Q|exact E0|].
            split; [apply in_or_app; auto|]. rewrite !comb_r by (try assumption; intros Z; exact (Dj _ Z Q1)). exact Q2. }
    destruct (Fk (kids b) (fun _ I => I) (Hnd b) s1 s2 (dl_good _ _ _ _ D1) (dl_pv _ _ _ _ D1)) as (L2 & I2 & O2 & W2); [|exact E2|].
    { intros k c Ik Tc A. destruct (dl_out _ _ _ _ D1 c) as [Q1 Q2].
      - intros [<-|[]]. exact (kid_not_above _ _ Ik A).
      - destruct (F c Tc) as [F1 F2]; [eapply anc_trans; [apply kid_below; exact Ik|exact A]|]. split; congruence. }
    pose proof (wa_delta _ _ _ _ _ _ W2) as D2.
    assert (Nb : ~ In b L2). { intros I. apply (wa_all _ _ _ _ _ _ W2 b Tb) in I as (k & Ik & A). exact (kid_not_above _ _ Ik A). }
    destruct (dl_out _ _ _ _ D2 b Nb) as [Q1 Q2].
    set (ts := map ph_rd (s_phis s2 b) ++ targets (s_code s2 b)).
    assert (X12 : ext (s_rn s) (s_rn s2)) by (refine (ext_trans nvars _ _ _ _ _); [exact (dl_ext _ _ _ _ D1)|exact (dl_ext _ _ _ _ D2)]).
    assert (Pu : pushed V (r_base (s_rn s2)) ts (s_rn s) (s_rn s1)).
    { unfold ts. rewrite Q1, Q2. apply K1. intros d Ld. apply (e_base _ _ (dl_ext _ _ _ _ D2)). exact Ld. }
    destruct (pop_restores V nvars ts (s_rn s) (s_rn s1) (s_rn s2) G (dl_good _ _ _ _ D2) X12 Pu (wa_stack _ _ _ _ _ _ W2)) as (G3 & X3 & S3).
    assert (Rb3 : r_base (s_rn (solve_end V b s2)) = r_base (s_rn s2)) by (apply (pop_all_ok V ts (s_rn s2))).
    assert (Rn3 : r_num (s_rn (solve_end V b s2)) = r_num (s_rn s2)) by (apply (pop_all_ok V ts (s_rn s2))).
    exists ([b] ++ L2), (comb [b] (fun _ => tops (s_rn s)) I2), (comb [b] (fun _ => tops (s_rn s1)) O2).
    assert (D3 : delta ([b] ++ L2) (comb [b] (fun _ => tops (s_rn s1)) O2) s (solve_end V b s2)).
    { destruct (delta_trans _ _ _ _ _ _ _ D1 D2) as [A1 A2 A3 A4 A5 [A6 A7]]; [intros c [<-|[]]; exact Nb|]. constructor; auto.
      - refine (ext_trans nvars _ _ _ _ _); [exact X12|exact X3].
      - intros c. rewrite Rb3, Rn3. exact (A3 c).
      - split; [|exact A7]. destruct A6 as [N1 N2 N3 N4]. constructor; [exact N1|intros d J; rewrite Rn3; exact (N2 d J)|exact N3|exact N4]. }
    constructor; auto.
    - intros c Tc. rewrite in_app_iff, (wa_all _ _ _ _ _ _ W2 c Tc). cbn [In]. split.
      + intros [[<-|[]]|(k & I & A)]; [apply anc_refl|]. eapply anc_trans; [apply kid_below; exact I|exact A].
      + intros A. destruct (below_kids b c Tc A) as [->|Q]; auto.
    - intros c [<-|I]; [exact Tb|]. eapply wa_reach; eassumption.
    - intros B A c I. assert (A2 : agree B (s_rn s2)) by (eapply agree_ext; [exact X3|exact A]). destruct (Nat.eq_dec c b) as [->|Nc].
      + rewrite !comb_l by (left; reflexivity). apply (done_same B s1 (solve_end V b s2) _ _ b Q1 Q2). apply K1. eapply agree_ext; [exact (dl_ext _ _ _ _ D2)|exact A2].
      + destruct I as [I|I]; [congruence|]. assert (N1 : ~ In c [b]) by (intros [Z|[]]; congruence). rewrite !comb_r by exact N1. apply (wa_done _ _ _ _ _ _ W2); assumption.
    - intros x. rewrite comb_l by (left; reflexivity). reflexivity.
    - intros c p [I|I] Nc E0; [congruence|]. assert (N1 : ~ In c [b]) by (intros [Z|[]]; congruence). rewrite (comb_r [b] (fun _ => tops (s_rn s)) I2 c N1).
      destruct (in_dec Nat.eq_dec c (kids b)) as [Ik|Ik].
      + assert (p = b) by (apply Hkids in Ik as (_ & _ & Ik); congruence). subst p. split; [left; reflexivity|]. rewrite comb_l by (left; reflexivity).
        intros x. rewrite (wa_root _ _ _ _ _ _ W2 c x Ik). reflexivity.
      + destruct (wa_up _ _ _ _ _ _ W2 c p I Ik E0) as [Z1 Z2]. split; [right; exact Z1|]. rewrite comb_r; [exact Z2|]. intros [<-|[]]. contradiction.
  Qed.
End Walk.
