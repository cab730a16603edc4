From Verif.Mid Require Import Cfg Graph CfgProofs.

Section Shift.
  Variable succ : nat -> list nat.
  Variable root : nat.
  Variables V1 V2 : Z.
  Definition shifted (v1 v2 : nat -> Z) := forall x, reach succ root x -> V1 - v1 x = V2 - v2 x.
  Lemma search_shift fuel : forall b v1 v2 l v1' l', reach succ root b -> shifted v1 v2 ->
    search succ V1 fuel b (v1, l) = Some (v1', l') ->
    exists v2', search succ V2 fuel b (v2, l) = Some (v2', l') /\ shifted v1' v2'.
  Proof.
    induction fuel as [|fuel IH]; intros b v1 v2 l v1' l' R H T; [discriminate|].
    unfold search in *. rewrite traverse_eq in *. unfold nop in *.
    assert (E : forall cs v1 v2 l v1' l', (forall c, In c cs -> reach succ root c) -> shifted v1 v2 ->
       each succ (fun _ s => s) snoc V1 fuel cs (v1, l) = Some (v1', l') ->
       exists v2', each succ (fun _ s => s) snoc V2 fuel cs (v2, l) = Some (v2', l') /\ shifted v1' v2').
    { clear - IH. induction cs as [|c cs IHc]; intros v1 v2 l v1' l' R H T; cbn [each fst] in *.
      - inversion T; subst. eauto.
      - assert (Q : (v2 c <? V2) = (v1 c <? V1)) by (specialize (H c (R c (or_introl eq_refl))); lia). rewrite Q.
        destruct (v1 c <? V1); [|eapply IHc; eauto; intros; apply R; right; assumption].
        destruct (traverse succ _ snoc V1 fuel c (v1, l)) as [[v3 l3]|] eqn:T1; [|discriminate].
        destruct (IH _ _ _ _ _ _ (R c (or_introl eq_refl)) H T1) as (v4 & T4 & H4). rewrite T4.
        eapply IHc; eauto. intros; apply R; right; assumption. }
    destruct (each succ _ snoc V1 fuel _ _) as [[v3 l3]|] eqn:T1; [|discriminate]. inversion T; subst.
    assert (H' : shifted (upd v1 b (v1 b + 1)) (upd v2 b (v2 b + 1))).
    { intros x Rx. unfold upd. destruct (Nat.eqb_spec x b) as [->|]; specialize (H _ Rx); lia. }
    destruct (E _ _ _ _ _ _ (fun c I => reach_step _ _ _ _ R I) H' T1) as (v4 & -> & H4). eauto.
  Qed.
End Shift.

(** the three callbacks over the list L ++ [head] of finished blocks *)
Section Passes.
  Variable n : nat.
  Lemma fold_index l : forall o, NoDup l ->
    let o' := fold bb_index_rpo l o in
    o_next o' = o_next o /\ o_cnt o' = o_cnt o + Z.of_nat (length l) /\
    (forall i b, nth_error l i = Some b -> o_rpo o' b = o_cnt o + Z.of_nat i) /\
    (forall b, ~ In b l -> o_rpo o' b = o_rpo o b).
  Proof.
    induction l as [|a l IH]; intros o N; cbn zeta.
    - unfold fold; cbn. repeat split; try lia; try (intros [|i] b H; discriminate).
    - inversion N as [|a' l' Na N' X]; subst.
      change (fold bb_index_rpo (a :: l) o) with (fold bb_index_rpo l (bb_index_rpo a o)).
      destruct (IH (bb_index_rpo a o) N') as (E1 & E2 & E3 & E4). cbn [bb_index_rpo o_next o_cnt] in *.
      split; [exact E1|]. split; [rewrite E2; cbn [length]; lia|]. split.
      + intros [|i] b H; cbn in H.
        * inversion H; subst. rewrite E4 by exact Na. unfold bb_index_rpo. cbn [o_rpo]. rewrite upd_same. lia.
        * rewrite (E3 i b H). lia.
      + intros b Nb. rewrite E4 by (intros I; apply Nb; right; exact I). unfold bb_index_rpo; cbn [o_rpo]. apply upd_other.
        intros ->. apply Nb. left. reflexivity.
  Qed.
  Lemma fold_reverse l : forall o, NoDup l ->
    let o' := fold bb_reverse_index l o in
    o_next o' = o_next o /\ o_cnt o' = o_cnt o /\
    (forall b, In b l -> o_rpo o' b = o_cnt o - o_rpo o b) /\
    (forall b, ~ In b l -> o_rpo o' b = o_rpo o b).
  Proof.
    induction l as [|a l IH]; intros o N; cbn zeta.
    - unfold fold; cbn. repeat split; try lia; try (intros b []).
    - inversion N as [|a' l' Na N' X]; subst.
      change (fold bb_reverse_index (a :: l) o) with (fold bb_reverse_index l (bb_reverse_index a o)).
      destruct (IH (bb_reverse_index a o) N') as (E1 & E2 & E3 & E4). unfold bb_reverse_index in E1, E2, E3, E4.
      cbn [o_next o_cnt o_rpo] in *.
      split; [exact E1|]. split; [exact E2|]. split.
      + intros b [->|I].
        * rewrite E4 by exact Na. rewrite upd_same. lia.
        * rewrite E3 by exact I. rewrite upd_other; [reflexivity|]. intros ->. contradiction.
      + intros b Nb. rewrite E4 by (intros I; apply Nb; right; exact I). apply upd_other.
        intros ->. apply Nb. left. reflexivity.
  Qed.

  Lemma chain_upd_out next b v : forall l s, chain next s l -> ~ In b l -> chain (upd next b v) s l.
  Proof.
    induction l as [|a l IH]; intros s C Nb; inversion C; subst; constructor.
    rewrite upd_other by (intros ->; apply Nb; left; reflexivity). apply IH; [assumption|].
    intros I. apply Nb. right. exact I.
  Qed.

  Lemma fold_build fuel head rpo : (1 <= fuel)%nat -> forall l next cnt done_,
    NoDup (l ++ done_) -> ~ In head (l ++ done_) ->
    chain next (next head) done_ ->
    (forall b, In b l -> next b = None) ->
    (forall x y, In x l -> In y done_ -> rpo x <= rpo y) ->
    (forall l1 x l2 y, l = l1 ++ x :: l2 -> In y l2 -> rpo y <= rpo x) ->
    exists next', fold (bb_build_rpo fuel head) l (Some (mkorder rpo next cnt)) = Some (mkorder rpo next' cnt) /\
                  chain next' (next' head) (rev l ++ done_).
  Proof.
    intros F. induction l as [|a l IH]; intros next cnt dn N Nh C Z R1 R2.
    - exists next. split; [reflexivity|exact C].
    - change (fold (bb_build_rpo fuel head) (a :: l) ?s) with (fold (bb_build_rpo fuel head) l (bb_build_rpo fuel head a s)).
      cbn [bb_build_rpo]. destruct (Nat.eqb_spec head a) as [->|Na]; [destruct Nh; left; reflexivity|].
      destruct fuel as [|fuel']; [lia|]. cbn [rpo_insert o_rpo o_next o_cnt].
      set (nx := match next head with None => upd next head (Some a) | Some curr => upd (upd next a (Some curr)) head (Some a) end).
      assert (E : match next head with
                  | None => Some (upd next head (Some a))
                  | Some curr => if rpo curr <? rpo a then rpo_insert fuel' rpo next curr a
                                 else Some (upd (upd next a (Some curr)) head (Some a))
                  end = Some nx).
      { unfold nx. destruct (next head) as [c|] eqn:Q; [|reflexivity]. inversion C; subst.
        assert (rpo a <= rpo c) by (apply R1; left; reflexivity). destruct (Z.ltb_spec (rpo c) (rpo a)); [lia|reflexivity]. }
      rewrite E. inversion N as [|a' l' Nin N' X]; subst.
      assert (Ca : chain nx (nx head) (a :: dn)).
      { unfold nx. destruct (next head) as [c|] eqn:Q.
        - rewrite upd_same. constructor. rewrite upd_other by congruence. rewrite upd_same.
          apply chain_upd_out; [apply chain_upd_out; [exact C|]|].
          + intros I. apply Nin. apply in_or_app. right. exact I.
          + intros I. apply Nh. right. apply in_or_app. right. exact I.
        - inversion C; subst. rewrite upd_same. constructor. rewrite upd_other by congruence.
          rewrite (Z a (or_introl eq_refl)). constructor. }
      destruct (IH nx cnt (a :: dn)) as (nx' & E' & C').
      + apply NoDup_Add with (a := a) (l := l ++ dn); [apply Add_app|]. split; assumption.
      + intros I. apply Nh. apply in_app_or in I as [I|[->|I]]; [right; apply in_or_app; left; exact I|left; reflexivity|right; apply in_or_app; right; exact I].
      + exact Ca.
      + intros b I. assert (b <> a) by (intros ->; apply Nin; apply in_or_app; left; exact I).
        assert (b <> head) by (intros ->; apply Nh; right; apply in_or_app; left; exact I).
        unfold nx. destruct (next head); rewrite ?upd_other by congruence; apply Z; right; exact I.
      + intros x y I [<-|J]; [apply (R2 [] a l); [reflexivity|exact I]|apply R1; [right; exact I|exact J]].
      + intros l1 x l2 y -> I. apply (R2 (a :: l1) x l2); [reflexivity|exact I].
      + exists nx'. split; [exact E'|]. cbn [rev]. rewrite <- app_assoc. exact C'.
  Qed.
End Passes.

Lemma before_nth l x y i j : NoDup l -> before l x y -> nth_error l i = Some x -> nth_error l j = Some y -> (i < j)%nat.
Proof.
  intros N (l1 & l2 & -> & I1 & I2) Ei Ej.
  apply In_nth_error in I1 as (i' & Hi). apply In_nth_error in I2 as (j' & Hj).
  assert (Li : (i' < length l1)%nat) by (apply nth_error_Some; congruence).
  assert (i = i').
  { eapply (proj1 (NoDup_nth_error (l1 ++ l2)) N); [apply nth_error_Some; congruence|]. rewrite Ei, nth_error_app1 by exact Li. auto. }
  assert (j = (length l1 + j')%nat).
  { eapply (proj1 (NoDup_nth_error (l1 ++ l2)) N); [apply nth_error_Some; congruence|]. rewrite Ej, nth_error_app2 by lia.
    replace (length l1 + j' - length l1)%nat with j' by lia. auto. }
  lia.
Qed.

(** the order produced *)
Record good_order (succ : nat -> list nat) (head : nat) (rpo : nat -> Z) (next : nat -> option nat) (cnt : Z) (L : list nat) : Prop := {
  go_chain : chain next (Some head) L;
  go_nodup : NoDup L;
  go_all : forall b, In b L <-> reach succ head b;
  go_rpo : forall i b, nth_error L i = Some b -> rpo b = Z.of_nat i + 1;
  go_cnt : cnt = Z.of_nat (length L);
  go_edges : forall u v, In u L -> In v (succ u) -> rpo u < rpo v \/ reach succ v u;
  go_parent : forall b, In b L -> b <> head -> exists u, In u L /\ In b (succ u) /\ rpo u < rpo b }.

Theorem order_blocks_ok succ head U vis V o fuel :
  (forall x, reach succ head x -> In x U) ->
  (forall x, reach succ head x -> vis x = V) ->
  (forall x, reach succ head x -> o_next o x = None) ->
  o_cnt o = 0 ->
  (length U <= fuel)%nat ->
  exists vis' o' L, order_blocks fuel succ head V vis o = Some (V + 3, vis', o') /\
    good_order succ head (o_rpo o') (o_next o') (o_cnt o') L /\
    (forall x, reach succ head x -> vis' x = V + 3) /\
    (forall x, ~ reach succ head x -> o_rpo o' x = o_rpo o x).
Proof.
  intros HU Hv Hn Hc F.
  assert (Ih : reach succ head head) by apply reach_refl.
  assert (Fu : (1 <= fuel)%nat).
  { pose proof (HU head Ih). destruct U; [destruct H|cbn in F; lia]. }
  assert (W0 : white (V + 1) vis head = true) by (unfold white; rewrite (Hv head Ih); lia).
  destruct (dfs succ (V + 1) head U HU fuel head vis []) as (v1 & L & T1 & K1); [exact Ih| | exact W0 | |].
  { intros x R. left. rewrite (Hv x R). lia. }
  { unfold wcount. transitivity (length U); [|exact F].
    clear. induction U as [|u U' IH]; [apply le_n|]. cbn [filter]. destruct (white (V + 1) vis u); cbn; lia. }
  set (P := L ++ [head]) in *. cbn [app] in T1.
  assert (AllP : forall b, In b P <-> reach succ head b).
  { intros b. split.
    - intros I. destruct (k_reach _ _ _ _ _ _ K1 b I) as (c & [<-|[]] & R). exact R.
    - intros R. induction R as [a|a b c R IH E]; [apply in_or_app; right; left; reflexivity|].
      assert (Ib : In b P) by (apply IH; auto).
      destruct (k_closed _ _ _ _ _ _ K1 b c Ib E) as [I|W]; [exact I|].
      unfold white in W. rewrite (Hv c (reach_step _ _ _ _ R E)) in W. lia. }
  assert (V1 : forall x, reach succ head x -> v1 x = V + 1).
  { intros x R. rewrite (k_vis _ _ _ _ _ _ K1 x), (Hv x R). destruct (in_dec Nat.eq_dec x P) as [|Q]; [reflexivity|].
    destruct Q. apply AllP. exact R. }
  destruct (search_shift succ head (V + 1) (V + 2) fuel head vis v1 [] v1 P Ih) as (v2 & T2 & S2); [|exact T1|].
  { intros x R. rewrite (Hv x R), (V1 x R). lia. }
  assert (V2 : forall x, reach succ head x -> v2 x = V + 2) by (intros x R; specialize (S2 x R); rewrite (V1 x R) in S2; lia).
  destruct (search_shift succ head (V + 1) (V + 3) fuel head vis v2 [] v1 P Ih) as (v3 & T3 & S3); [|exact T1|].
  { intros x R. rewrite (Hv x R), (V2 x R). lia. }
  assert (V3 : forall x, reach succ head x -> v3 x = V + 3) by (intros x R; specialize (S3 x R); rewrite (V1 x R) in S3; lia).
  destruct (traverse_fold succ bb_index_rpo _ _ _ _ _ _ _ o T1) as (P1 & E1 & A1). cbn [app] in E1. subst P1.
  set (o1 := fold bb_index_rpo P o) in *.
  destruct (traverse_fold succ bb_reverse_index _ _ _ _ _ _ _ o1 T2) as (P1 & E1 & A2). cbn [app] in E1. subst P1.
  set (o2 := fold bb_reverse_index P o1) in *.
  destruct (traverse_fold succ (bb_build_rpo fuel head) _ _ _ _ _ _ _ (Some o2) T3) as (P1 & E1 & A3). cbn [app] in E1. subst P1.
  pose proof (k_nodup _ _ _ _ _ _ K1) as NP.
  destruct (fold_index P o NP) as (B1 & B2 & B3 & B4). fold o1 in B1, B2, B3, B4.
  destruct (fold_reverse P o1 NP) as (C1 & C2 & C3 & C4). fold o2 in C1, C2, C3, C4.
  assert (RP : forall i b, nth_error P i = Some b -> o_rpo o2 b = Z.of_nat (length P) - Z.of_nat i).
  { intros i b H. rewrite C3 by (eapply nth_error_In; exact H). rewrite (B3 i b H), B2, Hc. lia. }
  assert (NL : NoDup L /\ ~ In head L).
  { unfold P in NP. apply NoDup_remove in NP. rewrite app_nil_r in NP. exact NP. }
  destruct NL as [NL NH].
  destruct (fold_build fuel head (o_rpo o2) Fu L (o_next o2) (o_cnt o2) []) as (nx & E & C).
  - rewrite app_nil_r. exact NL.
  - rewrite app_nil_r. exact NH.
  - rewrite C1, B1, (Hn head Ih). constructor.
  - intros b I. rewrite C1, B1. apply Hn. apply AllP. apply in_or_app. left. exact I.
  - intros x y _ [].
  - intros l1 x l2 y -> I. apply In_nth_error in I as (j & Hj).
    assert (Lj : (j < length l2)%nat) by (apply nth_error_Some; congruence).
    rewrite (RP (length l1) x), (RP (length l1 + S j)%nat y).
    + lia.
    + unfold P. rewrite nth_error_app1 by (rewrite app_length; cbn; lia). rewrite nth_error_app2 by lia.
      replace (length l1 + S j - length l1)%nat with (S j) by lia. exact Hj.
    + unfold P. rewrite <- app_assoc. rewrite nth_error_app2 by lia. rewrite Nat.sub_diag. reflexivity.
  - assert (FP : fold (bb_build_rpo fuel head) P (Some o2) = Some (mkorder (o_rpo o2) nx (o_cnt o2))).
    { unfold P. rewrite fold_app. replace o2 with (mkorder (o_rpo o2) (o_next o2) (o_cnt o2)) by (destruct o2; reflexivity).
      rewrite E. unfold fold. cbn [fold_left bb_build_rpo]. rewrite Nat.eqb_refl. reflexivity. }
    exists v3, (mkorder (o_rpo o2) nx (o_cnt o2)), (rev P).
    split; [|split; [|split]].
    + unfold order_blocks. rewrite A1. fold o1. rewrite A2. fold o2. rewrite A3, FP. reflexivity.
    + cbn [o_rpo o_next o_cnt]. split.
      * unfold P. rewrite rev_app_distr. cbn. constructor. rewrite app_nil_r in C. exact C.
      * apply NoDup_rev. exact NP.
      * intros b. rewrite <- in_rev. apply AllP.
      * intros i b H. assert (Li : (i < length P)%nat) by (rewrite <- rev_length; apply nth_error_Some; congruence).
        assert (H' : nth_error P (length P - S i) = Some b).
        { rewrite <- H. rewrite (nth_error_nth' P 0%nat) by lia. rewrite (nth_error_nth' (rev P) 0%nat) by (rewrite rev_length; lia).
          rewrite rev_nth by lia. reflexivity. }
        rewrite (RP _ _ H'). lia.
      * rewrite C2, B2, Hc, rev_length. lia.
      * intros u v Iu E'. apply in_rev in Iu.
        assert (Iv : In v P) by (apply AllP; eapply reach_step; [apply AllP; exact Iu|exact E']).
        destruct (k_order _ _ _ _ _ _ K1 u v Iu E' Iv) as [Bf|R]; [left|right; exact R].
        apply In_nth_error in Iu as (i & Hi). apply In_nth_error in Iv as (j & Hj).
        pose proof (before_nth _ _ _ _ _ NP Bf Hj Hi). rewrite (RP _ _ Hi), (RP _ _ Hj). lia.
      * intros b Ib Nb. apply in_rev in Ib.
        destruct (k_parent _ _ _ _ _ _ K1 b Ib) as [[J|[]]|(y & Iy & Ey & Bf)]; [congruence|].
        exists y. split; [apply in_rev; rewrite rev_involutive; exact Iy|]. split; [exact Ey|].
        apply In_nth_error in Ib as (i & Hi). apply In_nth_error in Iy as (j & Hj).
        pose proof (before_nth _ _ _ _ _ NP Bf Hi Hj). rewrite (RP _ _ Hi), (RP _ _ Hj). 
        assert (j < length P)%nat by (apply nth_error_Some; congruence). lia.
    + exact V3.
    + intros x NR. cbn [o_rpo]. rewrite C4, B4; [reflexivity| |]; intros I; apply NR; apply AllP; exact I.
Qed.
