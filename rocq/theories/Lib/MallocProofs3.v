(** The allocator of the embedded libc: malloc and free. *)
From Coq Require Import Permutation.
From Verif.Lib Require Import CMem LibcMalloc MallocProofs MallocProofs2.
Open Scope Z_scope.

Lemma snoc_last {A} (l : list A) d : exists l', d :: l = l' ++ [last l d].
Proof.
  revert d. induction l as [|x r IH]; intros d; [exists []; reflexivity|].
  destruct (IH x) as (l' & E). exists (d :: l'). rewrite last_cons. cbn. f_equal. exact E.
Qed.

Lemma nd2 {A} (a b : A) l : NoDup (a :: b :: l) -> ~ In a (b :: l) /\ ~ In b l /\ NoDup l.
Proof. intros N. apply NoDup_cons_iff in N. destruct N as [N1 N2]. apply NoDup_cons_iff in N2. tauto. Qed.
Lemma nodup_app_l {A} (l r : list A) : NoDup (l ++ r) -> NoDup l.
Proof.
  induction l as [|x l IH]; intros N; [constructor|]. cbn in N. apply NoDup_cons_iff in N. destruct N as [N1 N2].
  constructor; [|auto]. intros I. apply N1. apply in_app_iff. auto.
Qed.
Lemma nodup_app_r {A} (l r : list A) : NoDup (l ++ r) -> NoDup r.
Proof. induction l as [|x l IH]; intros N; [exact N|]. cbn in N. apply NoDup_cons_iff in N. apply IH. tauto. Qed.
Lemma nodup_app_disj {A} (l r : list A) x : NoDup (l ++ r) -> In x l -> In x r -> False.
Proof.
  induction l as [|y l IH]; intros N I1 I2; [contradiction|]. cbn in N. apply NoDup_cons_iff in N. destruct N as [N1 N2].
  destruct I1 as [->|I1]; [apply N1; apply in_app_iff; auto|auto].
Qed.

Definition farg (g c : Z) : Prop := g + 4 <= c \/ c + 4096 <= g.
Definition isf (c a : Z) : Prop := a = next_of c \/ a = prev_of c \/ a = size_of c.
Lemma gl_ne g c a : farg g c -> isf c a -> g <> a.
Proof. unfold farg, isf, next_of, prev_of, size_of. lia. Qed.
Lemma pg_ne c d a b : page c -> page d -> c <> d -> isf c a -> isf d b -> a <> b.
Proof. unfold page, isf, next_of, prev_of, size_of. lia. Qed.
Lemma of_ne c d : page c -> page d -> size_of c <> next_of d /\ size_of c <> prev_of d /\ next_of c <> prev_of d.
Proof. unfold page, isf, next_of, prev_of, size_of. lia. Qed.
Ltac isf := unfold isf; tauto.
Ltac ne1 := match goal with
  | H : ?a <> ?b |- ?a <> ?b => exact H
  | H : farg ?g ?c |- ?g <> _ => apply (gl_ne g c _ H); isf
  | |- next_of ?c <> prev_of ?c => clear; unfold next_of, prev_of; lia
  | |- next_of ?c <> size_of ?c => clear; unfold next_of, size_of; lia
  | |- prev_of ?c <> size_of ?c => clear; unfold size_of, prev_of; lia
  | H1 : page ?c, H2 : page ?d |- size_of ?c <> next_of ?d => apply (of_ne c d H1 H2)
  | H1 : page ?c, H2 : page ?d |- size_of ?c <> prev_of ?d => apply (of_ne c d H1 H2)
  | H1 : page ?c, H2 : page ?d |- next_of ?c <> prev_of ?d => apply (of_ne c d H1 H2)
  | H1 : page ?c, H2 : page ?d, H3 : ?c <> ?d |- _ => apply (pg_ne c d _ _ H1 H2 H3); isf
  end.
Ltac ne := first [ne1 | apply not_eq_sym; ne1].

Section Steps.
  Variables (E : env) (h0 : heap) (cs : list (Z * Z)).
  Hypothesis R : regions E h0 cs.
  Let Sp : wsep (words E cs) := regions_wsep E h0 cs R.

  Lemma geo l : Permutation cs l -> (forall x, In x l -> In x cs) /\ NoDup (map fst l) /\ Forall page (map fst l).
  Proof.
    intros P. split; [|split].
    - intros x Hx. eapply Permutation_in; [apply Permutation_sym; exact P|exact Hx].
    - eapply Permutation_NoDup; [apply Permutation_map; exact P|]. eapply pairwise_nodup; eauto.
    - eapply Permutation_Forall; [apply Permutation_map; exact P|]. eapply rg_pages; eauto.
  Qed.

  (** a chunk's facts *)
  Lemma facts x : In x cs -> page (fst x) /\ (snd x mod 4096 = 0 /\ 4096 <= snd x < 2147483648) /\
    w32 (fst x) = fst x /\ farg (g_head E) (fst x) /\ farg (g_tail E) (fst x) /\ farg (g_free E) (fst x).
  Proof.
    intros Hx. pose proof (rg_ok _ _ _ R) as Ok. rewrite Forall_forall in Ok. destruct (Ok x Hx) as [P S1 T A].
    split; [exact P|]. split; [exact S1|]. split; [eapply rg_small; eauto|].
    pose proof (rg_glob _ _ _ R) as G. destruct S1 as [_ S1].
    assert (K : forall g, glob E g -> farg g (fst x)). { intros g Hg. specialize (G g x Hg Hx). unfold apart, farg in *. lia. }
    unfold glob in K. split; [|split]; apply K; auto.
  Qed.
  Lemma gfacts : g_head E <> g_tail E /\ g_head E <> g_free E /\ g_tail E <> g_free E.
  Proof. pose proof (rg_gsep _ _ _ R) as G. unfold globals_apart, apart in G. lia. Qed.

  Lemma append_alloc_spec h f a0 fs al c n fl k :
    rep (words E cs) h0 h f -> Permutation cs (chunks a0 fs (al ++ [(c, n)]) fl) ->
    alist E f a0 al -> flist E f fs fl -> 0 <= k <= 1 -> f (size_of c) = n + k ->
    exists h' f', append_alloc E c h = Some (c + HDR, h') /\ rep (words E cs) h0 h' f' /\
      alist E f' a0 (al ++ [(c, n)]) /\ flist E f' fs fl.
  Proof.
    intros P Pm (A1 & A2 & A3 & A4) F Hk Sz. destruct (geo _ Pm) as (Ics & ND & Pg).
    unfold chunks in ND, Pg. cbn [map fst] in ND, Pg. rewrite !map_app in ND, Pg. cbn [map fst] in ND, Pg.
    assert (Hc : In (c, n) cs) by (apply Ics; right; right; apply in_app_iff; left; apply in_app_iff; right; left; reflexivity).
    set (t := last (map fst al) a0) in *.
    assert (Ht : exists m, In (t, m) cs).
    { destruct al as [|x r]; [exists 4096; apply Ics; left; reflexivity|].
      assert (I : In t (map fst (x :: r))) by (apply last_in; discriminate). apply in_map_iff in I. destruct I as ([t' m] & Et & I).
      cbn [fst] in Et. exists m. rewrite <- Et. apply Ics. right. right. apply in_app_iff. left. apply in_app_iff. left. exact I. }
    destruct Ht as [m Ht].
    assert (Nct : c <> t).
    { intros Q. assert (I : In c (a0 :: map fst al)). { rewrite Q. unfold t. destruct al; [left; reflexivity|right; apply last_in; discriminate]. }
      destruct I as [I|I].
      - destruct (nd2 _ _ _ ND) as (N1 & _ & _). rewrite I in N1. apply N1. right. rewrite !in_app_iff. left. right. left. reflexivity.
      - destruct (nd2 _ _ _ ND) as (_ & _ & N2). rewrite <- app_assoc in N2. cbn [app] in N2.
        apply NoDup_remove_2 in N2. apply N2. apply in_app_iff. auto. }
    pose proof (facts _ Hc) as Fc. pose proof (facts _ Ht) as Ft. destruct gfacts as (G1 & G2 & G3). cbn [fst snd] in Fc, Ft.
    destruct Fc as (Pc & Sc & Wc & C1 & C2 & C3), Ft as (Pt & St & Wt & T1 & T2 & T3).
    set (f1 := fset f (next_of t) c). set (f2 := fset f1 (prev_of c) t). set (f3 := fset f2 (g_tail E) c).
    set (f4 := fset f3 (next_of c) 0). set (f5 := fset f4 (size_of c) (n + k)). set (f6 := fset f5 (size_of c) n).
    set (h1 := poke h (next_of t) c). set (h2 := poke h1 (prev_of c) t). set (h3 := poke h2 (g_tail E) c).
    set (h4 := poke h3 (next_of c) 0). set (h5 := poke h4 (size_of c) (n + k)). set (h6 := poke h5 (size_of c) n).
    assert (R1 : rep (words E cs) h0 h1 f1).
    { pose proof (r_sw _ h0 h f (next_of t) c Sp P (w_next E cs _ Ht)) as Q. rewrite Wc in Q. exact Q. }
    assert (R2 : rep (words E cs) h0 h2 f2).
    { pose proof (r_sw _ h0 h1 f1 (prev_of c) t Sp R1 (w_prev E cs _ Hc)) as Q. rewrite Wt in Q. exact Q. }
    assert (R3 : rep (words E cs) h0 h3 f3).
    { pose proof (r_sw _ h0 h2 f2 (g_tail E) c Sp R2 (w_tail E cs)) as Q. rewrite Wc in Q. exact Q. }
    assert (R4 : rep (words E cs) h0 h4 f4) by (apply (r_sw _ h0 h3 f3 (next_of c) 0 Sp R3 (w_next E cs _ Hc))).
    assert (R5 : rep (words E cs) h0 h5 f5).
    { pose proof (r_sw _ h0 h4 f4 (size_of c) (n + k) Sp R4 (w_size E cs _ Hc)) as Q. rewrite w32_id in Q by (unfold is_u32; lia). exact Q. }
    assert (R6 : rep (words E cs) h0 h6 f6).
    { pose proof (r_sw _ h0 h5 f5 (size_of c) n Sp R5 (w_size E cs _ Hc)) as Q. rewrite w32_id in Q by (unfold is_u32; lia). exact Q. }
    exists h6, f6. split; [|split; [exact R6|split]].
    - unfold append_alloc. erewrite x_lw; [|exact P|apply w_tail]. rewrite A2. fold t.
      erewrite x_sw; [|exact Sp|exact P|apply (w_next E cs _ Ht)]. fold h1.
      erewrite x_sw; [|exact Sp|exact R1|apply (w_prev E cs _ Hc)]. fold h2.
      erewrite x_sw; [|exact Sp|exact R2|apply w_tail]. fold h3.
      erewrite x_sw; [|exact Sp|exact R3|apply (w_next E cs _ Hc)]. cbn [fst]. fold h4.
      erewrite x_lw; [|exact R4|apply (w_size E cs _ Hc)]. cbn [fst].
      assert (E4 : f4 (size_of c) = n + k). { unfold f4, f3, f2, f1. rewrite !fset_other by ne. exact Sz. }
      rewrite E4. erewrite x_sw; [|exact Sp|exact R4|apply (w_size E cs _ Hc)]. cbn [fst]. fold h5.
      erewrite x_lw; [|exact R5|apply (w_size E cs _ Hc)]. cbn [fst].
      assert (E5 : f5 (size_of c) = n + k) by apply fset_same. rewrite E5.
      rewrite s32_id by (unfold is_i32; lia). rewrite get_size_val by lia.
      erewrite x_sw; [|exact Sp|exact R5|apply (w_size E cs _ Hc)]. cbn [fst]. fold h6. reflexivity.
    - split; [|split; [|split]].
      + unfold f6, f5, f4, f3, f2, f1. rewrite !fset_other by ne. exact A1.
      + rewrite map_app. cbn [map fst]. rewrite last_app_single. unfold f6, f5, f4. rewrite !fset_other by ne. apply fset_same.
      + rewrite map_app. change (a0 :: map fst al ++ map fst [(c, n)]) with ((a0 :: map fst al) ++ [c]).
        assert (NDa : NoDup ((a0 :: map fst al) ++ [c])).
        { destruct (nd2 _ _ _ ND) as (N1 & _ & N4). cbn. constructor.
          - intros I. apply N1. right. rewrite !in_app_iff in *. tauto.
          - apply nodup_app_l in N4. exact N4. }
        assert (Pga : Forall page (a0 :: map fst al)).
        { apply Forall_cons_iff in Pg. destruct Pg as [P1 P2]. apply Forall_cons_iff in P2. destruct P2 as [P3 P4]. rewrite !Forall_app in P4. constructor; tauto. }
        apply links_app. cbn [hd]. split.
        * destruct (snoc_last (map fst al) a0) as (l' & El). fold t in El.
          assert (L1 : links f1 0 (a0 :: map fst al) c).
          { rewrite El in *. unfold f1. apply links_set_next with (e := 0); auto. apply NoDup_remove_1 in NDa. rewrite app_nil_r in NDa. exact NDa. }
          eapply links_agree; [|exact L1]. intros d Hd.
          assert (Hdc : exists x, In x cs /\ fst x = d).
          { destruct Hd as [<-|Hd]; [exists (a0, 4096); split; [apply Ics; left; reflexivity|reflexivity]|].
            apply in_map_iff in Hd. destruct Hd as (x & <- & Hx). exists x. split; [|reflexivity]. apply Ics. right. right. rewrite !in_app_iff. auto. }
          assert (c <> d). { intros <-. apply NoDup_remove_2 in NDa. apply NDa. rewrite app_nil_r. exact Hd. }
          destruct Hdc as (x & Hx & <-). pose proof (facts _ Hx) as Fx.
          destruct Fx as (Px & Sx & Wx & X1 & X2 & X3).
          unfold f6, f5, f4, f3, f2. split; rewrite !fset_other by ne; reflexivity.
        * cbn [links hd]. rewrite last_cons. fold t. split; [|split; [|exact I]].
          -- unfold f6, f5, f4, f3. rewrite !fset_other by ne. apply fset_same.
          -- unfold f6, f5. rewrite !fset_other by ne. apply fset_same.
      + intros x Hx. apply in_app_iff in Hx. destruct Hx as [Hx|[<-|[]]]; [|apply fset_same].
        assert (Hxc : In x cs) by (apply Ics; right; right; rewrite !in_app_iff; auto).
        assert (c <> fst x).
        { intros Q. destruct (nd2 _ _ _ ND) as (_ & _ & N2). rewrite <- app_assoc in N2. cbn [app] in N2.
          apply NoDup_remove_2 in N2. apply N2. rewrite Q. apply in_app_iff. left. apply in_map. exact Hx. }
        pose proof (facts _ Hxc) as Fx. destruct Fx as (Px & Sx & Wx & X1 & X2 & X3).
        unfold f6, f5, f4, f3, f2, f1. rewrite !fset_other by ne. apply A4. exact Hx.
    - apply flist_agree with (f := f); auto.
      + unfold f6, f5, f4, f3, f2, f1. rewrite !fset_other by ne. reflexivity.
      + intros d Hd.
        assert (Hdc : exists x, In x cs /\ fst x = d).
        { apply in_app_iff in Hd. destruct Hd as [Hd|[<-|[]]].
          - apply in_map_iff in Hd. destruct Hd as (x & <- & Hx). exists x. split; [|reflexivity]. apply Ics. right. right. rewrite !in_app_iff. auto.
          - exists (fs, 4096). split; [apply Ics; right; left; reflexivity|reflexivity]. }
        assert (Nd : c <> d /\ t <> d).
        { assert (G : forall z, In z ((a0 :: map fst al) ++ [c]) -> z <> d).
          { intros z Hz ->.
            assert (ND' : NoDup (((a0 :: map fst al) ++ [c]) ++ (map fst fl ++ [fs]))).
            { eapply Permutation_NoDup; [|exact ND]. cbn. apply perm_skip. etransitivity; [apply Permutation_cons_append|]. rewrite <- !app_assoc. reflexivity. }
            eapply nodup_app_disj; eauto. }
          split; apply G; apply in_app_iff; [right; left; reflexivity|left]. unfold t. destruct al; [left; reflexivity|right; apply last_in; discriminate]. }
        destruct Nd as [Nd1 Nd2].
        destruct Hdc as (x & Hx & <-). pose proof (facts _ Hx) as Fx. destruct Fx as (Px & Sx & Wx & X1 & X2 & X3).
        unfold f6, f5, f4, f3, f2, f1. split; [|split]; rewrite !fset_other by ne; reflexivity.
  Qed.

  Lemma mem_addr l d : (forall x, In x l -> In x cs) -> In d (map fst l) -> exists x, In x cs /\ fst x = d.
  Proof. intros H Hd. apply in_map_iff in Hd. destruct Hd as (x & <- & Hx). exists x. auto. Qed.

  (** lib/c.c:672-685: taking a block off the list of allocated blocks *)
  Definition unlink_alloc (cur pv : Z) : M unit :=
    bind (if negb (pv =? 0) then bind (lw (next_of cur)) (fun nx => sw (next_of pv) nx)
          else bind (lw (next_of cur)) (fun nx => sw (g_head E) nx)) (fun _ =>
    bind (lw (next_of cur)) (fun nx =>
    if negb (nx =? 0) then bind (lw (prev_of cur)) (fun pv => sw (prev_of nx) pv)
    else if pv =? 0 then fail
    else bind (sw (next_of pv) 0) (fun _ => sw (g_tail E) pv))).

  Lemma unlink_alloc_spec h f a0 fs l1 c n l2 fl :
    rep (words E cs) h0 h f -> Permutation cs (chunks a0 fs (l1 ++ (c, n) :: l2) fl) ->
    alist E f a0 (l1 ++ (c, n) :: l2) -> flist E f fs fl ->
    f (prev_of c) = last (map fst l1) a0 /\
    exists h' f', unlink_alloc c (last (map fst l1) a0) h = Some (tt, h') /\ rep (words E cs) h0 h' f' /\
      alist E f' a0 (l1 ++ l2) /\ flist E f' fs fl /\ f' (size_of c) = n.
  Proof.
    intros P Pm (A1 & A2 & A3 & A4) F. destruct (geo _ Pm) as (Ics & ND & Pg).
    assert (Eads : map fst (chunks a0 fs (l1 ++ (c, n) :: l2) fl) = a0 :: fs :: (map fst l1 ++ c :: map fst l2) ++ map fst fl).
    { unfold chunks. cbn [map fst]. rewrite !map_app. reflexivity. }
    rewrite Eads in ND, Pg.
    assert (Hc : In (c, n) cs) by (apply Ics; right; right; rewrite !in_app_iff; left; right; left; reflexivity).
    set (t := last (map fst l1) a0) in *.
    assert (It : In t (a0 :: map fst l1)). { unfold t. destruct l1; [left; reflexivity|right; apply last_in; discriminate]. }
    assert (Ht : exists m, In (t, m) cs).
    { destruct It as [<-|I]; [exists 4096; apply Ics; left; reflexivity|]. apply in_map_iff in I. destruct I as ([t' m] & Et & I).
      cbn [fst] in Et. exists m. rewrite <- Et. apply Ics. right. right. rewrite !in_app_iff. auto. }
    destruct Ht as [m Ht].
    assert (NDa : NoDup ((a0 :: map fst l1) ++ c :: map fst l2)).
    { destruct (nd2 _ _ _ ND) as (N1 & _ & N4). cbn. constructor.
      - intros I. apply N1. right. rewrite in_app_iff. auto.
      - apply nodup_app_l in N4. exact N4. }
    assert (Pga : Forall page ((a0 :: map fst l1) ++ c :: map fst l2)).
    { apply Forall_cons_iff in Pg. destruct Pg as [P1 P2]. apply Forall_cons_iff in P2. destruct P2 as [P3 P4].
      rewrite Forall_app in P4. cbn. constructor; tauto. }
    assert (ND' : NoDup (((a0 :: map fst l1) ++ c :: map fst l2) ++ (map fst fl ++ [fs]))).
    { eapply Permutation_NoDup; [|exact ND]. cbn. apply perm_skip. etransitivity; [apply Permutation_cons_append|]. rewrite <- !app_assoc. reflexivity. }
    assert (Far : forall z d, In z ((a0 :: map fst l1) ++ c :: map fst l2) -> In d (map fst fl ++ [fs]) -> z <> d).
    { intros z d Hz Hd ->. eapply nodup_app_disj; eauto. }
    assert (Nct : c <> t).
    { intros Q. eapply (nodup_app_disj (a0 :: map fst l1) (c :: map fst l2) t); eauto. left. exact Q. }
    pose proof (facts _ Hc) as Fc. pose proof (facts _ Ht) as Ft. destruct gfacts as (G1 & G2 & G3). cbn [fst snd] in Fc, Ft.
    destruct Fc as (Pc & Sc & Wc & C1 & C2 & C3), Ft as (Pt & St & Wt & T1 & T2 & T3).
    assert (T0 : t <> 0) by (unfold page in Pt; lia).
    rewrite map_app in A3. cbn [map fst] in A3. change (a0 :: map fst l1 ++ c :: map fst l2) with ((a0 :: map fst l1) ++ c :: map fst l2) in A3.
    pose proof A3 as A3'. rewrite links_app in A3'. destruct A3' as [_ A3']. cbn [links] in A3'. rewrite last_cons in A3'. fold t in A3'.
    destruct A3' as (Lp & Ln & _). split; [exact Lp|].
    assert (Fd : forall d, In d (map fst fl ++ [fs]) -> exists x, In x cs /\ fst x = d).
    { intros d Hd. apply in_app_iff in Hd. destruct Hd as [Hd|[<-|[]]].
      - apply mem_addr with (l := fl); auto. intros x Hx. apply Ics. right. right. rewrite !in_app_iff. auto.
      - exists (fs, 4096). split; [apply Ics; right; left; reflexivity|reflexivity]. }
    destruct (snoc_last (map fst l1) a0) as (lp & El). fold t in El.
    destruct l2 as [|[y ny] l2'].
    - (* the last block *)
      cbn [map hd] in *.
      set (f1 := fset f (next_of t) 0). set (f2 := fset f1 (next_of t) 0). set (f3 := fset f2 (g_tail E) t).
      set (h1 := poke h (next_of t) 0). set (h2 := poke h1 (next_of t) 0). set (h3 := poke h2 (g_tail E) t).
      assert (R1 : rep (words E cs) h0 h1 f1) by (apply (r_sw _ h0 h f (next_of t) 0 Sp P (w_next E cs _ Ht))).
      assert (R2 : rep (words E cs) h0 h2 f2) by (apply (r_sw _ h0 h1 f1 (next_of t) 0 Sp R1 (w_next E cs _ Ht))).
      assert (R3 : rep (words E cs) h0 h3 f3).
      { pose proof (r_sw _ h0 h2 f2 (g_tail E) t Sp R2 (w_tail E cs)) as Q. rewrite Wt in Q. exact Q. }
      exists h3, f3. split; [|split; [exact R3|split; [|split]]].
      + unfold unlink_alloc. destruct (Z.eqb_spec t 0); [contradiction|]. cbn [negb]. rewrite bind_assoc.
        erewrite x_lw; [|exact P|apply (w_next E cs _ Hc)]. cbn [fst]. rewrite Ln.
        erewrite x_sw; [|exact Sp|exact P|apply (w_next E cs _ Ht)]. cbn [fst]. fold h1.
        erewrite x_lw; [|exact R1|apply (w_next E cs _ Hc)]. cbn [fst].
        assert (E1 : f1 (next_of c) = 0) by (unfold f1; rewrite fset_other by ne; exact Ln). rewrite E1. cbn [Z.eqb negb].
        erewrite x_sw; [|exact Sp|exact R1|apply (w_next E cs _ Ht)]. cbn [fst]. fold h2.
        destruct (sw_rep _ h0 h2 f2 (g_tail E) t Sp R2 (w_tail E cs)) as [-> _]. reflexivity.
      + rewrite app_nil_r. split; [|split; [|split]].
        * unfold f3, f2, f1. rewrite !fset_other by ne. exact A1.
        * unfold f3. apply fset_same.
        * assert (L1 : links f1 0 (a0 :: map fst l1) 0).
          { rewrite El in *. unfold f1. rewrite <- app_assoc in *. cbn [app] in *. eapply links_unlink_last; eauto. }
          eapply links_agree; [|exact L1]. intros d Hd.
          assert (Hdc : exists x, In x cs /\ fst x = d).
          { destruct Hd as [<-|Hd]; [exists (a0, 4096); split; [apply Ics; left; reflexivity|reflexivity]|].
            apply mem_addr with (l := l1); auto. intros x Hx. apply Ics. right. right. rewrite !in_app_iff. auto. }
          destruct Hdc as (x & Hx & <-). pose proof (facts _ Hx) as Fx. destruct Fx as (Px & Sx & Wx & X1 & X2 & X3).
          unfold f3, f2. split.
          -- rewrite !fset_other; [reflexivity|apply not_eq_sym; apply (of_ne t (fst x) Pt Px)|ne].
          -- rewrite fset_other by ne. unfold f1, fset. destruct (next_of (fst x) =? next_of t); reflexivity.
        * intros x Hx. assert (Hxc : In x cs) by (apply Ics; right; right; rewrite !in_app_iff; auto).
          pose proof (facts _ Hxc) as Fx. destruct Fx as (Px & Sx & Wx & X1 & X2 & X3).
          unfold f3, f2, f1. rewrite !fset_other; [apply A4; apply in_app_iff; auto|apply (of_ne (fst x) t Px Pt)|apply (of_ne (fst x) t Px Pt)|ne].
      + apply flist_agree with (f := f); auto.
        * unfold f3, f2, f1. rewrite !fset_other by ne. reflexivity.
        * intros d Hd. assert (Nt : t <> d) by (apply Far; auto; apply in_app_iff; auto).
          destruct (Fd d Hd) as (x & Hx & <-). pose proof (facts _ Hx) as Fx. destruct Fx as (Px & Sx & Wx & X1 & X2 & X3).
          unfold f3, f2, f1. split; [|split]; rewrite !fset_other by ne; reflexivity.
      + unfold f3, f2, f1. rewrite !fset_other by ne. apply (A4 (c, n)). apply in_app_iff. right. left. reflexivity.
    - (* with a successor *)
      cbn [map hd fst] in *.
      assert (Hy : In (y, ny) cs) by (apply Ics; right; right; rewrite !in_app_iff; left; right; right; left; reflexivity).
      assert (Ncy : c <> y).
      { intros Q. rewrite <- Q in NDa. apply NoDup_remove_2 in NDa. apply NDa. apply in_app_iff. right. left. reflexivity. }
      assert (Nty : t <> y).
      { intros Q. rewrite <- Q in NDa. eapply (nodup_app_disj (a0 :: map fst l1) _ t NDa); auto. right. left. reflexivity. }
      pose proof (facts _ Hy) as Fy. cbn [fst snd] in Fy. destruct Fy as (Py & Sy & Wy & Y1 & Y2 & Y3).
      assert (Y0 : y <> 0) by (unfold page in Py; lia).
      set (f1 := fset f (next_of t) y). set (f2 := fset f1 (prev_of y) t).
      set (h1 := poke h (next_of t) y). set (h2 := poke h1 (prev_of y) t).
      assert (R1 : rep (words E cs) h0 h1 f1).
      { pose proof (r_sw _ h0 h f (next_of t) y Sp P (w_next E cs _ Ht)) as Q. rewrite Wy in Q. exact Q. }
      assert (R2 : rep (words E cs) h0 h2 f2).
      { pose proof (r_sw _ h0 h1 f1 (prev_of y) t Sp R1 (w_prev E cs _ Hy)) as Q. rewrite Wt in Q. exact Q. }
      exists h2, f2. split; [|split; [exact R2|split; [|split]]].
      + unfold unlink_alloc. destruct (Z.eqb_spec t 0); [contradiction|]. cbn [negb]. rewrite bind_assoc.
        erewrite x_lw; [|exact P|apply (w_next E cs _ Hc)]. cbn [fst]. rewrite Ln.
        erewrite x_sw; [|exact Sp|exact P|apply (w_next E cs _ Ht)]. cbn [fst]. fold h1.
        erewrite x_lw; [|exact R1|apply (w_next E cs _ Hc)]. cbn [fst].
        assert (E1 : f1 (next_of c) = y) by (unfold f1; rewrite fset_other by ne; exact Ln). rewrite E1.
        destruct (Z.eqb_spec y 0); [contradiction|]. cbn [negb].
        erewrite x_lw; [|exact R1|apply (w_prev E cs _ Hc)]. cbn [fst].
        assert (E2 : f1 (prev_of c) = t) by (unfold f1; rewrite fset_other by ne; exact Lp). rewrite E2.
        destruct (sw_rep _ h0 h1 f1 (prev_of y) t Sp R1 (w_prev E cs _ Hy)) as [-> _]. reflexivity.
      + split; [|split; [|split]].
        * unfold f2, f1. rewrite !fset_other by ne. exact A1.
        * unfold f2, f1. rewrite !fset_other by ne. rewrite A2, !map_app. cbn [map fst]. rewrite !last_app_cons, last_cons. reflexivity.
        * rewrite map_app. cbn [map fst]. change (a0 :: map fst l1 ++ y :: map fst l2') with ((a0 :: map fst l1) ++ y :: map fst l2').
          pose proof (links_unlink f 0 (a0 :: map fst l1) c y (map fst l2') 0 NDa Pga A3) as LU.
          rewrite !last_cons in LU. fold t in LU. cbv iota beta in LU. fold f1 in LU. exact LU.
        * intros x Hx.
          assert (Hxc : In x cs). { apply Ics. right. right. rewrite in_app_iff in *. cbn in *. rewrite in_app_iff. cbn. tauto. }
          pose proof (facts _ Hxc) as Fx. destruct Fx as (Px & Sx & Wx & X1 & X2 & X3).
          unfold f2, f1. rewrite !fset_other; [apply A4; rewrite in_app_iff in *; cbn in *; tauto|apply (of_ne (fst x) t Px Pt)|apply (of_ne (fst x) y Px Py)].
      + apply flist_agree with (f := f); auto.
        * unfold f2, f1. rewrite !fset_other by ne. reflexivity.
        * intros d Hd. assert (Nt : t <> d) by (apply Far; auto; apply in_app_iff; auto).
          assert (Ny : y <> d) by (apply Far; auto; apply in_app_iff; right; right; left; reflexivity).
          destruct (Fd d Hd) as (x & Hx & <-). pose proof (facts _ Hx) as Fx. destruct Fx as (Px & Sx & Wx & X1 & X2 & X3).
          unfold f2, f1. split; [|split]; rewrite !fset_other by ne; reflexivity.
      + unfold f2, f1. rewrite !fset_other by ne. apply (A4 (c, n)). apply in_app_iff. right. left. reflexivity.
  Qed.
End Steps.
