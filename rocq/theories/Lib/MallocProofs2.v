(** The allocator of the embedded libc: the steps of malloc and free. *)
From Coq Require Import Permutation.
From Verif.Lib Require Import CMem LibcMalloc MallocProofs.
Open Scope Z_scope.

Definition not_field (cs : list Z) (a : Z) : Prop := forall c, In c cs -> a <> next_of c /\ a <> prev_of c /\ a <> size_of c.
Lemma agree_refl E cs f : agree_on E cs f f.
Proof. intros c _. auto. Qed.
Lemma agree_fset E cs f f1 a v : not_field cs a -> agree_on E cs f f1 -> agree_on E cs f (fset f1 a v).
Proof.
  intros N A c Hc. destruct (N c Hc) as (N1 & N2 & N3), (A c Hc) as (A1 & A2 & A3).
  rewrite !fset_other by congruence. auto.
Qed.
Lemma not_field_of cs c a : Forall page cs -> page c -> ~ In c cs -> a = next_of c \/ a = prev_of c \/ a = size_of c -> not_field cs a.
Proof.
  intros P Pc N H d Hd. rewrite Forall_forall in P. specialize (P d Hd). assert (c <> d) by (intros ->; contradiction).
  unfold page, next_of, prev_of, size_of in *. lia.
Qed.
Lemma not_field_glob E h cs g : regions E h cs -> glob E g -> not_field (map fst cs) g.
Proof.
  intros R G c Hc. apply in_map_iff in Hc. destruct Hc as (x & <- & Hx). pose proof (rg_glob _ _ _ R g x G Hx) as A.
  pose proof (rg_ok _ _ _ R) as Ok. rewrite Forall_forall in Ok. destruct (Ok x Hx) as [_ [_ S2] _ _].
  unfold apart, next_of, prev_of, size_of in *. lia.
Qed.
Lemma not_field_sub cs cs' a : (forall c, In c cs' -> In c cs) -> not_field cs a -> not_field cs' a.
Proof. intros S N c Hc. apply N. auto. Qed.
Lemma glob_not_own E h cs g x : regions E h cs -> glob E g -> In x cs -> g <> next_of (fst x) /\ g <> prev_of (fst x) /\ g <> size_of (fst x).
Proof. intros R G Hx. apply (not_field_glob E h cs g R G). apply in_map. exact Hx. Qed.

Lemma w_field E cs x a : In x cs -> a = next_of (fst x) \/ a = prev_of (fst x) \/ a = size_of (fst x) -> words E cs a.
Proof. intros. right. exists x. auto. Qed.
Lemma w_next E cs x : In x cs -> words E cs (next_of (fst x)).
Proof. intros. eapply w_field; eauto. Qed.
Lemma w_prev E cs x : In x cs -> words E cs (prev_of (fst x)).
Proof. intros. eapply w_field; eauto. Qed.
Lemma w_size E cs x : In x cs -> words E cs (size_of (fst x)).
Proof. intros. eapply w_field; eauto. Qed.
Lemma w_head E cs : words E cs (g_head E). Proof. left. left. reflexivity. Qed.
Lemma w_tail E cs : words E cs (g_tail E). Proof. left. right. left. reflexivity. Qed.
Lemma w_free E cs : words E cs (g_free E). Proof. left. right. right. reflexivity. Qed.
#[global] Hint Resolve w_next w_prev w_size w_head w_tail w_free : words.

Lemma words_u32 E cs h0 h f a : rep (words E cs) h0 h f -> words E cs a -> is_u32 (f a).
Proof. intros R W. eapply peek_range. apply R. exact W. Qed.
Lemma rg_page E h cs x : regions E h cs -> In x cs -> page (fst x).
Proof. intros R Hx. pose proof (rg_ok _ _ _ R) as Ok. rewrite Forall_forall in Ok. apply (Ok x Hx). Qed.
Lemma rg_pages E h cs : regions E h cs -> Forall page (map fst cs).
Proof. intros R. apply Forall_forall. intros c Hc. apply in_map_iff in Hc. destruct Hc as (x & <- & Hx). eapply rg_page; eauto. Qed.
Lemma rg_small E h cs x : regions E h cs -> In x cs -> w32 (fst x) = fst x.
Proof.
  intros R Hx. pose proof (rg_ok _ _ _ R) as Ok. rewrite Forall_forall in Ok. destruct (Ok x Hx) as [[P1 P2] [S1 S2] T _].
  apply w32_id. unfold is_u32. lia.
Qed.

(** execution steps *)
Lemma x_lw {A} W h0 h f a (k : Z -> M A) : rep W h0 h f -> W a -> bind (lw a) k h = k (f a) h.
Proof. intros R H. unfold bind. rewrite (lw_rep _ _ _ _ _ R H). reflexivity. Qed.
Lemma x_sw {A} W h0 h f a v (k : unit -> M A) : wsep W -> rep W h0 h f -> W a -> bind (sw a v) k h = k tt (poke h a v).
Proof. intros Sp R H. unfold bind. destruct (sw_rep W h0 h f a v Sp R H) as [-> _]. reflexivity. Qed.
Lemma r_sw W h0 h f a v : wsep W -> rep W h0 h f -> W a -> rep W h0 (poke h a v) (fset f a (w32 v)).
Proof. intros Sp R H. apply (sw_rep W h0 h f a v Sp R H). Qed.
Lemma bind_assoc {A B C} (m : M A) (k : A -> M B) (l : B -> M C) h : bind (bind m k) l h = bind m (fun a => bind (k a) l) h.
Proof. unfold bind. destruct (m h) as [[a h']|]; reflexivity. Qed.
Lemma bind_ret {A B} (a : A) (k : A -> M B) h : bind (ret a) k h = k a h.
Proof. reflexivity. Qed.
Lemma bind_ok {A B} (m : M A) (k : A -> M B) h a h' : m h = Some (a, h') -> bind m k h = k a h'.
Proof. unfold bind. intros ->. reflexivity. Qed.

(** ** The search *)
Definition best_so_far (size : Z) (pre : list (Z * Z)) (best bsize : Z) : Prop :=
  (best = 0 /\ forall x, In x pre -> snd x < size) \/
  (best <> 0 /\ In (best, bsize) pre /\ size <= bsize /\ forall x, In x pre -> size <= snd x -> bsize <= snd x).

Lemma best_fit_loop E h0 h cs f fs size : regions E h cs -> rep (words E cs) h0 h f -> In (fs, 4096) cs ->
  forall r pre best bsize, (forall x, In x r -> In x cs) ->
  links f (last (map fst pre) 0) (map fst r ++ [fs]) 0 -> (forall x, In x r -> f (size_of (fst x)) = snd x + 1) ->
  best_so_far size pre best bsize ->
  exists b bs, levals (fun _ '(fh, best, bsize) =>
      bind (lw (next_of fh)) (fun nx =>
      if nx =? 0 then ret (inr best)
      else bind (lw (size_of fh)) (fun sz =>
        let fh_size := get_size (s32 sz) in
        if (fh_size >=? size) && (best =? 0) then ret (inl (nx, fh, fh_size))
        else if (fh_size >=? size) && negb (best =? 0) && (fh_size <? bsize) then ret (inl (nx, fh, fh_size))
        else ret (inl (nx, best, bsize))))) (hd fs (map fst r), best, bsize) h b h /\ best_so_far size (pre ++ r) b bs.
Proof.
  intros R P Hfs. induction r as [|[c n] r IH]; intros pre best bsize Sub L Sz B.
  - exists best, bsize. split; [|rewrite app_nil_r; exact B]. cbn [map app links hd] in *. destruct L as (_ & L & _).
    apply levals_exit. apply evals_const. erewrite x_lw; [|exact P|apply (w_next E cs (fs, 4096) Hfs)]. cbn [fst]. rewrite L. reflexivity.
  - assert (Hc : In (c, n) cs) by (apply Sub; left; reflexivity).
    cbn [map app links] in L. destruct L as (_ & L & L'). cbn [fst] in *.
    pose proof (Sz (c, n) ltac:(left; reflexivity)) as Sn. cbn [fst snd] in Sn.
    pose proof (rg_ok _ _ _ R) as Ok. rewrite Forall_forall in Ok. destruct (Ok _ Hc) as [[Pc1 Pc2] [S1 S2] T _]. cbn [fst snd] in *.
    assert (En : hd 0 (map fst r ++ [fs]) = hd fs (map fst r)) by (destruct r; reflexivity). rewrite En in L.
    assert (Nz : hd fs (map fst r) <> 0).
    { destruct r as [|y r']; cbn [map hd].
      - pose proof (rg_page E h cs _ R Hfs) as [Q _]. cbn in Q. lia.
      - pose proof (rg_page E h cs y R) as Q. unfold page in Q. specialize (Q ltac:(apply Sub; right; left; reflexivity)). lia. }
    assert (Gs : get_size (s32 (n + 1)) = n).
    { rewrite s32_id by (unfold is_i32; lia). apply get_size_val; lia. }
    set (best' := if (n >=? size) && ((best =? 0) || (n <? bsize)) then c else best).
    set (bsize' := if (n >=? size) && ((best =? 0) || (n <? bsize)) then n else bsize).
    assert (B' : best_so_far size (pre ++ [(c, n)]) best' bsize').
    { unfold best', bsize', best_so_far in *. destruct (Z.geb_spec n size) as [G|G]; cbn [andb].
      - destruct B as [[B1 B2]|(B1 & B2 & B3 & B4)].
        + subst best. cbn. right. split; [lia|]. split; [apply in_app_iff; right; left; reflexivity|]. split; [lia|].
          intros x Hx Hs. apply in_app_iff in Hx. destruct Hx as [Hx|[<-|[]]]; [specialize (B2 x Hx); lia|cbn; lia].
        + destruct (Z.eqb_spec best 0); [contradiction|]. cbn [orb]. destruct (Z.ltb_spec n bsize).
          * right. split; [lia|]. split; [apply in_app_iff; right; left; reflexivity|]. split; [lia|].
            intros x Hx Hs. apply in_app_iff in Hx. destruct Hx as [Hx|[<-|[]]]; [specialize (B4 x Hx Hs); lia|cbn; lia].
          * right. split; [exact B1|]. split; [apply in_app_iff; left; exact B2|]. split; [exact B3|].
            intros x Hx Hs. apply in_app_iff in Hx. destruct Hx as [Hx|[<-|[]]]; [specialize (B4 x Hx Hs); lia|cbn; lia].
      - destruct B as [[B1 B2]|(B1 & B2 & B3 & B4)].
        + left. split; [exact B1|]. intros x Hx. apply in_app_iff in Hx. destruct Hx as [Hx|[<-|[]]]; [auto|cbn; lia].
        + right. split; [exact B1|]. split; [apply in_app_iff; left; exact B2|]. split; [exact B3|].
          intros x Hx Hs. apply in_app_iff in Hx. destruct Hx as [Hx|[<-|[]]]; [specialize (B4 x Hx Hs); lia|cbn in Hs; lia]. }
    destruct (IH (pre ++ [(c, n)]) best' bsize') as (b & bs & Lv & Bf).
    + intros x Hx. apply Sub. right. exact Hx.
    + rewrite map_app. cbn [map fst]. rewrite last_app_single. exact L'.
    + intros x Hx. apply Sz. right. exact Hx.
    + exact B'.
    + exists b, bs. rewrite <- app_assoc in Bf. split; [|exact Bf].
      eapply levals_step; [|exact Lv]. apply evals_const. cbn [map hd fst].
      erewrite x_lw; [|exact P|apply (w_next E cs (c, n) Hc)]. cbn [fst]. rewrite L.
      destruct (Z.eqb_spec (hd fs (map fst r)) 0); [contradiction|].
      erewrite x_lw; [|exact P|apply (w_size E cs (c, n) Hc)]. cbn [fst]. rewrite Sn. cbv zeta. rewrite Gs.
      unfold best', bsize'. destruct (n >=? size), (best =? 0), (n <? bsize); reflexivity.
Qed.

Lemma best_fit_spec E h0 h cs f fs fl size : regions E h cs -> rep (words E cs) h0 h f -> In (fs, 4096) cs ->
  (forall x, In x fl -> In x cs) -> flist E f fs fl ->
  exists b, evals (fun F => best_fit F (hd fs (map fst fl)) size) h b h /\
    ((b = 0 /\ forall x, In x fl -> snd x < size) \/
     (b <> 0 /\ exists n, In (b, n) fl /\ size <= n /\ forall x, In x fl -> size <= snd x -> n <= snd x)).
Proof.
  intros R P Hfs Sub (_ & L & Sz).
  destruct (best_fit_loop E h0 h cs f fs size R P Hfs fl [] 0 0 Sub L Sz) as (b & bs & Lv & B).
  - left. split; [reflexivity|]. intros x [].
  - exists b. split; [apply levals_evals in Lv; exact Lv|]. cbn [app] in B.
    destruct B as [[B1 B2]|(B1 & B2 & B3 & B4)]; [left; auto|right; split; [exact B1|]]. exists bs. auto.
Qed.

(** ** Taking a chunk off the free list *)
Lemma last_map_snoc (l : list (Z * Z)) y d : last (map fst (l ++ [y])) d = fst y.
Proof. rewrite map_app. apply last_app_single. Qed.

Section Steps.
  Variables (E : env) (h0 : heap) (cs : list (Z * Z)).
  Hypothesis R : regions E h0 cs.
  Let Sp : wsep (words E cs) := regions_wsep E h0 cs R.
  Let ND : NoDup (map fst cs) := pairwise_nodup E h0 cs R.

  Lemma dist x y : In x cs -> In y cs -> x <> y -> fst x <> fst y.
  Proof. intros Hx Hy N Ef. apply N. eapply fst_inj; eauto. Qed.

  Lemma unlink_free_spec h f a0 fs al l1 c n l2 :
    rep (words E cs) h0 h f -> Permutation cs (chunks a0 fs al (l1 ++ (c, n) :: l2)) ->
    alist E f a0 al -> flist E f fs (l1 ++ (c, n) :: l2) ->
    exists h' f', unlink_free E c h = Some (tt, h') /\ rep (words E cs) h0 h' f' /\
      alist E f' a0 al /\ flist E f' fs (l1 ++ l2) /\ f' (size_of c) = n + 1.
  Proof.
    intros P Pm A (F1 & F2 & F3).
    assert (Ics : forall x, In x (chunks a0 fs al (l1 ++ (c, n) :: l2)) -> In x cs).
    { intros x Hx. eapply Permutation_in; [apply Permutation_sym; exact Pm|exact Hx]. }
    assert (NDc : NoDup (a0 :: fs :: map fst al ++ map fst l1 ++ c :: map fst l2)).
    { assert (Q : NoDup (map fst (chunks a0 fs al (l1 ++ (c, n) :: l2)))).
      { eapply Permutation_NoDup; [|exact ND]. apply Permutation_map. exact Pm. }
      unfold chunks in Q. cbn [map fst] in Q. rewrite !map_app in Q. cbn [map fst] in Q. exact Q. }
    assert (Pg : Forall page (a0 :: fs :: map fst al ++ map fst l1 ++ c :: map fst l2)).
    { pose proof (rg_pages E h0 cs R) as Q.
      assert (Q' : Forall page (map fst (chunks a0 fs al (l1 ++ (c, n) :: l2)))).
      { eapply Permutation_Forall; [apply Permutation_map; exact Pm|exact Q]. }
      unfold chunks in Q'. cbn [map fst] in Q'. rewrite !map_app in Q'. cbn [map fst] in Q'. exact Q'. }
    assert (Hc : In (c, n) cs). { apply Ics. right. right. apply in_app_iff. right. apply in_app_iff. right. left. reflexivity. }
    (* the address list *)
    rewrite map_app in F2. cbn [map fst] in F2.
    destruct (map fst l2 ++ [fs]) as [|nx rest] eqn:El2; [destruct l2; discriminate|].
    assert (Efl : (map fst l1 ++ c :: map fst l2) ++ [fs] = map fst l1 ++ c :: nx :: rest).
    { rewrite <- app_assoc. cbn [app]. rewrite El2. reflexivity. }
    rewrite Efl in F2.
    assert (Pmz : Permutation (a0 :: fs :: map fst al ++ map fst l1 ++ c :: map fst l2) (a0 :: map fst al ++ (map fst l1 ++ c :: nx :: rest))).
    { apply perm_skip. rewrite <- Efl. etransitivity; [apply Permutation_cons_append|]. rewrite <- app_assoc. reflexivity. }
    assert (ND1 : NoDup (a0 :: map fst al ++ (map fst l1 ++ c :: nx :: rest))) by (eapply Permutation_NoDup; eauto).
    assert (Pg1 : Forall page (a0 :: map fst al ++ (map fst l1 ++ c :: nx :: rest))) by (eapply Permutation_Forall; eauto).
    assert (ND2 : NoDup (map fst l1 ++ c :: nx :: rest)).
    { inversion ND1; subst. clear - H2. induction (map fst al) as [|z l IH]; [exact H2|]. apply IH. inversion H2; auto. }
    assert (Pg2 : Forall page (map fst l1 ++ c :: nx :: rest)).
    { inversion Pg1; subst. apply Forall_app in H2. tauto. }
    assert (Frw : forall d, In d (map fst l1 ++ c :: nx :: rest) -> ~ In d (a0 :: map fst al)).
    { intros d Hd Ha. clear - ND1 Hd Ha.
      assert (G : forall l r : list Z, NoDup (l ++ r) -> In d r -> In d l -> False).
      { induction l as [|z l IH]; intros r N I1 I2; [contradiction|]. cbn in N. inversion N; subst.
        destruct I2 as [<-|I2]; [apply H1; apply in_app_iff; auto|eauto]. }
      apply (G (a0 :: map fst al) (map fst l1 ++ c :: nx :: rest)); auto. }
    pose proof (links_unlink f 0 (map fst l1) c nx rest 0 ND2 Pg2 F2) as LU.
    rewrite links_app in F2. destruct F2 as [F2a F2b]. cbn [links hd] in F2b. destruct F2b as (F2b & F2c & _).
    (* nx is a chunk *)
    assert (Hnx : exists x, In x cs /\ fst x = nx).
    { destruct l2 as [|y l2']; cbn in El2; injection El2 as Q1 Q2.
      - exists (fs, 4096). split; [|exact Q1]. apply Ics. right. left. reflexivity.
      - exists y. split; [|exact Q1]. apply Ics. right. right. apply in_app_iff. right. apply in_app_iff. right. right. left. reflexivity. }
    destruct Hnx as (xn & Hxn & Exn).
    assert (Hal : forall d, In d (map fst al) -> exists x, In x cs /\ fst x = d).
    { intros d Hd. apply in_map_iff in Hd. destruct Hd as (x & <- & Hx). exists x. split; [|reflexivity]. apply Ics. right. right. apply in_app_iff. auto. }
    assert (Pa : Forall page (a0 :: map fst al)).
    { inversion Pg1; subst. constructor; auto. apply Forall_app in H2. tauto. }
    assert (Pnx : page nx). { rewrite <- Exn. eapply rg_page; eauto. }
    assert (Pc : page c). { apply (rg_page E h0 cs (c, n) R Hc). }
    assert (Nnx : c <> nx). { intros <-. apply NoDup_remove_2 in ND2. apply ND2. apply in_app_iff. right. left. reflexivity. }
    assert (Wn : w32 nx = nx). { rewrite <- Exn. eapply rg_small; eauto. }
    pose proof (rg_gsep _ _ _ R) as Gs. unfold globals_apart, apart in Gs.
    assert (Gfn : forall g, glob E g -> g <> prev_of nx).
    { intros g Hg. rewrite <- Exn. apply (glob_not_own E h0 cs g xn R Hg Hxn). }
    destruct l1 as [|y l1' _] using rev_ind.
    - (* first in the list *)
      cbn [map app last] in *.
      set (f1 := fset f (g_free E) nx). set (f2 := fset f1 (prev_of nx) 0).
      exists (poke (poke h (g_free E) nx) (prev_of nx) 0), f2.
      assert (R1 : rep (words E cs) h0 (poke h (g_free E) nx) f1).
      { unfold f1. rewrite <- Wn at 2. apply r_sw; auto with words. }
      assert (G1 : g_free E <> next_of c /\ g_free E <> prev_of c /\ g_free E <> size_of c).
      { apply (glob_not_own E h0 cs (g_free E) (c, n) R); [right; right; reflexivity|exact Hc]. }
      assert (Ef1 : f1 (next_of c) = nx /\ f1 (prev_of c) = 0).
      { unfold f1. rewrite !fset_other by tauto || (apply not_eq_sym; tauto). auto. }
      split; [|split; [|split; [|split]]].
      + unfold unlink_free. erewrite x_lw; [|exact P|apply (w_prev E cs (c, n) Hc)]. cbn [fst]. rewrite F2b. cbn [Z.eqb negb].
        rewrite bind_assoc. erewrite x_lw; [|exact P|apply (w_next E cs (c, n) Hc)]. cbn [fst]. rewrite F2c.
        erewrite x_sw; [|exact Sp|exact P|auto with words].
        erewrite x_lw; [|exact R1|apply (w_next E cs (c, n) Hc)]. cbn [fst]. destruct Ef1 as [-> Ef1].
        destruct (Z.eqb_spec nx 0); [unfold page in Pnx; lia|]. cbn [negb].
        erewrite x_lw; [|exact R1|apply (w_prev E cs (c, n) Hc)]. cbn [fst]. rewrite Ef1.
        destruct (sw_rep (words E cs) h0 _ f1 (prev_of nx) 0 Sp R1) as [-> _]; [|reflexivity].
        rewrite <- Exn. auto with words.
      + unfold f2. change 0 with (w32 0) at 2. apply r_sw; auto. rewrite <- Exn. auto with words.
      + apply alist_agree with (f := f); auto.
        * unfold f2, f1. rewrite !fset_other; auto; [lia|]. apply Gfn. left. reflexivity.
        * unfold f2, f1. rewrite !fset_other; auto; [lia|]. apply Gfn. right. left. reflexivity.
        * unfold f2, f1. apply agree_fset.
          { apply not_field_of with (c := nx); auto. apply Frw. right. left. reflexivity. }
          apply agree_fset; [|apply agree_refl].
          intros d Hd. destruct Hd as [<-|Hd].
          { apply (glob_not_own E h0 cs (g_free E) (a0, 4096) R); [right; right; reflexivity|]. apply Ics. left. reflexivity. }
          destruct (Hal d Hd) as (x & Hx & <-). apply (glob_not_own E h0 cs (g_free E) x R); [right; right; reflexivity|exact Hx].
      + split; [|split].
        * unfold f2, f1. rewrite fset_other by (apply Gfn; right; right; reflexivity). rewrite fset_same.
          destruct l2; cbn in El2; inversion El2; reflexivity.
        * rewrite El2. eapply links_agree; [|exact LU]. intros d Hd. unfold f2, f1.
          assert (Hdc : exists x, In x cs /\ fst x = d).
          { rewrite <- El2 in Hd. apply in_app_iff in Hd. destruct Hd as [Hd|[<-|[]]].
            - apply in_map_iff in Hd. destruct Hd as (x & <- & Hx). exists x. split; [|reflexivity]. apply Ics. right. right. apply in_app_iff. right. right. exact Hx.
            - exists (fs, 4096). split; [|reflexivity]. apply Ics. right. left. reflexivity. }
          destruct Hdc as (x & Hx & <-).
          destruct (glob_not_own E h0 cs (g_free E) x R ltac:(right; right; reflexivity) Hx) as (N1 & N2 & N3).
          unfold fset. split; repeat match goal with |- context [?u =? ?v] => destruct (Z.eqb_spec u v); try congruence end.
        * intros x Hx. rewrite <- F3 by (right; exact Hx).
          assert (Hxc : In x cs) by (apply Ics; right; right; apply in_app_iff; right; right; exact Hx).
          destruct (glob_not_own E h0 cs (g_free E) x R ltac:(right; right; reflexivity) Hxc) as (N1 & N2 & N3).
          pose proof (rg_page E h0 cs x R Hxc) as [_ Px]. destruct Pnx as [_ Pnx'].
          unfold f2, f1. rewrite !fset_other; auto. unfold size_of, prev_of. lia.
      + unfold f2, f1. rewrite !fset_other; [apply (F3 (c, n)); left; reflexivity|apply not_eq_sym; tauto|].
        destruct Pnx as [_ ?], Pc as [_ ?]. unfold size_of, prev_of. lia.
    - (* further down *)
      set (yl := fst y).
      assert (Hy : In y cs). { apply Ics. right. right. rewrite !in_app_iff. right. left. right. left. reflexivity. }
      assert (Py : page yl) by (eapply rg_page; eauto).
      assert (Eyl : last (map fst (l1' ++ [y])) 0 = yl) by (rewrite last_map_snoc; reflexivity).
      rewrite Eyl in *.
      assert (Em : match map fst (l1' ++ [y]) with [] => f | _ => fset f (next_of yl) nx end = fset f (next_of yl) nx).
      { destruct (map fst (l1' ++ [y])) eqn:Q; [rewrite map_app in Q; destruct (map fst l1'); discriminate|reflexivity]. }
      rewrite Em in LU.
      set (f1 := fset f (next_of yl) nx) in *. set (f2 := fset f1 (prev_of nx) yl) in *.
      assert (Ny : yl <> c /\ yl <> nx).
      { rewrite map_app in ND2. cbn [map] in ND2. rewrite <- app_assoc in ND2. cbn [app] in ND2.
        apply NoDup_remove_2 in ND2. rewrite in_app_iff in ND2. cbn in ND2. fold yl in ND2. intuition congruence. }
      exists (poke (poke h (next_of yl) nx) (prev_of nx) yl), f2.
      assert (R1 : rep (words E cs) h0 (poke h (next_of yl) nx) f1).
      { unfold f1. rewrite <- Wn at 2. apply r_sw; auto. apply w_next. exact Hy. }
      assert (Ef1 : f1 (next_of c) = nx /\ f1 (prev_of c) = yl).
      { destruct Py as [_ ?], Pc as [_ ?]. unfold f1. rewrite !fset_other by (unfold next_of, prev_of; lia). auto. }
      assert (Wy : w32 yl = yl) by (eapply rg_small; eauto).
      split; [|split; [|split; [|split]]].
      + unfold unlink_free. erewrite x_lw; [|exact P|apply (w_prev E cs (c, n) Hc)]. cbn [fst]. rewrite F2b.
        destruct (Z.eqb_spec yl 0); [unfold page in Py; lia|]. cbn [negb].
        rewrite bind_assoc. erewrite x_lw; [|exact P|apply (w_next E cs (c, n) Hc)]. cbn [fst]. rewrite F2c.
        erewrite x_sw; [|exact Sp|exact P|apply w_next; exact Hy].
        erewrite x_lw; [|exact R1|apply (w_next E cs (c, n) Hc)]. cbn [fst]. destruct Ef1 as [-> Ef1].
        destruct (Z.eqb_spec nx 0); [unfold page in Pnx; lia|]. cbn [negb].
        erewrite x_lw; [|exact R1|apply (w_prev E cs (c, n) Hc)]. cbn [fst]. rewrite Ef1.
        destruct (sw_rep (words E cs) h0 _ f1 (prev_of nx) yl Sp R1) as [-> _]; [|reflexivity].
        rewrite <- Exn. auto with words.
      + assert (Wp : words E cs (prev_of nx)) by (rewrite <- Exn; auto with words).
        pose proof (r_sw (words E cs) h0 _ f1 (prev_of nx) yl Sp R1 Wp) as Q. rewrite Wy in Q. exact Q.
      + apply alist_agree with (f := f); auto.
        * unfold f2, f1. rewrite !fset_other; auto; [|apply Gfn; left; reflexivity].
          apply (glob_not_own E h0 cs (g_head E) y R); [left; reflexivity|exact Hy].
        * unfold f2, f1. rewrite !fset_other; auto; [|apply Gfn; right; left; reflexivity].
          apply (glob_not_own E h0 cs (g_tail E) y R); [right; left; reflexivity|exact Hy].
        * unfold f2, f1. apply agree_fset.
          { apply not_field_of with (c := nx); auto. apply Frw. apply in_app_iff. right. right. left. reflexivity. }
          apply agree_fset; [|apply agree_refl].
          apply not_field_of with (c := yl); auto. apply Frw. apply in_app_iff. left. rewrite map_app. apply in_app_iff. right. left. reflexivity.
      + split; [|split].
        * unfold f2, f1. rewrite !fset_other.
          -- rewrite F1, <- !app_assoc. destruct l1'; reflexivity.
          -- apply (glob_not_own E h0 cs (g_free E) y R); [right; right; reflexivity|exact Hy].
          -- apply Gfn. right. right. reflexivity.
        * rewrite (map_app fst (l1' ++ [y]) l2), <- (app_assoc (map fst (l1' ++ [y]))), El2. exact LU.
        * intros x Hx. rewrite <- F3 by (rewrite in_app_iff in *; cbn; tauto).
          assert (Hxc : In x cs) by (apply Ics; right; right; apply in_app_iff; right; rewrite in_app_iff in *; cbn; tauto).
          pose proof (rg_page E h0 cs x R Hxc) as [_ Px]. destruct Pnx as [_ Pnx'], Py as [_ Py'].
          unfold f2, f1. rewrite !fset_other; auto; unfold size_of, prev_of, next_of; lia.
      + destruct Pnx as [_ ?], Pc as [_ ?], Py as [_ ?]. unfold f2, f1. rewrite !fset_other.
        * apply (F3 (c, n)). rewrite in_app_iff. right. left. reflexivity.
        * unfold size_of, next_of. lia.
        * unfold size_of, prev_of. lia.
  Qed.
End Steps.
