(** The allocator of the embedded libc: complete calls of malloc and free. *)
From Coq Require Import Permutation.
From Verif.Lib Require Import CMem LibcMalloc MallocProofs MallocProofs2 MallocProofs3.
Open Scope Z_scope.

Lemma bind_ext {A B} (m : M A) (k k' : A -> M B) h : (forall a h', k a h' = k' a h') -> bind m k h = bind m k' h.
Proof. intros Q. unfold bind. destruct (m h) as [[a h']|]; [apply Q|reflexivity]. Qed.

Section Steps.
  Variables (E : env) (h0 : heap) (cs : list (Z * Z)).
  Hypothesis R : regions E h0 cs.
  Let Sp : wsep (words E cs) := regions_wsep E h0 cs R.

  Lemma free_double h f fs fl c n : rep (words E cs) h0 h f -> In (c, n) cs -> flist E f fs fl -> In (c, n) fl ->
    free E (c + HDR) h = Some (true, h).
  Proof.
    intros P Hc (_ & _ & F) I. specialize (F _ I). cbn [fst snd] in F.
    destruct (facts E h0 cs R _ Hc) as (Pc & Sc & _). cbn [fst snd] in *.
    unfold free. destruct (Z.eqb_spec (c + HDR) 0); [unfold page, HDR in *; lia|]. cbv zeta.
    replace (c + HDR - HDR) with c by lia.
    erewrite x_lw; [|exact P|apply (w_size E cs _ Hc)]. cbn [fst]. rewrite F, s32_id by (unfold is_i32; lia).
    rewrite is_freed_val by lia. reflexivity.
  Qed.

  Lemma free_spec h f a0 fs l1 c n l2 fl :
    rep (words E cs) h0 h f -> Permutation cs (chunks a0 fs (l1 ++ (c, n) :: l2) fl) ->
    alist E f a0 (l1 ++ (c, n) :: l2) -> flist E f fs fl ->
    exists h' f', free E (c + HDR) h = Some (false, h') /\ rep (words E cs) h0 h' f' /\
      alist E f' a0 (l1 ++ l2) /\ flist E f' fs ((c, n) :: fl).
  Proof.
    intros P Pm A F. destruct (geo E h0 cs R _ Pm) as (Ics & ND & Pg).
    assert (Hc : In (c, n) cs) by (apply Ics; right; right; rewrite !in_app_iff; left; right; left; reflexivity).
    destruct (unlink_alloc_spec E h0 cs R h f a0 fs l1 c n l2 fl P Pm A F) as (Lp & h2 & f2 & U & P2 & A2 & F2 & Sz).
    destruct F2 as (F2a & F2b & F2c).
    pose proof (facts E h0 cs R _ Hc) as Fc. destruct (gfacts E h0 cs R) as (G1 & G2 & G3). cbn [fst snd] in Fc.
    destruct Fc as (Pc & Sc & Wc & C1 & C2 & C3).
    set (q := hd fs (map fst fl)) in *.
    assert (Eads : map fst (chunks a0 fs (l1 ++ (c, n) :: l2) fl) = a0 :: fs :: (map fst l1 ++ c :: map fst l2) ++ map fst fl).
    { unfold chunks. cbn [map fst]. rewrite !map_app. reflexivity. }
    rewrite Eads in ND, Pg.
    assert (ND' : NoDup (((a0 :: map fst l1) ++ c :: map fst l2) ++ (map fst fl ++ [fs]))).
    { eapply Permutation_NoDup; [|exact ND]. cbn. apply perm_skip. etransitivity; [apply Permutation_cons_append|]. rewrite <- !app_assoc. reflexivity. }
    assert (Far : forall z d, In z ((a0 :: map fst l1) ++ c :: map fst l2) -> In d (map fst fl ++ [fs]) -> z <> d).
    { intros z d Hz Hd ->. eapply nodup_app_disj; eauto. }
    assert (Iq : In q (map fst fl ++ [fs])) by (unfold q; destruct fl; left; reflexivity).
    assert (Fd : forall d, In d (map fst fl ++ [fs]) -> exists x, In x cs /\ fst x = d).
    { intros d Hd. apply in_app_iff in Hd. destruct Hd as [Hd|[<-|[]]].
      - apply (mem_addr cs fl); auto. intros x Hx. apply Ics. right. right. rewrite !in_app_iff. auto.
      - exists (fs, 4096). split; [apply Ics; right; left; reflexivity|reflexivity]. }
    assert (Ncq : c <> q) by (apply Far; auto; apply in_app_iff; right; left; reflexivity).
    destruct (Fd q Iq) as ([q' nq] & Hq & Eq). cbn [fst] in Eq. rewrite Eq in Hq. clear q' Eq.
    pose proof (facts E h0 cs R _ Hq) as Fq. cbn [fst snd] in Fq. destruct Fq as (Pq & Sq & Wq & Q1 & Q2 & Q3).
    set (f3 := fset f2 (next_of c) q). set (f4 := fset f3 (prev_of c) 0). set (f5 := fset f4 (size_of c) (n + 1)).
    set (f6 := fset f5 (prev_of q) c). set (f7 := fset f6 (g_free E) c).
    set (h3 := poke h2 (next_of c) q). set (h4 := poke h3 (prev_of c) 0). set (h5 := poke h4 (size_of c) (n + 1)).
    set (h6 := poke h5 (prev_of q) c). set (h7 := poke h6 (g_free E) c).
    assert (R3 : rep (words E cs) h0 h3 f3).
    { pose proof (r_sw _ h0 h2 f2 (next_of c) q Sp P2 (w_next E cs _ Hc)) as Q. rewrite Wq in Q. exact Q. }
    assert (R4 : rep (words E cs) h0 h4 f4) by (apply (r_sw _ h0 h3 f3 (prev_of c) 0 Sp R3 (w_prev E cs _ Hc))).
    assert (R5 : rep (words E cs) h0 h5 f5).
    { pose proof (r_sw _ h0 h4 f4 (size_of c) (n + 1) Sp R4 (w_size E cs _ Hc)) as Q. rewrite w32_id in Q by (unfold is_u32; lia). exact Q. }
    assert (R6 : rep (words E cs) h0 h6 f6).
    { pose proof (r_sw _ h0 h5 f5 (prev_of q) c Sp R5 (w_prev E cs _ Hq)) as Q. rewrite Wc in Q. exact Q. }
    assert (R7 : rep (words E cs) h0 h7 f7).
    { pose proof (r_sw _ h0 h6 f6 (g_free E) c Sp R6 (w_free E cs)) as Q. rewrite Wc in Q. exact Q. }
    exists h7, f7. split; [|split; [exact R7|split]].
    - unfold free. destruct (Z.eqb_spec (c + HDR) 0); [unfold page, HDR in *; lia|]. cbv zeta.
      replace (c + HDR - HDR) with c by lia.
      erewrite x_lw; [|exact P|apply (w_size E cs _ Hc)]. cbn [fst].
      assert (Sz0 : f (size_of c) = n + 0).
      { destruct A as (_ & _ & _ & A). rewrite Z.add_0_r. apply (A (c, n)). apply in_app_iff. right. left. reflexivity. }
      rewrite Sz0, s32_id by (unfold is_i32; lia). rewrite is_freed_val by lia. cbn [Z.eqb].
      erewrite x_lw; [|exact P|apply (w_prev E cs _ Hc)]. cbn [fst]. rewrite Lp.
      match goal with |- bind ?x ?k h = _ => transitivity (bind (unlink_alloc E c (last (map fst l1) a0)) (fun _ =>
        bind (lw (g_free E)) (fun fh => bind (sw (next_of c) fh) (fun _ => bind (sw (prev_of c) 0) (fun _ =>
        bind (lw (size_of c)) (fun sz => bind (sw (size_of c) (ior (s32 sz) 1)) (fun _ =>
        bind (lw (g_free E)) (fun fh => bind (sw (prev_of fh) c) (fun _ => bind (sw (g_free E) c) (fun _ => ret false))))))))) h) end.
      { unfold unlink_alloc. rewrite (bind_assoc (if negb (last (map fst l1) a0 =? 0) then _ else _)).
        set (X := if negb (last (map fst l1) a0 =? 0) then _ else _). apply bind_ext. intros _ hh. rewrite bind_assoc. reflexivity. }
      erewrite bind_ok; [|exact U].
      erewrite x_lw; [|exact P2|apply w_free]. rewrite F2a. fold q.
      erewrite x_sw; [|exact Sp|exact P2|apply (w_next E cs _ Hc)]. cbn [fst]. fold h3.
      erewrite x_sw; [|exact Sp|exact R3|apply (w_prev E cs _ Hc)]. cbn [fst]. fold h4.
      erewrite x_lw; [|exact R4|apply (w_size E cs _ Hc)]. cbn [fst].
      assert (E4 : f4 (size_of c) = n) by (unfold f4, f3; rewrite !fset_other by ne; exact Sz).
      rewrite E4, s32_id by (unfold is_i32; lia). rewrite ior_1 by lia.
      erewrite x_sw; [|exact Sp|exact R4|apply (w_size E cs _ Hc)]. cbn [fst]. fold h5.
      erewrite x_lw; [|exact R5|apply w_free].
      assert (E5 : f5 (g_free E) = q) by (unfold f5, f4, f3; rewrite !fset_other by ne; exact F2a). rewrite E5.
      erewrite x_sw; [|exact Sp|exact R5|apply (w_prev E cs _ Hq)]. cbn [fst]. fold h6.
      erewrite x_sw; [|exact Sp|exact R6|apply w_free]. reflexivity.
    - apply alist_agree with (f := f2); auto.
      + unfold f7, f6, f5, f4, f3. rewrite !fset_other by ne. reflexivity.
      + unfold f7, f6, f5, f4, f3. rewrite !fset_other by ne. reflexivity.
      + intros d Hd.
        assert (Hd' : In d ((a0 :: map fst l1) ++ c :: map fst l2)).
        { rewrite map_app in Hd. destruct Hd as [Hd|Hd]; [left; exact Hd|]. apply in_app_iff in Hd. apply in_app_iff. cbn. tauto. }
        assert (Hdc : exists x, In x cs /\ fst x = d).
        { destruct Hd as [<-|Hd]; [exists (a0, 4096); split; [apply Ics; left; reflexivity|reflexivity]|].
          apply (mem_addr cs (l1 ++ l2)); auto. intros x Hx. apply Ics. right. right. rewrite in_app_iff in *. rewrite in_app_iff. cbn. tauto. }
        assert (Ncd : c <> d).
        { intros Q. apply nodup_app_l in ND'. rewrite Q in ND'. apply NoDup_remove_2 in ND'. apply ND'.
          change ((a0 :: map fst l1) ++ map fst l2) with (a0 :: (map fst l1 ++ map fst l2)). rewrite <- map_app. exact Hd. }
        assert (Nqd : d <> q) by (apply Far; auto).
        destruct Hdc as (x & Hx & <-). pose proof (facts E h0 cs R _ Hx) as Fx. destruct Fx as (Px & Sx & Wx & X1 & X2 & X3).
        unfold f7, f6, f5, f4, f3. split; [|split]; rewrite !fset_other by ne; reflexivity.
    - split; [|split].
      + cbn [map hd fst]. apply fset_same.
      + cbn [map app fst links]. split; [|split].
        * unfold f7, f6, f5. rewrite !fset_other by ne. apply fset_same.
        * unfold f7, f6, f5, f4. rewrite !fset_other by ne. unfold f3. rewrite fset_same. unfold q. destruct fl; reflexivity.
        * assert (Eqs : exists rest, map fst fl ++ [fs] = q :: rest) by (unfold q; destruct fl as [|x0 r0]; eexists; reflexivity).
          destruct Eqs as [rest Eqs].
          assert (L6 : links (fset f2 (prev_of q) c) c (map fst fl ++ [fs]) 0).
          { rewrite Eqs in *. apply links_set_prev with (p := 0); auto.
            - apply nodup_app_r in ND'. apply NoDup_cons_iff in ND'. tauto.
            - apply Forall_cons_iff in Pg. destruct Pg as [P1 Pg]. apply Forall_cons_iff in Pg. destruct Pg as [P3 Pg].
              rewrite <- Eqs. apply Forall_app. split; [apply Forall_app in Pg; tauto|constructor; [exact P3|constructor]]. }
          eapply links_agree; [|exact L6]. intros d Hd.
          assert (Ncd : c <> d) by (apply Far; auto; apply in_app_iff; right; left; reflexivity).
          destruct (Fd d Hd) as (x & Hx & <-). pose proof (facts E h0 cs R _ Hx) as Fx. destruct Fx as (Px & Sx & Wx & X1 & X2 & X3).
          assert (K : forall a, a <> next_of c -> a <> prev_of c -> a <> size_of c -> a <> g_free E -> f7 a = fset f2 (prev_of q) c a).
          { intros a N1 N2 N3 N4. unfold f7, f6. rewrite (fset_other _ (g_free E)) by exact N4.
            destruct (Z.eq_dec a (prev_of q)) as [->|N]; [rewrite !fset_same; reflexivity|].
            unfold f5, f4, f3. rewrite !fset_other by assumption. reflexivity. }
          split; apply K; ne.
      + intros x [<-|Hx].
        * unfold f7, f6. rewrite !fset_other by ne. apply fset_same.
        * assert (Hxc : In x cs) by (apply Ics; right; right; rewrite !in_app_iff; auto).
          assert (Ncd : c <> fst x).
          { apply Far; [apply in_app_iff; right; left; reflexivity|apply in_app_iff; left; apply in_map; exact Hx]. }
          pose proof (facts E h0 cs R _ Hxc) as Fx. destruct Fx as (Px & Sx & Wx & X1 & X2 & X3).
          unfold f7, f6, f5, f4, f3. rewrite fset_other by ne. rewrite fset_other by (apply (of_ne (fst x) q Px Pq)).
          rewrite !fset_other by ne. apply F2c. exact Hx.
  Qed.
End Steps.
