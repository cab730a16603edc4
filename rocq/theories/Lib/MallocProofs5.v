(** The allocator of the embedded libc: new mappings, initialisation, malloc. *)
From Coq Require Import Permutation.
From Verif.Lib Require Import CMem LibcMalloc MallocProofs MallocProofs2 MallocProofs3 MallocProofs4.
Open Scope Z_scope.

(** what is assumed of the operating system: a new mapping is page aligned, lies in the
    address space and does not overlap memory the program already has *)
Definition os_ok (E : env) : Prop := forall h len a, os E h len = Some a -> 0 < len ->
  0 < a /\ a mod 4096 = 0 /\ a + len <= 4294967296 /\ forall x, a <= x < a + len -> h x = None.

(** allocator ready: its lists are in order, al allocated, fl free *)
Definition ready (E : env) (h : heap) (a0 fs : Z) (al fl : list (Z * Z)) : Prop :=
  regions E h (chunks a0 fs al fl) /\ exists f, rep (words E (chunks a0 fs al fl)) h h f /\ alist E f a0 al /\ flist E f fs fl.
(** nothing allocated yet *)
Definition fresh (E : env) (h : heap) : Prop :=
  globals_apart E /\ peek h (g_head E) = Some 0 /\ peek h (g_tail E) = Some 0 /\ peek h (g_free E) = Some 0.

Definition keeps (E : env) (cs : list (Z * Z)) (h h' : heap) : Prop :=
  forall x, h x <> None -> (outside (words E cs) x -> h' x = h x) /\ h' x <> None.

Lemma keeps_rep E cs h h' f : rep (words E cs) h h' f -> keeps E cs h h'.
Proof. intros R x Hx. split; [intros O; apply R; exact O|]. intros Q. apply Hx. apply (rep_dom _ _ _ _ R x). exact Q. Qed.
Lemma rep_self W h0 h f : rep W h0 h f -> rep W h h f.
Proof. intros R. constructor; [apply R|reflexivity|reflexivity]. Qed.
Lemma keeps_refl E cs h : keeps E cs h h.
Proof. intros x Hx. auto. Qed.
Lemma keeps_trans E cs cs' h h1 h2 : keeps E cs h h1 -> keeps E cs' h1 h2 ->
  (forall x, h x <> None -> outside (words E cs) x -> outside (words E cs') x) -> keeps E cs h h2.
Proof.
  intros K1 K2 O x Hx. destruct (K1 x Hx) as [A1 A2], (K2 x A2) as [B1 B2]. split; [|exact B2].
  intros Ox. rewrite B1 by (apply O; auto). auto.
Qed.
Lemma keeps_mapped E cs h a n : (forall x, a <= x < a + n -> h x = None) -> keeps E cs h (mapped h a n).
Proof.
  intros Fr x Hx. unfold mapped. destruct (Z.leb_spec a x), (Z.ltb_spec x (a + n)); cbn; auto.
  exfalso. apply Hx. apply Fr. lia.
Qed.
Lemma outside_new E cs (h : heap) a n x : 4096 <= n -> (forall y, a <= y < a + n -> h y = None) -> h x <> None ->
  outside (words E cs) x -> outside (words E ((a, n) :: cs)) x.
Proof.
  intros Hn Fr Hx O y [Hy|(z & [<-|Hz] & Hy)].
  - apply O. left. exact Hy.
  - assert (x < a \/ a + n <= x) by (destruct (Z.lt_ge_cases x a), (Z.lt_ge_cases x (a + n)); auto; exfalso; apply Hx; apply Fr; lia).
    cbn [fst] in Hy. unfold next_of, prev_of, size_of in Hy. lia.
  - apply O. right. exists z. auto.
Qed.

Lemma mapped_in h a n x : a <= x < a + n -> mapped h a n x = Some 0.
Proof. intros. unfold mapped. destruct (Z.leb_spec a x), (Z.ltb_spec x (a + n)); try lia. reflexivity. Qed.
Lemma mapped_out h a n x : x < a \/ a + n <= x -> mapped h a n x = h x.
Proof. intros. unfold mapped. destruct (Z.leb_spec a x), (Z.ltb_spec x (a + n)); try lia; reflexivity. Qed.
Lemma peek_mapped_in h a n x : a <= x -> x + 4 <= a + n -> peek (mapped h a n) x = Some 0.
Proof. intros. unfold peek. rewrite !mapped_in by lia. reflexivity. Qed.
Lemma peek_mapped_out h a n x : x + 4 <= a \/ a + n <= x -> peek (mapped h a n) x = peek h x.
Proof. intros. apply peek_ext. intros i Hi. apply mapped_out. lia. Qed.

Definition fmap0 (f : Z -> Z) (a : Z) : Z -> Z := fset (fset (fset f (next_of a) 0) (prev_of a) 0) (size_of a) 0.

Lemma accessible_apart (h : heap) (c n a m : Z) : 0 < n -> 0 < m -> accessible h c n -> (forall x, a <= x < a + m -> h x = None) -> apart c n a m.
Proof.
  intros Hn Hm A Fr. unfold apart. destruct (Z.le_gt_cases (c + n) a) as [|G1]; [auto|]. destruct (Z.le_gt_cases (a + m) c) as [|G2]; [auto|].
  exfalso. apply (A (Z.max a c - c)); [lia|]. apply Fr. lia.
Qed.
Lemma peek_acc h a v : peek h a = Some v -> accessible h a 4.
Proof.
  unfold peek. intros H i Hi. destruct (h a) eqn:E0; [|discriminate]. destruct (h (a + 1)) eqn:E1; [|discriminate].
  destruct (h (a + 2)) eqn:E2; [|discriminate]. destruct (h (a + 3)) eqn:E3; [|discriminate].
  assert (i = 0 \/ i = 1 \/ i = 2 \/ i = 3) as [->|[->|[->| ->]]] by lia; rewrite ?Z.add_0_r; congruence.
Qed.

Lemma map_step E h cs f a n : os_ok E -> size_ok n -> regions E h cs -> rep (words E cs) h h f -> os E h n = Some a ->
  let h' := mapped h a n in
  regions E h' ((a, n) :: cs) /\ rep (words E ((a, n) :: cs)) h' h' (fmap0 f a) /\ (forall x, a <= x < a + n -> h x = None).
Proof.
  intros Os [S1 S2] Rg P Eo h'. destruct (Os h n a Eo ltac:(lia)) as (A1 & A2 & A3 & Fr).
  assert (Ga : forall g, glob E g -> apart g 4 a n).
  { intros g Hg. apply (accessible_apart h); try lia; auto. eapply peek_acc. apply P. left. exact Hg. }
  assert (Ca : forall x, In x cs -> disj x (a, n)).
  { intros x Hx. pose proof (rg_ok _ _ _ Rg) as Ok. rewrite Forall_forall in Ok. destruct (Ok x Hx) as [_ [_ Sx] _ Ax].
    apply (accessible_apart h); cbn [fst snd]; auto; lia. }
  split; [|split; [|exact Fr]].
  - destruct Rg as [Ok Di Gl Gs]. constructor; auto.
    + constructor.
      * constructor; cbn [fst snd]; try (unfold page, size_ok; lia). intros i Hi. unfold h'. rewrite mapped_in by lia. discriminate.
      * eapply Forall_impl; [|exact Ok]. intros x [P1 P2 P3 P4]. constructor; auto. intros i Hi. specialize (P4 i Hi).
        unfold h', mapped. destruct ((a <=? fst x + i) && (fst x + i <? a + n)); [discriminate|exact P4].
    + constructor; [|exact Di]. apply Forall_forall. intros x Hx. apply disj_sym. auto.
    + intros g x Hg [<-|Hx]; [apply Ga; exact Hg|auto].
  - constructor; [|reflexivity|reflexivity]. intros x Hx. unfold h', fmap0.
    destruct Hx as [Hx|(y & [<-|Hy] & Hx)].
    + specialize (Ga x Hx). rewrite peek_mapped_out by exact Ga. unfold apart in Ga.
      rewrite !fset_other by (unfold next_of, prev_of, size_of; lia). apply P. left. exact Hx.
    + cbn [fst] in Hx. rewrite peek_mapped_in by (unfold next_of, prev_of, size_of in Hx; lia). unfold fset.
      destruct Hx as [->|[->| ->]]; repeat match goal with |- context [?u =? ?v] => destruct (Z.eqb_spec u v); try congruence end.
    + pose proof (rg_ok _ _ _ Rg) as Ok. rewrite Forall_forall in Ok. destruct (Ok y Hy) as [Py [_ Sy] _ _].
      specialize (Ca y Hy). unfold disj, apart in Ca. cbn [fst snd] in Ca.
      rewrite peek_mapped_out by (unfold next_of, prev_of, size_of in Hx; lia).
      rewrite !fset_other by (unfold next_of, prev_of, size_of in *; lia). apply P. right. exists y. auto.
Qed.

Lemma regions_rebase E h h' cs f : rep (words E cs) h h' f -> regions E h cs -> regions E h' cs.
Proof. intros R. apply regions_dom. intros x. apply R. Qed.

(** ** Initialisation *)
Lemma init_alloc_spec E h f : os_ok E -> regions E h [] -> rep (words E []) h h f -> f (g_head E) = 0 -> f (g_free E) = 0 ->
  os E h 4096 <> None ->
  exists a0 h' f', init_alloc E h = Some (tt, h') /\ regions E h' [(a0, 4096)] /\ rep (words E [(a0, 4096)]) h' h' f' /\
    alist E f' a0 [] /\ f' (g_free E) = 0 /\ keeps E [] h h' /\
    (forall x, a0 <= x < a0 + 4096 -> h x = None) /\ (forall x, h' x = None <-> mapped h a0 4096 x = None).
Proof.
  intros Os Rg P Fh Ff Will. destruct (os E h 4096) as [a0|] eqn:Eo; [|contradiction].
  destruct (map_step E h [] f a0 4096 Os ltac:(unfold size_ok; lia) Rg P Eo) as (R1 & P1 & Fr).
  set (h1 := mapped h a0 4096) in *. set (cs := [(a0, 4096)]) in *. set (f1 := fmap0 f a0) in *.
  assert (Hc : In (a0, 4096) cs) by (left; reflexivity).
  pose proof (regions_wsep E h1 cs R1) as Sp.
  pose proof (facts E h1 cs R1 _ Hc) as Fc. destruct (gfacts E h1 cs R1) as (G1 & G2 & G3). cbn [fst snd] in Fc.
  destruct Fc as (Pc & Sc & Wc & C1 & C2 & C3).
  set (f2 := fset f1 (g_head E) a0). set (f3 := fset f2 (g_tail E) a0). set (f4 := fset f3 (next_of a0) 0).
  set (f5 := fset f4 (prev_of a0) 0). set (f6 := fset f5 (size_of a0) 0).
  set (h2 := poke h1 (g_head E) a0). set (h3 := poke h2 (g_tail E) a0). set (h4 := poke h3 (next_of a0) 0).
  set (h5 := poke h4 (prev_of a0) 0). set (h6 := poke h5 (size_of a0) 0).
  assert (R2 : rep (words E cs) h1 h2 f2).
  { pose proof (r_sw _ h1 h1 f1 (g_head E) a0 Sp P1 (w_head E cs)) as Q. rewrite Wc in Q. exact Q. }
  assert (R3 : rep (words E cs) h1 h3 f3).
  { pose proof (r_sw _ h1 h2 f2 (g_tail E) a0 Sp R2 (w_tail E cs)) as Q. rewrite Wc in Q. exact Q. }
  assert (R4 : rep (words E cs) h1 h4 f4) by (apply (r_sw _ h1 h3 f3 (next_of a0) 0 Sp R3 (w_next E cs _ Hc))).
  assert (R5 : rep (words E cs) h1 h5 f5) by (apply (r_sw _ h1 h4 f4 (prev_of a0) 0 Sp R4 (w_prev E cs _ Hc))).
  assert (R6 : rep (words E cs) h1 h6 f6) by (apply (r_sw _ h1 h5 f5 (size_of a0) 0 Sp R5 (w_size E cs _ Hc))).
  assert (E3 : f3 (g_head E) = a0) by (unfold f3, f2; rewrite fset_other by ne; apply fset_same).
  assert (E4 : f4 (g_head E) = a0) by (unfold f4; rewrite fset_other by ne; exact E3).
  assert (E5 : f5 (g_head E) = a0) by (unfold f5; rewrite fset_other by ne; exact E4).
  exists a0, h6, f6. split; [|split; [|split; [|split; [|split; [|split; [|split]]]]]].
  - unfold init_alloc. erewrite x_lw; [|exact P|apply w_head]. rewrite Fh. cbn [Z.eqb].
    change (align_up HDR) with 4096. erewrite bind_ok; [|unfold mmap2; rewrite Eo; reflexivity]. fold h1.
    erewrite x_sw; [|exact Sp|exact P1|apply w_head]. fold h2.
    erewrite x_sw; [|exact Sp|exact R2|apply w_tail]. fold h3.
    erewrite x_lw; [|exact R3|apply w_head]. rewrite E3.
    erewrite x_sw; [|exact Sp|exact R3|apply (w_next E cs _ Hc)]. cbn [fst]. fold h4.
    erewrite x_lw; [|exact R4|apply w_head]. rewrite E4.
    erewrite x_sw; [|exact Sp|exact R4|apply (w_prev E cs _ Hc)]. cbn [fst]. fold h5.
    erewrite x_lw; [|exact R5|apply w_head]. rewrite E5.
    destruct (sw_rep _ h1 h5 f5 (size_of a0) 0 Sp R5 (w_size E cs _ Hc)) as [-> _]. reflexivity.
  - eapply regions_rebase; eauto.
  - eapply rep_self; eauto.
  - split; [|split; [|split]].
    + unfold f6. rewrite fset_other by ne. exact E5.
    + cbn. unfold f6, f5, f4. rewrite !fset_other by ne. apply fset_same.
    + cbn. split; [|split; [|exact I]].
      * unfold f6. rewrite fset_other by ne. apply fset_same.
      * unfold f6, f5. rewrite !fset_other by ne. apply fset_same.
    + intros x [].
  - unfold f6, f5, f4, f3, f2, f1, fmap0. rewrite !fset_other by ne. exact Ff.
  - apply keeps_trans with (cs' := cs) (h1 := h1); [apply keeps_mapped; exact Fr|eapply keeps_rep; eauto|].
    intros x Hx O. eapply outside_new; eauto. lia.
  - exact Fr.
  - intros x. apply R6.
Qed.

Lemma init_free_spec E h f a0 : os_ok E -> regions E h [(a0, 4096)] -> rep (words E [(a0, 4096)]) h h f ->
  alist E f a0 [] -> f (g_free E) = 0 -> os E h 4096 <> None ->
  exists fs h', init_free E h = Some (tt, h') /\ ready E h' a0 fs [] [] /\ keeps E [(a0, 4096)] h h' /\
    (forall x, fs <= x < fs + 4096 -> h x = None) /\ (forall x, h' x = None <-> mapped h fs 4096 x = None).
Proof.
  intros Os Rg P A Ff Will. destruct (os E h 4096) as [fs|] eqn:Eo; [|contradiction].
  destruct (map_step E h _ f fs 4096 Os ltac:(unfold size_ok; lia) Rg P Eo) as (R1 & P1 & Fr).
  set (h1 := mapped h fs 4096) in *. set (cs := [(fs, 4096); (a0, 4096)]) in *. set (f1 := fmap0 f fs) in *.
  assert (Hc : In (fs, 4096) cs) by (left; reflexivity). assert (Ha : In (a0, 4096) cs) by (right; left; reflexivity).
  pose proof (regions_wsep E h1 cs R1) as Sp.
  pose proof (facts E h1 cs R1 _ Hc) as Fc. destruct (gfacts E h1 cs R1) as (G1 & G2 & G3). cbn [fst snd] in Fc.
  destruct Fc as (Pc & Sc & Wc & C1 & C2 & C3).
  pose proof (facts E h1 cs R1 _ Ha) as Fa. cbn [fst snd] in Fa. destruct Fa as (Pa & Sa & Wa & X1 & X2 & X3).
  assert (Nfa : fs <> a0).
  { pose proof (pairwise_nodup E h1 cs R1) as N. cbn in N. apply NoDup_cons_iff in N. destruct N as [N _]. intros Q. apply N. left. congruence. }
  set (f2 := fset f1 (g_free E) fs). set (f4 := fset f2 (next_of fs) 0).
  set (f5 := fset f4 (prev_of fs) 0). set (f6 := fset f5 (size_of fs) (w32 (-1))).
  set (h2 := poke h1 (g_free E) fs). set (h4 := poke h2 (next_of fs) 0).
  set (h5 := poke h4 (prev_of fs) 0). set (h6 := poke h5 (size_of fs) (-1)).
  assert (R2 : rep (words E cs) h1 h2 f2).
  { pose proof (r_sw _ h1 h1 f1 (g_free E) fs Sp P1 (w_free E cs)) as Q. rewrite Wc in Q. exact Q. }
  assert (R4 : rep (words E cs) h1 h4 f4) by (apply (r_sw _ h1 h2 f2 (next_of fs) 0 Sp R2 (w_next E cs _ Hc))).
  assert (R5 : rep (words E cs) h1 h5 f5) by (apply (r_sw _ h1 h4 f4 (prev_of fs) 0 Sp R4 (w_prev E cs _ Hc))).
  assert (R6 : rep (words E cs) h1 h6 f6) by (apply (r_sw _ h1 h5 f5 (size_of fs) (-1) Sp R5 (w_size E cs _ Hc))).
  assert (E2 : f2 (g_free E) = fs) by (apply fset_same).
  assert (E4 : f4 (g_free E) = fs) by (unfold f4; rewrite fset_other by ne; exact E2).
  assert (E5 : f5 (g_free E) = fs) by (unfold f5; rewrite fset_other by ne; exact E4).
  assert (Pm : Permutation cs (chunks a0 fs [] [])) by apply perm_swap.
  exists fs, h6. split; [|split; [|split; [|split]]].
  - unfold init_free. erewrite x_lw; [|exact P|apply w_free]. rewrite Ff. cbn [Z.eqb].
    change (align_up HDR) with 4096. erewrite bind_ok; [|unfold mmap2; rewrite Eo; reflexivity]. fold h1.
    erewrite x_sw; [|exact Sp|exact P1|apply w_free]. fold h2.
    erewrite x_lw; [|exact R2|apply w_free]. rewrite E2.
    erewrite x_sw; [|exact Sp|exact R2|apply (w_next E cs _ Hc)]. cbn [fst]. fold h4.
    erewrite x_lw; [|exact R4|apply w_free]. rewrite E4.
    erewrite x_sw; [|exact Sp|exact R4|apply (w_prev E cs _ Hc)]. cbn [fst]. fold h5.
    erewrite x_lw; [|exact R5|apply w_free]. rewrite E5.
    destruct (sw_rep _ h1 h5 f5 (size_of fs) (-1) Sp R5 (w_size E cs _ Hc)) as [-> _]. reflexivity.
  - split.
    + eapply regions_perm; [exact Pm|]. eapply regions_rebase; eauto.
    + exists f6. split; [|split].
      * apply rep_weaken with (W := words E cs); [|eapply rep_self; eauto]. intros x. apply words_perm. exact Pm.
      * apply alist_agree with (f := f); auto.
        -- unfold f6, f5, f4, f2, f1, fmap0. rewrite !fset_other by ne. reflexivity.
        -- unfold f6, f5, f4, f2, f1, fmap0. rewrite !fset_other by ne. reflexivity.
        -- intros d [<-|[]]. unfold f6, f5, f4, f2, f1, fmap0. split; [|split]; rewrite !fset_other by ne; reflexivity.
      * split; [|split].
        -- cbn. unfold f6. rewrite fset_other by ne. exact E5.
        -- cbn. split; [|split; [|exact I]].
           ++ unfold f6. rewrite fset_other by ne. apply fset_same.
           ++ unfold f6, f5. rewrite !fset_other by ne. apply fset_same.
        -- intros x [].
  - apply keeps_trans with (cs' := cs) (h1 := h1); [apply keeps_mapped; exact Fr|eapply keeps_rep; eauto|].
    intros x Hx O. eapply outside_new; eauto. lia.
  - exact Fr.
  - intros x. apply R6.
Qed.

(** the computation returns something, given enough steps *)
Definition returns {A} (m : nat -> M A) (h : heap) : Prop := exists n0, forall F, (n0 <= F)%nat -> exists r, m F h = Some r.
Lemma evals_returns {A} (m : nat -> M A) h a h' : evals m h a h' -> returns m h.
Proof. intros [n0 Ev]. exists n0. intros F HF. eauto. Qed.

(** ** malloc *)
Definition obtain (E : env) (F : nat) (size : Z) : M Z :=
  bind (take_free E F size) (fun a => bind (if a =? 0 then map_chunk E size else ret a) (fun a => append_alloc E a)).

Definition reused (fl : list (Z * Z)) (size c n : Z) (fl' : list (Z * Z)) : Prop :=
  exists l1 l2, fl = l1 ++ (c, n) :: l2 /\ fl' = l1 ++ l2 /\ size <= n /\ forall x, In x fl -> size <= snd x -> n <= snd x.
Definition newly (h : heap) (fl : list (Z * Z)) (size c n : Z) (fl' : list (Z * Z)) : Prop :=
  (forall x, In x fl -> snd x < size) /\ fl' = fl /\ n = align_up (iadd HDR size) /\ forall x, c <= x < c + n -> h x = None.

Lemma perm_take a0 fs al l1 x l2 : Permutation (chunks a0 fs al (l1 ++ x :: l2)) (chunks a0 fs (al ++ [x]) (l1 ++ l2)).
Proof.
  unfold chunks. do 2 apply perm_skip. rewrite <- app_assoc. cbn [app]. apply Permutation_app_head. symmetry. apply Permutation_middle.
Qed.

Lemma take_spec E h a0 fs al fl f size : regions E h (chunks a0 fs al fl) -> rep (words E (chunks a0 fs al fl)) h h f -> flist E f fs fl ->
  exists b, ((b = 0 /\ forall x, In x fl -> snd x < size) \/
     (b <> 0 /\ exists n, In (b, n) fl /\ size <= n /\ forall x, In x fl -> size <= snd x -> n <= snd x)) /\
    ((b = 0 /\ evals (fun F => take_free E F size) h 0 h) \/
    (b <> 0 /\ forall h1, unlink_free E b h = Some (tt, h1) -> evals (fun F => take_free E F size) h b h1)).
Proof.
  intros Rg P Fl.
  set (cs := chunks a0 fs al fl) in *.
  assert (Hfs : In (fs, 4096) cs) by (right; left; reflexivity).
  assert (Sub : forall x, In x fl -> In x cs) by (intros x Hx; right; right; apply in_app_iff; auto).
  destruct (best_fit_spec E h h cs f fs fl size Rg P Hfs Sub Fl) as (b & Eb & Cb).
  pose proof Fl as (F1 & F2 & F3).
  exists b. split; [exact Cb|].
    assert (Hq : exists x, In x cs /\ fst x = hd fs (map fst fl)).
    { destruct fl as [|x r]; [exists (fs, 4096); auto|exists x; split; [apply Sub; left; reflexivity|reflexivity]]. }
    destruct Hq as (xq & Hxq & Exq).
    destruct (Z.eq_dec (f (next_of (fst xq))) 0) as [Z0|NZ].
    - assert (fl = []).
      { destruct fl as [|y r]; [reflexivity|]. cbn [map hd fst app links] in *. destruct F2 as (_ & F2 & _). rewrite Exq, F2 in Z0.
        destruct r as [|y' r']; cbn in Z0.
        - pose proof (rg_page E h cs _ Rg Hfs) as [Q _]. cbn in Q. lia.
        - pose proof (rg_page E h cs y' Rg (Sub y' ltac:(right; left; reflexivity))) as [Q _]. lia. }
      subst fl. destruct Cb as [[-> _]|(_ & n & [] & _)]. left. split; [reflexivity|].
      exists O. intros F0 _. unfold take_free.
      erewrite x_lw; [|exact P|apply w_free]. rewrite F1, <- Exq. erewrite x_lw; [|exact P|apply (w_next E cs xq Hxq)]. rewrite Z0. reflexivity.
    - destruct Cb as [[-> Cb]|(Nb & Cb)].
      + left. split; [reflexivity|]. destruct Eb as [n0 Eb]. exists n0. intros F0 HF. unfold take_free.
        erewrite x_lw; [|exact P|apply w_free]. rewrite F1, <- Exq. erewrite x_lw; [|exact P|apply (w_next E cs xq Hxq)].
        destruct (Z.eqb_spec (f (next_of (fst xq))) 0); [contradiction|].
        erewrite bind_ok; [|rewrite Exq; apply Eb; exact HF]. reflexivity.
      + right. split; [exact Nb|]. intros h1 U. destruct Eb as [n0 Eb]. exists n0. intros F0 HF. unfold take_free.
        erewrite x_lw; [|exact P|apply w_free]. rewrite F1, <- Exq. erewrite x_lw; [|exact P|apply (w_next E cs xq Hxq)].
        destruct (Z.eqb_spec (f (next_of (fst xq))) 0); [contradiction|].
        erewrite bind_ok; [|rewrite Exq; apply Eb; exact HF]. destruct (Z.eqb_spec b 0); [contradiction|]. cbn [negb].
        erewrite bind_ok; [|exact U]. reflexivity.
Qed.

Lemma obtain_spec E h a0 fs al fl size : os_ok E -> ready E h a0 fs al fl -> 0 < size <= 2147479540 ->
  ((forall x, In x fl -> snd x < size) -> os E h (align_up (iadd HDR size)) <> None) ->
  exists h' c n fl', evals (fun F => obtain E F size) h (c + HDR) h' /\ ready E h' a0 fs (al ++ [(c, n)]) fl' /\
    keeps E (chunks a0 fs al fl) h h' /\
    ((reused fl size c n fl' /\ forall x, h' x = None <-> h x = None) \/
     (newly h fl size c n fl' /\ forall x, h' x = None <-> mapped h c n x = None)).
Proof.
  intros Os (Rg & f & P & A & Fl) Hs Will.
  set (cs := chunks a0 fs al fl) in *.
  destruct (take_spec E h a0 fs al fl f size Rg P Fl) as (b & Cb & Tk).
  destruct Tk as [[-> Tk]|[Nb Tk]].
  - (* a new mapping *)
    destruct Cb as [[_ Cb]|[Nb _]]; [|congruence].
    specialize (Will Cb). set (n := align_up (iadd HDR size)) in *.
    assert (En : iadd HDR size = 12 + size) by (unfold iadd, HDR; apply wrap_id; unfold is_i32; lia).
    assert (Sn : n = 4096 * ((12 + size + 4095) / 4096)) by (unfold n; rewrite En; apply align_up_val; lia).
    assert (So : size_ok n) by (unfold size_ok; lia).
    destruct (os E h n) as [c|] eqn:Eo; [|contradiction].
    destruct (map_step E h cs f c n Os So Rg P Eo) as (R1 & P1 & Fr).
    set (h1 := mapped h c n) in *. set (cs1 := (c, n) :: cs) in *. set (f1 := fmap0 f c) in *.
    assert (Hc : In (c, n) cs1) by (left; reflexivity).
    pose proof (regions_wsep E h1 cs1 R1) as Sp.
    pose proof (facts E h1 cs1 R1 _ Hc) as Fc. destruct (gfacts E h1 cs1 R1) as (G1 & G2 & G3). cbn [fst snd] in Fc.
    destruct Fc as (Pc & Sc & Wc & C1 & C2 & C3).
    set (f2 := fset f1 (size_of c) n). set (h2 := poke h1 (size_of c) n).
    assert (R2 : rep (words E cs1) h1 h2 f2).
    { pose proof (r_sw _ h1 h1 f1 (size_of c) n Sp P1 (w_size E cs1 _ Hc)) as Q. rewrite w32_id in Q by (unfold is_u32; lia). exact Q. }
    assert (Pm : Permutation cs1 (chunks a0 fs (al ++ [(c, n)]) fl)).
    { unfold cs1, cs. rewrite <- (app_nil_l fl) at 2. rewrite <- (perm_take a0 fs al [] (c, n) fl). unfold chunks. cbn [app].
      etransitivity; [apply perm_swap|]. apply perm_skip. etransitivity; [apply perm_swap|]. apply perm_skip. apply Permutation_middle. }
    assert (Ag : forall d, In d (map fst cs) -> c <> d).
    { pose proof (pairwise_nodup E h1 cs1 R1) as N. cbn in N. apply NoDup_cons_iff in N. destruct N as [N _]. intros d Hd ->. contradiction. }
    assert (Agr : forall l, (forall d, In d l -> In d (map fst cs)) -> agree_on E l f f2).
    { intros l Hl d Hd. specialize (Hl d Hd). pose proof (Ag d Hl) as Nd. apply in_map_iff in Hl. destruct Hl as (x & <- & Hx).
      pose proof (facts E h1 cs1 R1 x ltac:(right; exact Hx)) as Fx. destruct Fx as (Px & Sx & Wx & X1 & X2 & X3).
      unfold f2, f1, fmap0. split; [|split]; rewrite !fset_other by ne; reflexivity. }
    assert (A2 : alist E f2 a0 al).
    { apply alist_agree with (f := f); auto; [unfold f2, f1, fmap0; rewrite !fset_other by ne; reflexivity|unfold f2, f1, fmap0; rewrite !fset_other by ne; reflexivity|].
      apply Agr. intros d Hd. unfold cs, chunks. cbn [map fst]. rewrite map_app. destruct Hd as [<-|Hd]; [left; reflexivity|right; right; apply in_app_iff; auto]. }
    assert (Fl2 : flist E f2 fs fl).
    { apply flist_agree with (f := f); auto; [unfold f2, f1, fmap0; rewrite !fset_other by ne; reflexivity|].
      apply Agr. intros d Hd. unfold cs, chunks. cbn [map fst]. rewrite map_app. apply in_app_iff in Hd. destruct Hd as [Hd|[<-|[]]]; [right; right; apply in_app_iff; auto|right; left; reflexivity]. }
    destruct (append_alloc_spec E h1 cs1 R1 h2 f2 a0 fs al c n fl 0 R2 Pm A2 Fl2 ltac:(lia)) as (h3 & f3 & Ap & R3 & A3 & Fl3).
    { rewrite Z.add_0_r. apply fset_same. }
    exists h3, c, n, fl. split; [|split; [|split]].
    + unfold obtain. eapply evals_bind; [exact Tk|]. cbn [Z.eqb].
      eapply evals_bind with (a := c) (h1 := h2).
      * apply evals_const. unfold map_chunk. fold n. erewrite bind_ok; [|unfold mmap2; rewrite Eo; reflexivity]. fold h1.
        erewrite x_sw; [|exact Sp|exact P1|apply (w_size E cs1 _ Hc)]. reflexivity.
      * apply evals_const. exact Ap.
    + split; [eapply regions_perm; [exact Pm|]; eapply regions_rebase; eauto|]. exists f3. split; [|split; assumption].
      apply rep_weaken with (W := words E cs1); [|eapply rep_self; eauto]. intros x. apply words_perm. exact Pm.
    + apply keeps_trans with (cs' := cs1) (h1 := h1); [apply keeps_mapped; exact Fr|eapply keeps_rep; eauto|].
      intros x Hx O. eapply outside_new; eauto. lia.
    + right. split; [|intros x; apply R3]. unfold newly. auto.
  - (* reuse *)
    destruct Cb as [[Cb _]|(_ & n & I & Ln & Best)]; [congruence|].
    apply in_split in I. destruct I as (l1 & l2 & El). subst fl.
    destruct (unlink_free_spec E h cs Rg h f a0 fs al l1 b n l2 P (Permutation_refl _) A Fl) as (h1 & f1 & U & R1 & A1 & Fl1 & Sz).
    assert (Pm : Permutation cs (chunks a0 fs (al ++ [(b, n)]) (l1 ++ l2))) by apply perm_take.
    destruct (append_alloc_spec E h cs Rg h1 f1 a0 fs al b n (l1 ++ l2) 1 R1 Pm A1 Fl1 ltac:(lia) Sz) as (h2 & f2 & Ap & R2 & A2 & Fl2).
    exists h2, b, n, (l1 ++ l2). split; [|split; [|split]].
    + unfold obtain. eapply evals_bind; [apply Tk; exact U|]. destruct (Z.eqb_spec b 0); [contradiction|].
      eapply evals_bind with (a := b) (h1 := h1); [apply evals_ret|]. apply evals_const. exact Ap.
    + split; [eapply regions_perm; [exact Pm|]; eapply regions_rebase; eauto|]. exists f2. split; [|split; assumption].
      apply rep_weaken with (W := words E cs); [|eapply rep_self; eauto]. intros x. apply words_perm. exact Pm.
    + eapply keeps_rep; eauto.
    + left. split; [|intros x; apply R2]. exists l1, l2. auto.
Qed.

(** the operating system refuses: the run ends *)
Lemma obtain_refused E h a0 fs al fl size : ready E h a0 fs al fl -> (forall x, In x fl -> snd x < size) ->
  os E h (align_up (iadd HDR size)) = None -> ~ returns (fun F => obtain E F size) h.
Proof.
  intros (Rg & f & P & A & Fl) Sm Ref [n1 Ev].
  destruct (take_spec E h a0 fs al fl f size Rg P Fl) as (b & Cb & Tk).
  destruct Cb as [[-> _]|(_ & n & I & Ln & _)]; [|specialize (Sm _ I); cbn in Sm; lia].
  destruct Tk as [[_ [n2 Tk]]|[Nb _]]; [|congruence].
  destruct (Ev (max n1 n2) ltac:(lia)) as (r & Er). specialize (Tk (max n1 n2) ltac:(lia)).
  unfold obtain in Er. erewrite bind_ok in Er; [|exact Tk]. cbn [Z.eqb] in Er. unfold map_chunk, mmap2, bind in Er. rewrite Ref in Er. discriminate.
Qed.

Lemma malloc_ready_eq E h a0 fs al fl size F : ready E h a0 fs al fl -> 0 < size -> malloc E F size h = obtain E F size h.
Proof.
  intros (Rg & f & P & (A1 & _) & (F1 & _)) Hs.
  unfold malloc. destruct (Z.leb_spec size 0); [lia|].
  assert (I1 : init_alloc E h = Some (tt, h)).
  { unfold init_alloc. erewrite x_lw; [|exact P|apply w_head]. rewrite A1.
    pose proof (rg_page E h _ (a0, 4096) Rg ltac:(left; reflexivity)) as [Q _]. cbn in Q. destruct (Z.eqb_spec a0 0); [lia|reflexivity]. }
  assert (I2 : init_free E h = Some (tt, h)).
  { unfold init_free. erewrite x_lw; [|exact P|apply w_free]. rewrite F1.
    assert (Q : page (hd fs (map fst fl))).
    { destruct fl as [|x r]; cbn [map hd]; [apply (rg_page E h _ (fs, 4096) Rg); right; left; reflexivity|].
      apply (rg_page E h _ x Rg). right. right. apply in_app_iff. right. left. reflexivity. }
    destruct Q as [Q _]. destruct (Z.eqb_spec (hd fs (map fst fl)) 0); [lia|reflexivity]. }
  erewrite bind_ok; [|exact I1]. erewrite bind_ok; [|exact I2]. reflexivity.
Qed.
Lemma malloc_ready E h a0 fs al fl size h' p : ready E h a0 fs al fl -> 0 < size ->
  evals (fun F => obtain E F size) h p h' <-> evals (fun F => malloc E F size) h p h'.
Proof.
  intros Rd Hs. split; intros [n0 Ev]; exists n0; intros F HF; specialize (Ev F HF).
  - rewrite (malloc_ready_eq E h a0 fs al fl); assumption.
  - rewrite (malloc_ready_eq E h a0 fs al fl) in Ev; assumption.
Qed.

(** the operating system grants what malloc(size) asks for in [h]: a page each for the two list
    heads, and the block itself, even when up to two of these pages have been mapped already *)
Definition grants (E : env) (h : heap) (size : Z) : Prop :=
  forall h1 len ps, (len = 4096 \/ len = align_up (iadd HDR size)) -> (length ps <= 2)%nat ->
    (forall x, h1 x = None <-> h x = None /\ forall a, In a ps -> ~ (a <= x < a + 4096)) -> os E h1 len <> None.

Lemma malloc_fresh E h size : os_ok E -> fresh E h -> 0 < size <= 2147479540 ->
  grants E h size ->
  exists h1 a0 fs, ready E h1 a0 fs [] [] /\ keeps E [] h h1 /\
    (forall x, a0 <= x < a0 + 4096 -> h x = None) /\ (forall x, fs <= x < fs + 4096 -> h x = None) /\
    os E h1 (align_up (iadd HDR size)) <> None /\
    (forall p h', evals (fun F => obtain E F size) h1 p h' -> evals (fun F => malloc E F size) h p h').
Proof.
  intros Os (Gs & Ph & Pt & Pf) Hs Gr.
  assert (W1 : os E h 4096 <> None). { apply (Gr h 4096 []); cbn; auto. intros x. split; [intros Q; split; [exact Q|intros ? []]|tauto]. }
  assert (W2 : forall h1 a, (forall x, h1 x = None <-> h x = None /\ ~ (a <= x < a + 4096)) -> os E h1 4096 <> None).
  { intros h1 a H1. apply (Gr h1 4096 [a]); cbn; auto. intros x. rewrite H1. split; intros [Q1 Q2]; split; auto. intros ? [<-|[]]; auto. }
  assert (W3 : forall h1 a b, (forall x, h1 x = None <-> h x = None /\ ~ (a <= x < a + 4096) /\ ~ (b <= x < b + 4096)) -> os E h1 (align_up (iadd HDR size)) <> None).
  { intros h1 a b H1. apply (Gr h1 _ [a; b]); cbn; auto. intros x. rewrite H1. split.
    - intros (Q1 & Q2 & Q3); split; auto. intros ? [<-|[<-|[]]]; auto.
    - intros (Q1 & Q2). split; [exact Q1|]. split; apply Q2; auto. }
  set (f := fun a => match peek h a with Some v => v | None => 0 end).
  assert (Rg : regions E h []). { constructor; [constructor|constructor|intros g x _ []|exact Gs]. }
  assert (P : rep (words E []) h h f).
  { constructor; [|reflexivity|reflexivity]. intros a [Ha|(x & [] & _)]. unfold f. destruct Ha as [->|[->| ->]]; rewrite ?Ph, ?Pt, ?Pf; reflexivity. }
  assert (Fh : f (g_head E) = 0) by (unfold f; rewrite Ph; reflexivity).
  assert (Ff : f (g_free E) = 0) by (unfold f; rewrite Pf; reflexivity).
  destruct (init_alloc_spec E h f Os Rg P Fh Ff W1) as (a0 & h1 & f1 & I1 & Rg1 & P1 & A1 & Ff1 & K1 & Fr1 & D1).
  assert (D1' : forall x, h1 x = None <-> h x = None /\ ~ (a0 <= x < a0 + 4096)).
  { intros x. rewrite D1. unfold mapped. destruct (Z.leb_spec a0 x), (Z.ltb_spec x (a0 + 4096)); cbn; split; try discriminate; try tauto; intros; try (split; [assumption|lia]); lia. }
  destruct (init_free_spec E h1 f1 a0 Os Rg1 P1 A1 Ff1 (W2 h1 a0 D1')) as (fs & h2 & I2 & Rd & K2 & Fr2 & D2).
  assert (D2' : forall x, h2 x = None <-> h x = None /\ ~ (a0 <= x < a0 + 4096) /\ ~ (fs <= x < fs + 4096)).
  { intros x. rewrite D2. unfold mapped. specialize (D1' x). destruct (Z.leb_spec fs x), (Z.ltb_spec x (fs + 4096)); cbn; split; try discriminate; try tauto; intros; try (split; [|split]; [tauto|tauto|lia]); lia. }
  exists h2, a0, fs. split; [exact Rd|]. split; [|split; [exact Fr1|split; [|split]]].
  - apply keeps_trans with (cs' := [(a0, 4096)]) (h1 := h1); auto. intros x Hx O. eapply outside_new; eauto. lia.
  - intros x Hx. apply D1'. apply Fr2. exact Hx.
  - apply (W3 h2 a0 fs). exact D2'.
  - intros p h' [n0 Ev]. exists n0. intros F HF. specialize (Ev F HF). unfold malloc. destruct (Z.leb_spec size 0); [lia|].
    erewrite bind_ok; [|exact I1]. erewrite bind_ok; [|exact I2]. exact Ev.
Qed.

(** the same when the call is known to have succeeded *)
Lemma malloc_fresh_ran E h size F0 p0 h0' : os_ok E -> fresh E h -> 0 < size -> malloc E F0 size h = Some (p0, h0') ->
  exists h1 a0 fs, ready E h1 a0 fs [] [] /\ keeps E [] h h1 /\
    (forall x, a0 <= x < a0 + 4096 -> h x = None) /\ (forall x, fs <= x < fs + 4096 -> h x = None) /\
    (forall F, malloc E F size h = obtain E F size h1).
Proof.
  intros Os (Gs & Ph & Pt & Pf) Hs Ran.
  set (f := fun a => match peek h a with Some v => v | None => 0 end).
  assert (Rg : regions E h []). { constructor; [constructor|constructor|intros g x _ []|exact Gs]. }
  assert (P : rep (words E []) h h f).
  { constructor; [|reflexivity|reflexivity]. intros a [Ha|(x & [] & _)]. unfold f. destruct Ha as [->|[->| ->]]; rewrite ?Ph, ?Pt, ?Pf; reflexivity. }
  assert (Fh : f (g_head E) = 0) by (unfold f; rewrite Ph; reflexivity).
  assert (Ff : f (g_free E) = 0) by (unfold f; rewrite Pf; reflexivity).
  unfold malloc in Ran. destruct (Z.leb_spec size 0); [lia|].
  assert (W1 : os E h 4096 <> None).
  { intros Q. unfold bind at 1 in Ran. unfold init_alloc in Ran. erewrite x_lw in Ran; [|exact P|apply w_head]. rewrite Fh in Ran. cbn [Z.eqb] in Ran.
    change (align_up HDR) with 4096 in Ran. unfold bind at 1 in Ran. unfold mmap2 in Ran. rewrite Q in Ran. discriminate. }
  destruct (init_alloc_spec E h f Os Rg P Fh Ff W1) as (a0 & h1 & f1 & I1 & Rg1 & P1 & A1 & Ff1 & K1 & Fr1 & D1).
  erewrite bind_ok in Ran; [|exact I1].
  assert (W2 : os E h1 4096 <> None).
  { intros Q. unfold bind at 1 in Ran. unfold init_free in Ran. erewrite x_lw in Ran; [|exact P1|apply w_free]. rewrite Ff1 in Ran. cbn [Z.eqb] in Ran.
    change (align_up HDR) with 4096 in Ran. unfold bind at 1 in Ran. unfold mmap2 in Ran. rewrite Q in Ran. discriminate. }
  destruct (init_free_spec E h1 f1 a0 Os Rg1 P1 A1 Ff1 W2) as (fs & h2 & I2 & Rd & K2 & Fr2 & D2).
  exists h2, a0, fs. split; [exact Rd|]. split; [|split; [exact Fr1|split]].
  - apply keeps_trans with (cs' := [(a0, 4096)]) (h1 := h1); auto. intros x Hx O. eapply outside_new; eauto. lia.
  - intros x Hx. destruct (h x) eqn:Q; [|reflexivity]. exfalso. destruct (K1 x) as [_ K]; [congruence|]. apply K. apply Fr2. exact Hx.
  - intros F. unfold malloc. destruct (Z.leb_spec size 0); [lia|].
    erewrite bind_ok; [|exact I1]. erewrite bind_ok; [|exact I2]. reflexivity.
Qed.
