(** The allocator of the embedded libc: memory layout, lists, and the steps of malloc and free. *)
From Coq Require Import Permutation.
From Verif.Lib Require Import CMem LibcMalloc.
Open Scope Z_scope.

(** ** Words *)
Lemma byte_split v : v mod 256 + 256 * (v / 256 mod 256) + 65536 * (v / 65536 mod 256) + 16777216 * (v / 16777216 mod 256) = w32 v.
Proof. unfold w32. lia. Qed.

Lemma peek_poke_same h a v : peek (poke h a v) a = Some (w32 v).
Proof.
  unfold peek, poke, upd.
  repeat match goal with |- context [?x =? ?y] => let E := fresh in destruct (Z.eqb_spec x y) as [E|E]; try lia end.
  f_equal. rewrite <- byte_split. rewrite !Z.mod_mod by lia. reflexivity.
Qed.
Lemma poke_out h a v x : x < a \/ a + 4 <= x -> poke h a v x = h x.
Proof. intros. unfold poke. rewrite !upd_other by lia. reflexivity. Qed.
Lemma peek_ext h h' a : (forall i, 0 <= i < 4 -> h' (a + i) = h (a + i)) -> peek h' a = peek h a.
Proof.
  intros H. unfold peek. pose proof (H 0) as H0. rewrite Z.add_0_r in H0. rewrite H0, (H 1), (H 2), (H 3) by lia. reflexivity.
Qed.
Lemma peek_poke_other h a v b : a + 4 <= b \/ b + 4 <= a -> peek (poke h a v) b = peek h b.
Proof. intros H. apply peek_ext. intros i Hi. apply poke_out. lia. Qed.
Lemma poke_none h a v : peek h a <> None -> forall x, poke h a v x = None <-> h x = None.
Proof.
  intros H x. unfold poke, upd, peek in *.
  destruct (h a) eqn:E0; [|congruence]. destruct (h (a + 1)) eqn:E1; [|congruence].
  destruct (h (a + 2)) eqn:E2; [|congruence]. destruct (h (a + 3)) eqn:E3; [|congruence].
  repeat match goal with |- context [?x =? ?y] => let E := fresh in destruct (Z.eqb_spec x y) as [E|E]; subst end;
    split; congruence.
Qed.
Lemma peek_range h a v : peek h a = Some v -> is_u32 v.
Proof.
  unfold peek, is_u32. destruct (h a) as [b0|], (h (a + 1)) as [b1|], (h (a + 2)) as [b2|], (h (a + 3)) as [b3|]; try discriminate.
  intros E. assert (E' : forall x y : Z, Some x = Some y -> x = y) by congruence. apply E' in E. pose proof (Z.mod_pos_bound b0 256). pose proof (Z.mod_pos_bound b1 256).
  pose proof (Z.mod_pos_bound b2 256). pose proof (Z.mod_pos_bound b3 256). lia.
Qed.
Lemma peek_accessible h a : (forall i, 0 <= i < 4 -> h (a + i) <> None) -> exists v, peek h a = Some v.
Proof.
  intros H. unfold peek. pose proof (H 0 ltac:(lia)) as H0. rewrite Z.add_0_r in H0.
  pose proof (H 1 ltac:(lia)). pose proof (H 2 ltac:(lia)). pose proof (H 3 ltac:(lia)).
  destruct (h a), (h (a + 1)), (h (a + 2)), (h (a + 3)); try congruence. eauto.
Qed.

(** ** A memory seen through a set of non-overlapping words *)
Definition wsep (W : Z -> Prop) : Prop := forall a b, W a -> W b -> a = b \/ a + 4 <= b \/ b + 4 <= a.
Definition outside (W : Z -> Prop) (x : Z) : Prop := forall a, W a -> x < a \/ a + 4 <= x.
Record rep (W : Z -> Prop) (h0 h : heap) (f : Z -> Z) : Prop := {
  rep_words : forall a, W a -> peek h a = Some (f a);
  rep_rest : forall x, outside W x -> h x = h0 x;
  rep_dom : forall x, h x = None <-> h0 x = None }.
Definition fset (f : Z -> Z) (a v : Z) : Z -> Z := fun x => if x =? a then v else f x.
Lemma fset_same f a v : fset f a v a = v.
Proof. unfold fset. rewrite Z.eqb_refl. reflexivity. Qed.
Lemma fset_other f a v x : x <> a -> fset f a v x = f x.
Proof. unfold fset. intros. destruct (Z.eqb_spec x a); [contradiction|reflexivity]. Qed.

Lemma lw_rep W h0 h f a : rep W h0 h f -> W a -> lw a h = Some (f a, h).
Proof. intros R H. unfold lw. rewrite (rep_words _ _ _ _ R a H). reflexivity. Qed.
Lemma sw_rep W h0 h f a v : wsep W -> rep W h0 h f -> W a ->
  sw a v h = Some (tt, poke h a v) /\ rep W h0 (poke h a v) (fset f a (w32 v)).
Proof.
  intros Sp R H. pose proof (rep_words _ _ _ _ R a H) as Ea. split.
  { unfold sw. rewrite Ea. reflexivity. }
  constructor.
  - intros b Hb. unfold fset. destruct (Z.eqb_spec b a) as [->|N]; [apply peek_poke_same|].
    rewrite peek_poke_other; [apply R; exact Hb|]. destruct (Sp a b H Hb) as [E|E]; [congruence|exact E].
  - intros x Hx. rewrite poke_out; [apply R; exact Hx|]. exact (Hx a H).
  - intros x. rewrite poke_none by congruence. apply R.
Qed.
Lemma rep_weaken W W' h0 h f : (forall a, W' a <-> W a) -> rep W h0 h f -> rep W' h0 h f.
Proof.
  intros E R. constructor; intros.
  - apply R. apply E. assumption.
  - apply R. intros a Ha. apply H. apply E. exact Ha.
  - apply R.
Qed.
Lemma rep_trans W h0 h1 h f : (forall x, outside W x -> h0 x = h1 x) -> (forall x, h0 x = None <-> h1 x = None) ->
  rep W h0 h f -> rep W h1 h f.
Proof.
  intros E1 E2 R. constructor; intros.
  - apply R. assumption.
  - rewrite <- E1 by assumption. apply R. assumption.
  - rewrite <- E2. apply R.
Qed.

(** ** Doubly linked lists *)
Fixpoint links (f : Z -> Z) (p : Z) (l : list Z) (e : Z) : Prop :=
  match l with
  | [] => True
  | c :: r => f (prev_of c) = p /\ f (next_of c) = hd e r /\ links f c r e
  end.
Definition page (c : Z) : Prop := 0 < c /\ c mod 4096 = 0.

Lemma last_cons {A} (l : list A) c d : last (c :: l) d = last l c.
Proof. revert c d. induction l as [|x r IH]; intros c d; [reflexivity|]. change (last (c :: x :: r) d) with (last (x :: r) d). rewrite !IH. reflexivity. Qed.
Lemma last_app_cons {A} (l r : list A) c d : last (l ++ c :: r) d = last r c.
Proof. revert d. induction l as [|x l IH]; intros d; [apply last_cons|]. cbn [app]. rewrite last_cons. apply IH. Qed.
Lemma last_app_single {A} (l : list A) c d : last (l ++ [c]) d = c.
Proof. rewrite last_app_cons. reflexivity. Qed.
Lemma last_in {A} (l : list A) d : l <> [] -> In (last l d) l.
Proof.
  revert d. induction l as [|x r IH]; intros d H; [congruence|]. rewrite last_cons.
  destruct r as [|y r']; [left; reflexivity|]. right. apply IH. discriminate.
Qed.
Lemma hd_app {A} (l r : list A) d : hd d (l ++ r) = hd (hd d r) l.
Proof. destruct l; reflexivity. Qed.

Lemma links_app f p l1 l2 e : links f p (l1 ++ l2) e <-> links f p l1 (hd e l2) /\ links f (last l1 p) l2 e.
Proof.
  revert p. induction l1 as [|c r IH]; intros p; [cbn; tauto|].
  cbn [app links]. rewrite IH, hd_app, last_cons. tauto.
Qed.
Lemma links_upd f a v p l e : (forall c, In c l -> a <> prev_of c /\ a <> next_of c) -> links (fset f a v) p l e <-> links f p l e.
Proof.
  revert p. induction l as [|c r IH]; intros p H; [cbn; tauto|]. cbn [links].
  destruct (H c) as [H1 H2]; [left; reflexivity|]. rewrite !fset_other by congruence.
  rewrite IH; [tauto|]. intros. apply H. right. assumption.
Qed.
Lemma links_set_prev f p p' c r e : ~ In c r -> Forall page (c :: r) -> links f p (c :: r) e -> links (fset f (prev_of c) p') p' (c :: r) e.
Proof.
  intros N P H. cbn [links] in *. destruct H as (H1 & H2 & H3). inversion P as [|x y Pc Pr]; subst.
  rewrite fset_same. rewrite fset_other by (unfold prev_of, next_of; lia).
  split; [reflexivity|]. split; [exact H2|]. apply links_upd; [|exact H3].
  intros d Hd. rewrite Forall_forall in Pr. specialize (Pr d Hd). unfold page, prev_of, next_of in *.
  assert (c <> d) by (intros ->; contradiction). lia.
Qed.
Lemma links_set_next f p e' e c : forall l, NoDup (l ++ [c]) -> Forall page (l ++ [c]) -> links f p (l ++ [c]) e ->
  links (fset f (next_of c) e') p (l ++ [c]) e'.
Proof.
  intros l N P H. rewrite links_app in *. cbn [hd] in *. destruct H as [H1 H2].
  apply Forall_app in P. destruct P as [P1 P2]. inversion P2 as [|? ? Pc _]; subst.
  assert (Nc : ~ In c l). { intros I. apply NoDup_remove_2 in N. apply N. rewrite app_nil_r. exact I. }
  split.
  - apply links_upd; [|exact H1]. intros d Hd. rewrite Forall_forall in P1. specialize (P1 d Hd).
    assert (c <> d) by (intros ->; contradiction). unfold page, prev_of, next_of in *. lia.
  - cbn [links hd] in *. destruct H2 as (H2 & H3 & _). rewrite fset_same, fset_other by (unfold prev_of, next_of; lia). auto.
Qed.

(** ** Integer facts *)
Lemma lor_4095 x : Z.lor x 4095 = 4096 * (x / 4096) + 4095.
Proof.
  change 4095 with (Z.ones 12) at 1. apply Z.bits_inj'. intros n Hn.
  rewrite Z.lor_spec, Z.testbit_ones_nonneg by lia.
  replace (4096 * (x / 4096) + 4095) with (Z.lor (Z.shiftl (x / 4096) 12) (Z.ones 12)).
  - rewrite Z.lor_spec, Z.shiftl_spec, Z.testbit_ones_nonneg by lia. destruct (Z.ltb_spec n 12).
    + rewrite !orb_true_r. reflexivity.
    + rewrite !orb_false_r. change 4096 with (2 ^ 12). rewrite <- Z.shiftr_div_pow2, Z.shiftr_spec by lia. f_equal. lia.
  -
    rewrite <- Z.lxor_lor.
    + rewrite <- Z.add_nocarry_lxor.
      * rewrite Z.shiftl_mul_pow2 by lia. change (2 ^ 12) with 4096. change (Z.ones 12) with 4095. lia.
      * apply Z.bits_inj'. intros m Hm. rewrite Z.land_spec, Z.shiftl_spec, Z.testbit_ones_nonneg, Z.bits_0 by lia.
        destruct (Z.ltb_spec m 12); [rewrite Z.testbit_neg_r by lia; reflexivity|apply andb_false_r].
    + apply Z.bits_inj'. intros m Hm. rewrite Z.land_spec, Z.shiftl_spec, Z.testbit_ones_nonneg, Z.bits_0 by lia.
      destruct (Z.ltb_spec m 12); [rewrite Z.testbit_neg_r by lia; reflexivity|apply andb_false_r].
Qed.
Lemma align_up_val s : 0 < s <= 2147479552 -> align_up s = 4096 * ((s + 4095) / 4096).
Proof.
  intros H. unfold align_up, ior, isub, iadd. rewrite (wrap_id (s - 1)) by (unfold is_i32; lia).
  rewrite lor_4095. rewrite wrap_id by (unfold is_i32; lia). lia.
Qed.
Lemma get_size_val n k : n mod 2 = 0 -> 0 <= k <= 1 -> get_size (n + k) = n.
Proof.
  intros H K. unfold get_size, iand. change (-2) with (Z.lnot (Z.ones 1)).
  rewrite <- Z.ldiff_land, Z.ldiff_ones_r by lia. rewrite Z.shiftl_mul_pow2, Z.shiftr_div_pow2 by lia. change (2 ^ 1) with 2. lia.
Qed.
Lemma is_freed_val n k : n mod 2 = 0 -> 0 <= k <= 1 -> is_freed (n + k) = (k =? 1).
Proof.
  intros H K. unfold is_freed, iand. change 1 with (Z.ones 1) at 1. rewrite Z.land_ones by lia. change (2 ^ 1) with 2.
  destruct (Z.eqb_spec k 1), (Z.eqb_spec ((n + k) mod 2) 0); cbn; lia.
Qed.
Lemma ior_1 n : n mod 2 = 0 -> ior n 1 = n + 1.
Proof.
  intros H. unfold ior.
  assert (L : Z.land n 1 = 0) by (change 1 with (Z.ones 1); rewrite Z.land_ones by lia; exact H).
  rewrite <- Z.lxor_lor by exact L. rewrite <- Z.add_nocarry_lxor by exact L. reflexivity.
Qed.

(** ** The regions in use *)
Definition disj (x y : Z * Z) : Prop := apart (fst x) (snd x) (fst y) (snd y).
Definition size_ok (n : Z) : Prop := n mod 4096 = 0 /\ 4096 <= n < 2147483648.
Record chunk_ok (h : heap) (x : Z * Z) : Prop := {
  ck_page : page (fst x);
  ck_size : size_ok (snd x);
  ck_top : fst x + snd x <= 4294967296;
  ck_acc : accessible h (fst x) (snd x) }.
Inductive pairwise {A} (R : A -> A -> Prop) : list A -> Prop :=
| pw_nil : pairwise R []
| pw_cons x l : Forall (R x) l -> pairwise R l -> pairwise R (x :: l).
Lemma pairwise_perm {A} (R : A -> A -> Prop) l l' : (forall x y, R x y -> R y x) -> Permutation l l' -> pairwise R l -> pairwise R l'.
Proof.
  intros Sy P. induction P; intros H.
  - constructor.
  - inversion H; subst. constructor; [eapply Permutation_Forall; eauto|auto].
  - inversion H as [|? ? F1 H1]; subst. inversion H1 as [|? ? F2 H2]; subst. inversion F1; subst.
    constructor; [constructor; auto|]. constructor; auto.
  - auto.
Qed.
Lemma disj_sym x y : disj x y -> disj y x.
Proof. unfold disj, apart. tauto. Qed.
Lemma pairwise_in {A} (R : A -> A -> Prop) l x y : (forall x y, R x y -> R y x) -> pairwise R l -> In x l -> In y l -> x = y \/ R x y.
Proof.
  intros Sy H. induction H as [|z l F H IH]; intros Hx Hy; [contradiction|]. rewrite Forall_forall in F.
  destruct Hx as [<-|Hx], Hy as [<-|Hy]; auto.
Qed.

Definition glob (E : env) (a : Z) : Prop := a = g_head E \/ a = g_tail E \/ a = g_free E.
Definition globals_apart (E : env) : Prop :=
  apart (g_head E) 4 (g_tail E) 4 /\ apart (g_head E) 4 (g_free E) 4 /\ apart (g_tail E) 4 (g_free E) 4.
Definition field (cs : list (Z * Z)) (a : Z) : Prop := exists x, In x cs /\ (a = next_of (fst x) \/ a = prev_of (fst x) \/ a = size_of (fst x)).
Definition words (E : env) (cs : list (Z * Z)) (a : Z) : Prop := glob E a \/ field cs a.
Record regions (E : env) (h : heap) (cs : list (Z * Z)) : Prop := {
  rg_ok : Forall (chunk_ok h) cs;
  rg_disj : pairwise disj cs;
  rg_glob : forall g x, glob E g -> In x cs -> apart g 4 (fst x) (snd x);
  rg_gsep : globals_apart E }.

Lemma regions_wsep E h cs : regions E h cs -> wsep (words E cs).
Proof.
  intros [Ok Di Gl Gs] a b [Ha|[x [Hx Ha]]] [Hb|[y [Hy Hb]]].
  - unfold glob, globals_apart, apart in *. lia.
  - rewrite Forall_forall in Ok. destruct (Ok y Hy) as [P [S1 S2] _ _]. specialize (Gl a y Ha Hy).
    unfold apart, next_of, prev_of, size_of in *. lia.
  - rewrite Forall_forall in Ok. destruct (Ok x Hx) as [P [S1 S2] _ _]. specialize (Gl b x Hb Hx).
    unfold apart, next_of, prev_of, size_of in *. lia.
  - rewrite Forall_forall in Ok. destruct (Ok x Hx) as [[P1 P2] [S1 S2] _ _], (Ok y Hy) as [[Q1 Q2] [S3 S4] _ _].
    destruct (pairwise_in disj cs x y disj_sym Di Hx Hy) as [->|D]; unfold disj, apart, next_of, prev_of, size_of in *; lia.
Qed.
Lemma regions_perm E h cs cs' : Permutation cs cs' -> regions E h cs -> regions E h cs'.
Proof.
  intros P [Ok Di Gl Gs]. constructor; auto.
  - eapply Permutation_Forall; eauto.
  - eapply pairwise_perm; eauto using disj_sym.
  - intros g x Hg Hx. apply Gl; auto. eapply Permutation_in; [apply Permutation_sym|]; eauto.
Qed.
Lemma words_perm E cs cs' a : Permutation cs cs' -> words E cs' a <-> words E cs a.
Proof.
  intros P. unfold words, field. split; (intros [H|[x [Hx H]]]; [left; exact H|right; exists x; split; [|exact H]]).
  - eapply Permutation_in; [apply Permutation_sym|]; eauto.
  - eapply Permutation_in; eauto.
Qed.
Lemma regions_dom E h h' cs : (forall x, h' x = None <-> h x = None) -> regions E h cs -> regions E h' cs.
Proof.
  intros D [Ok Di Gl Gs]. constructor; auto. eapply Forall_impl; [|exact Ok]. intros x [P S1 T A].
  constructor; auto. intros i Hi. rewrite D. apply A. exact Hi.
Qed.
Lemma fst_inj E h cs x y : regions E h cs -> In x cs -> In y cs -> fst x = fst y -> x = y.
Proof.
  intros [Ok Di _ _] Hx Hy Ef. destruct (pairwise_in disj cs x y disj_sym Di Hx Hy) as [?|D]; auto.
  rewrite Forall_forall in Ok. destruct (Ok x Hx) as [_ [S1 S2] _ _], (Ok y Hy) as [_ [S3 S4] _ _].
  unfold disj, apart in D. lia.
Qed.
Lemma pairwise_nodup E h cs : regions E h cs -> NoDup (map fst cs).
Proof.
  intros [Ok Di _ _]. induction Di as [|x l F H IH]; [constructor|]. cbn. inversion Ok as [|? ? Ok1 Ok2]; subst. constructor.
  - intros I. apply in_map_iff in I. destruct I as (y & Ef & Hy). rewrite Forall_forall in F, Ok2.
    specialize (F y Hy). destruct (Ok2 y Hy) as [_ [S3 S4] _ _], Ok1 as [_ [S1 S2] _ _]. unfold disj, apart in F. lia.
  - apply IH. exact Ok2.
Qed.

Lemma links_unlink f p l1 c n r e : NoDup (l1 ++ c :: n :: r) -> Forall page (l1 ++ c :: n :: r) ->
  links f p (l1 ++ c :: n :: r) e ->
  links (fset (match l1 with [] => f | _ => fset f (next_of (last l1 0)) n end) (prev_of n) (last l1 p)) p (l1 ++ n :: r) e.
Proof.
  intros N P H. rewrite links_app in H. destruct H as [H1 H2]. cbn [links hd] in H2. destruct H2 as (H2 & H3 & H4).
  assert (N1 : NoDup (l1 ++ n :: r)) by (apply NoDup_remove_1 in N; exact N).
  assert (P1 : Forall page (l1 ++ n :: r)).
  { apply Forall_app in P. destruct P as [P1 P2]. inversion P2; subst. apply Forall_app. auto. }
  assert (Nn : ~ In n r /\ ~ In n l1). { apply NoDup_remove_2 in N1. rewrite in_app_iff in N1. tauto. }
  assert (Pn : page n /\ Forall page r /\ Forall page l1).
  { apply Forall_app in P1. destruct P1 as [Q1 Q2]. inversion Q2; auto. }
  destruct Pn as (Pn & Pr & Pl). rewrite Forall_forall in Pl.
  apply links_app. split.
  - cbn [hd]. apply links_upd.
    { intros d Hd. specialize (Pl d Hd). assert (n <> d) by (intros ->; tauto). unfold page, prev_of, next_of in *. lia. }
    destruct l1 as [|y l1'] using rev_ind; [exact I|].
    assert (Ey : match l1' ++ [y] with [] => f | _ => fset f (next_of (last (l1' ++ [y]) 0)) n end = fset f (next_of y) n).
    { rewrite last_app_single. destruct (l1' ++ [y]) eqn:Q; [destruct l1'; discriminate|reflexivity]. }
    rewrite Ey. apply links_set_next with (e := c); auto.
    + rewrite <- app_assoc in N. cbn in N. clear - N1. induction (l1' ++ [y]) as [|z l IH]; [constructor|].
      cbn in N1. inversion N1; subst. constructor; auto. intros I. apply H1. apply in_app_iff. auto.
    + apply Forall_forall. exact Pl.
  - apply links_set_prev with (p := c); [tauto|constructor; assumption|].
    cbn [links]. destruct l1 as [|y l1'] using rev_ind.
    + cbn [links] in H4. exact H4.
    + assert (Ey : match l1' ++ [y] with [] => f | _ => fset f (next_of (last (l1' ++ [y]) 0)) n end = fset f (next_of y) n).
      { rewrite last_app_single. destruct (l1' ++ [y]) eqn:Q; [destruct l1'; discriminate|reflexivity]. }
      rewrite Ey. change (links (fset f (next_of y) n) c (n :: r) e). apply links_upd; [|exact H4].
      intros d Hd. assert (Py : page y) by (apply Pl; apply in_app_iff; right; left; reflexivity).
      assert (Pd : page d). { destruct Hd as [<-|Hd]; [exact Pn|]. rewrite Forall_forall in Pr. auto. }
      assert (y <> d).
      { intros ->. rewrite <- app_assoc in N1. cbn in N1. apply NoDup_remove_2 in N1. apply N1. apply in_app_iff. auto. }
      unfold page, prev_of, next_of in *. lia.
Qed.
Lemma links_unlink_last f p l1 y c e : NoDup (l1 ++ [y; c]) -> Forall page (l1 ++ [y; c]) -> links f p (l1 ++ [y; c]) e ->
  links (fset f (next_of y) e) p (l1 ++ [y]) e.
Proof.
  intros N P H. change [y; c] with ([y] ++ [c]) in *. rewrite app_assoc in *. rewrite links_app in H. destruct H as [H _].
  apply links_set_next with (e := c); auto.
  - apply NoDup_remove_1 in N. rewrite app_nil_r in N. exact N.
  - apply Forall_app in P. tauto.
Qed.

(** ** The allocator's lists *)
Definition chunks (a0 fs : Z) (al fl : list (Z * Z)) : list (Z * Z) := (a0, 4096) :: (fs, 4096) :: al ++ fl.
Definition alist (E : env) (f : Z -> Z) (a0 : Z) (al : list (Z * Z)) : Prop :=
  f (g_head E) = a0 /\ f (g_tail E) = last (map fst al) a0 /\ links f 0 (a0 :: map fst al) 0 /\
  forall x, In x al -> f (size_of (fst x)) = snd x.
Definition flist (E : env) (f : Z -> Z) (fs : Z) (fl : list (Z * Z)) : Prop :=
  f (g_free E) = hd fs (map fst fl) /\ links f 0 (map fst fl ++ [fs]) 0 /\
  forall x, In x fl -> f (size_of (fst x)) = snd x + 1.

Lemma links_agree f f' p l e : (forall c, In c l -> f' (prev_of c) = f (prev_of c) /\ f' (next_of c) = f (next_of c)) ->
  links f p l e -> links f' p l e.
Proof.
  revert p. induction l as [|c r IH]; intros p H; [auto|]. cbn [links]. destruct (H c) as [-> ->]; [left; reflexivity|].
  intros (H1 & H2 & H3). repeat split; auto. apply IH; auto. intros. apply H. right. assumption.
Qed.
(** lists are unaffected by changes elsewhere *)
Definition agree_on (E : env) (cs : list Z) (f f' : Z -> Z) : Prop :=
  forall c, In c cs -> f' (next_of c) = f (next_of c) /\ f' (prev_of c) = f (prev_of c) /\ f' (size_of c) = f (size_of c).
Lemma alist_agree E f f' a0 al : f' (g_head E) = f (g_head E) -> f' (g_tail E) = f (g_tail E) ->
  agree_on E (a0 :: map fst al) f f' -> alist E f a0 al -> alist E f' a0 al.
Proof.
  intros E1 E2 Ag (H1 & H2 & H3 & H4). split; [congruence|]. split; [congruence|]. split.
  - eapply links_agree; [|exact H3]. intros c Hc. destruct (Ag c Hc) as (? & ? & ?). auto.
  - intros x Hx. destruct (Ag (fst x)) as (_ & _ & ->); [right; apply in_map; exact Hx|]. auto.
Qed.
Lemma flist_agree E f f' fs fl : f' (g_free E) = f (g_free E) ->
  agree_on E (map fst fl ++ [fs]) f f' -> flist E f fs fl -> flist E f' fs fl.
Proof.
  intros E1 Ag (H1 & H2 & H3). split; [congruence|]. split.
  - eapply links_agree; [|exact H2]. intros c Hc. destruct (Ag c Hc) as (? & ? & ?). auto.
  - intros x Hx. destruct (Ag (fst x)) as (_ & _ & ->); [apply in_app_iff; left; apply in_map; exact Hx|]. auto.
Qed.
