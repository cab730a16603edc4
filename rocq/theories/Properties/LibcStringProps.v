(** C22: the string functions of the embedded libc. *)
From Verif.Lib Require Import CMem LibcString.
Open Scope Z_scope.

(** *** Specification (ISO C 7.21) *)
(** strings are compared character by character as unsigned char; a proper prefix is smaller *)
Fixpoint lexcmp (s t : list Z) : comparison :=
  match s, t with
  | [], [] => Eq
  | [], _ :: _ => Lt
  | _ :: _, [] => Gt
  | a :: s', b :: t' => match a ?= b with Eq => lexcmp s' t' | c => c end
  end.
Definition sign_of (r : Z) (c : comparison) : Prop :=
  match c with Lt => r < 0 | Eq => r = 0 | Gt => r > 0 end.
(** strncpy pads with zero bytes up to [n] *)
Definition zero_padded (s : list Z) (n : Z) : list Z := s ++ repeat 0 (Z.to_nat (n - zlen s)).
(** characters whose plain-char value is their unsigned value: all of them where char is
    unsigned (ARM), the 7-bit ones where char is signed (RISC-V) *)
Definition plain (sc : bool) (s : list Z) : Prop := sc = true -> Forall (fun b => b < 128) s.

(** *** Proof *)
Lemma iadd_1 i : 0 <= i < 2147483647 -> iadd i 1 = i + 1.
Proof. intros. apply wrap_id. unfold is_i32. lia. Qed.

Lemma cstr_end h a pre : bytes_at h a (pre ++ [0]) -> h (a + zlen pre) = Some 0.
Proof. rewrite bytes_at_app. intros [_ H]. apply bytes_at_cons in H. apply H. Qed.
Lemma cstr_mid h a pre c r : bytes_at h a (pre ++ c :: r) -> h (a + zlen pre) = Some c.
Proof. rewrite bytes_at_app. intros [_ H]. apply bytes_at_cons in H. apply H. Qed.

Theorem C22_strlen : forall sc h a s, cstring h a s ->
  evals (fun F => strlen sc F a) h (zlen s) h.
Proof.
  intros sc h a s (T & B & L). unfold strlen. apply levals_evals with (body := fun _ => _).
  assert (G : forall r pre, s = pre ++ r ->
    levals (fun _ i => (c <- load sc (a + i) ;; (if c =? 0 then ret (inr i) else ret (inl (iadd i 1))))%cm)
      (zlen pre) h (zlen s) h); [|apply (G s []); reflexivity].
  induction r as [|c r IH]; intros pre E.
  - rewrite app_nil_r in E. subst pre. apply levals_exit. apply evals_const. unfold bind.
    rewrite (load_ok _ _ _ 0) by (apply cstr_end; exact B).
    replace (char_val sc 0) with 0 by (symmetry; apply char_val_0; unfold is_byte; lia). reflexivity.
  - eapply levals_step.
    + apply evals_const. unfold bind. rewrite (load_ok _ _ _ c) by (rewrite E, <- app_assoc in B; eapply cstr_mid; exact B).
      assert (Hc : 0 < c < 256). { unfold text in T. rewrite Forall_forall in T. apply T. rewrite E. apply in_or_app. cbn; auto. }
      destruct (Z.eqb_spec (char_val sc c) 0) as [X|X]; [apply char_val_0 in X; unfold is_byte; lia|]. reflexivity.
    + rewrite E, zlen_app, zlen_cons in L. pose proof (zlen_nonneg pre). pose proof (zlen_nonneg r).
      rewrite iadd_1 by lia. specialize (IH (pre ++ [c])). rewrite zlen_app in IH. apply IH.
      rewrite <- app_assoc. exact E.
Qed.
Print Assumptions C22_strlen.

Lemma text_in s c : text s -> In c s -> 0 < c < 256.
Proof. unfold text. rewrite Forall_forall. auto. Qed.

Lemma isub_char sc a b : is_byte a -> is_byte b -> isub (char_val sc a) (char_val sc b) = char_val sc a - char_val sc b.
Proof.
  intros Ha Hb. apply wrap_id. unfold is_i32. pose proof (char_val_range sc a Ha). pose proof (char_val_range sc b Hb). lia.
Qed.

Definition tail_cmp (sc : bool) (x y : list Z) (v : Z) : Prop :=
  (v = 0 <-> x = y) /\ (plain sc x -> plain sc y -> sign_of v (lexcmp x y)) /\ is_i32 v.

Lemma plain_cons sc c r : is_byte c -> plain sc (c :: r) -> char_val sc c = c /\ plain sc r.
Proof.
  unfold plain, char_val, is_byte. intros Hc P. destruct sc.
  - specialize (P eq_refl). inversion P; subst. split; auto. unfold sext. rewrite Z.mod_small by lia.
    destruct (Z.ltb_spec c (2 ^ (8 - 1))); lia.
  - rewrite Z.mod_small by lia. split; [reflexivity|discriminate].
Qed.

Lemma strcmp_loop sc h a b : forall x pre y pre', zlen pre = zlen pre' ->
  text x -> text y -> zlen (pre ++ x) < 2147483647 -> zlen (pre' ++ y) < 2147483647 ->
  bytes_at h a (pre ++ x ++ [0]) -> bytes_at h b (pre' ++ y ++ [0]) ->
  exists v, tail_cmp sc x y v /\
    levals (fun _ i => (
      a <- load sc (a + i) ;;
      if a =? 0 then (b <- load sc (b + i) ;; ret (inr (isub a b)))
      else
        b <- load sc (b + i) ;;
        if b =? 0 then ret (inr (isub a b))
        else if a <? b then ret (inr (-1))
        else if a >? b then ret (inr 1)
        else ret (inl (iadd i 1)))%cm) (zlen pre) h v h.
Proof.
  assert (C0 : char_val sc 0 = 0) by (apply char_val_0; unfold is_byte; lia).
  induction x as [|c x IH]; intros pre y pre' EL Tx Ty Lx Ly Ba Bb.
  - assert (Ha : h (a + zlen pre) = Some 0) by (apply cstr_end; exact Ba).
    destruct y as [|d y].
    + exists 0. split; [split; [tauto|split; [reflexivity|unfold is_i32; lia]]|]. apply levals_exit, evals_const. unfold bind.
      rewrite (load_ok _ _ _ 0 Ha), C0. cbn [Z.eqb]. rewrite EL.
      rewrite (load_ok _ _ _ 0) by (apply cstr_end; exact Bb). rewrite C0. reflexivity.
    + assert (Hd : 0 < d < 256) by (eapply text_in; [exact Ty|left; reflexivity]).
      exists (isub (char_val sc 0) (char_val sc d)). split.
      * rewrite isub_char by (unfold is_byte; lia). rewrite C0.
        assert (char_val sc d <> 0) by (rewrite char_val_0; unfold is_byte; lia).
        split; [split; [lia|discriminate]|].
        pose proof (char_val_range sc d ltac:(unfold is_byte; lia)). split; [|unfold is_i32; lia]. intros _ P.
        cbn [lexcmp sign_of]. destruct (plain_cons sc d y ltac:(unfold is_byte; lia) P) as [-> _]. lia.
      * apply levals_exit, evals_const. unfold bind.
        rewrite (load_ok _ _ _ 0 Ha), C0. cbn [Z.eqb]. rewrite EL.
        rewrite (load_ok _ _ _ d) by (eapply cstr_mid; exact Bb). reflexivity.
  - assert (Hc : 0 < c < 256) by (eapply text_in; [exact Tx|left; reflexivity]).
    assert (Ha : h (a + zlen pre) = Some c) by (eapply cstr_mid; exact Ba).
    assert (Nc : char_val sc c =? 0 = false).
    { apply Z.eqb_neq. rewrite char_val_0; unfold is_byte; lia. }
    assert (Rc := char_val_range sc c ltac:(unfold is_byte; lia)).
    destruct y as [|d y].
    + exists (isub (char_val sc c) (char_val sc 0)). split.
      * rewrite isub_char by (unfold is_byte; lia). rewrite C0. apply Z.eqb_neq in Nc.
        split; [split; [lia|discriminate]|]. split; [|unfold is_i32; lia]. intros P _.
        cbn [lexcmp sign_of]. destruct (plain_cons sc c x ltac:(unfold is_byte; lia) P) as [-> _]. lia.
      * apply levals_exit, evals_const. unfold bind.
        rewrite (load_ok _ _ _ c Ha), Nc, EL. rewrite (load_ok _ _ _ 0) by (apply cstr_end; exact Bb).
        rewrite C0. reflexivity.
    + assert (Hd : 0 < d < 256) by (eapply text_in; [exact Ty|left; reflexivity]).
      assert (Nd : char_val sc d =? 0 = false).
      { apply Z.eqb_neq. rewrite char_val_0; unfold is_byte; lia. }
      assert (Hb : h (b + zlen pre) = Some d) by (rewrite EL; eapply cstr_mid; exact Bb).
      destruct (Z.ltb_spec (char_val sc c) (char_val sc d)) as [L1|L1].
      * exists (-1). split.
        -- split; [split; [lia|intros E; injection E; intros _ E'; subst d; lia]|]. split; [|unfold is_i32; lia]. intros P Q.
           destruct (plain_cons sc c x ltac:(unfold is_byte; lia) P) as [E1 _].
           destruct (plain_cons sc d y ltac:(unfold is_byte; lia) Q) as [E2 _].
           cbn [lexcmp]. destruct (Z.compare_spec c d); cbn; lia.
        -- apply levals_exit, evals_const. unfold bind. rewrite (load_ok _ _ _ c Ha), Nc, (load_ok _ _ _ d Hb), Nd.
           apply Z.ltb_lt in L1. rewrite L1. reflexivity.
      * destruct (Z.gtb_spec (char_val sc c) (char_val sc d)) as [L2|L2].
        -- exists 1. split.
           ++ split; [split; [lia|intros E; injection E; intros _ E'; subst d; lia]|]. split; [|unfold is_i32; lia]. intros P Q.
              destruct (plain_cons sc c x ltac:(unfold is_byte; lia) P) as [E1 _].
              destruct (plain_cons sc d y ltac:(unfold is_byte; lia) Q) as [E2 _].
              cbn [lexcmp]. destruct (Z.compare_spec c d); cbn; lia.
           ++ apply levals_exit, evals_const. unfold bind. rewrite (load_ok _ _ _ c Ha), Nc, (load_ok _ _ _ d Hb), Nd.
              apply Z.ltb_ge in L1. rewrite L1. apply Z.gtb_lt in L2. rewrite L2. reflexivity.
        -- assert (c = d) by (eapply char_val_inj with (sc := sc); unfold is_byte; lia). subst d.
           destruct (IH (pre ++ [c]) y (pre' ++ [c])) as (v & V & R).
           ++ rewrite !zlen_app. lia.
           ++ inversion Tx; assumption.
           ++ inversion Ty; assumption.
           ++ rewrite <- app_assoc. exact Lx.
           ++ rewrite <- app_assoc. exact Ly.
           ++ rewrite <- app_assoc. exact Ba.
           ++ rewrite <- app_assoc. exact Bb.
           ++ exists v. split.
              ** destruct V as (V1 & V2 & V3). split; [|split].
                 --- rewrite V1. split; [intros ->; reflexivity|congruence].
                 --- intros P Q. cbn [lexcmp]. rewrite Z.compare_refl.
                     apply V2; [eapply (plain_cons sc c x); [unfold is_byte; lia|exact P]
                               |eapply (plain_cons sc c y); [unfold is_byte; lia|exact Q]].
                 --- exact V3.
              ** eapply levals_step; [|].
                 --- apply evals_const. unfold bind. rewrite (load_ok _ _ _ c Ha), Nc, (load_ok _ _ _ c Hb), Nd.
                     rewrite Z.ltb_irrefl. destruct (Z.gtb_spec (char_val sc c) (char_val sc c)); [lia|]. reflexivity.
                 --- rewrite zlen_app, zlen_cons in Lx. pose proof (zlen_nonneg pre). pose proof (zlen_nonneg x).
                     rewrite iadd_1 by lia. rewrite zlen_app in R. exact R.
Qed.

Theorem C22_strcmp_partial : forall sc h a b s t, cstring h a s -> cstring h b t ->
  exists v, evals (fun F => strcmp sc F a b) h v h /\
    (v = 0 <-> s = t) /\ (plain sc s -> plain sc t -> sign_of v (lexcmp s t)).
Proof.
  intros sc h a b s t (Ts & Bs & Ls) (Tt & Bt & Lt).
  destruct (strcmp_loop sc h a b s [] t [] eq_refl) as (v & (V1 & V2 & _) & R); cbn [app]; auto; try lia.
  exists v. split; [|split; assumption]. unfold strcmp. apply levals_evals with (body := fun _ => _). exact R.
Qed.
Print Assumptions C22_strcmp_partial.

(** What at most [n] characters of a string look like to strncmp: equality and order of the
    two prefixes. *)
Lemma strncmp_loop sc h a b n : n <= 2147483647 -> forall x pre y pre', zlen pre = zlen pre' ->
  text x -> text y ->
  zlen pre <= n ->
  ctext h (a + zlen pre) (n - zlen pre) x -> ctext h (b + zlen pre) (n - zlen pre) y ->
  exists v, tail_cmp sc x y v /\
    levals (fun _ i => (
      if i <? n then
        a <- load sc (a + i) ;;
        b <- load sc (b + i) ;;
        if a <? b then ret (inr (-1))
        else if a >? b then ret (inr 1)
        else if a =? 0 then ret (inr 0)
        else ret (inl (iadd i 1))
      else ret (inr 0))%cm) (zlen pre) h v h.
Proof.
  intros Hn.
  assert (C0 : char_val sc 0 = 0) by (apply char_val_0; unfold is_byte; lia).
  assert (R0 : tail_cmp sc [] [] 0).
  { split; [tauto|]. split; [intros; reflexivity|unfold is_i32; lia]. }
  (* the character seen at the current position, 0 at the end of the string *)
  assert (Head : forall p k x, ctext h p k x -> 0 < k ->
     h p = Some (hd 0 x) /\ is_byte (hd 0 x) /\ (hd 0 x = 0 <-> x = []) /\ (x <> [] -> ctext h (p + 1) (k - 1) (tl x))).
  { intros p k x [T D] Hk. destruct x as [|c x]; cbn.
    - destruct D as [[_ B]|[E _]]; [|rewrite zlen_nil in E; lia].
      apply bytes_at_cons in B. split; [apply B|]. split; [unfold is_byte; lia|]. split; [tauto|congruence].
    - assert (0 < c < 256) by (inversion T; assumption). split; [|split; [unfold is_byte; lia|split; [split; [lia|discriminate]|]]].
      + destruct D as [[_ B]|[_ B]]; [cbn [app] in B|]; apply bytes_at_cons in B; apply B.
      + intros _. split; [inversion T; assumption|]. rewrite zlen_cons in D.
        destruct D as [[E B]|[E B]]; [left|right]; [cbn [app] in B|]; apply bytes_at_cons in B; (split; [lia|apply B]). }
  induction x as [|c x IH]; intros pre y pre' EL Tx Ty Lp Cx Cy.
  - destruct (Z.ltb_spec (zlen pre) n) as [Ln|Ln].
    + destruct (Head _ _ _ Cx ltac:(lia)) as (H1 & _). cbn in H1.
      destruct (Head _ _ _ Cy ltac:(lia)) as (H2 & By & Ey & _).
      set (d := hd 0 y) in *.
      assert (Ex : exists v, tail_cmp sc [] y v /\ v = (if 0 <? char_val sc d then -1 else if 0 >? char_val sc d then 1 else 0)).
      { eexists. split; [|reflexivity].
        destruct (Z.eq_dec d 0) as [D0|D0].
        - rewrite D0, C0. cbn. apply Ey in D0. subst y. exact R0.
        - assert (y <> []) by (rewrite <- Ey; exact D0). destruct y as [|d' y]; [congruence|]. cbn in d. subst d.
          assert (char_val sc d' <> 0) by (rewrite char_val_0; auto).
          destruct (Z.ltb_spec 0 (char_val sc d')).
          + split; [split; [lia|discriminate]|]. split; [cbn; lia|unfold is_i32; lia].
          + destruct (Z.gtb_spec 0 (char_val sc d')); [|lia]. split; [split; [lia|discriminate]|]. split; [|unfold is_i32; lia].
            intros _ P. apply plain_cons in P; auto. destruct P as [P _]. cbn in By. unfold is_byte in By. lia. }
      destruct Ex as (v & V & Ev). exists v. split; [exact V|]. apply levals_exit, evals_const.
      apply Z.ltb_lt in Ln. rewrite Ln. unfold bind. rewrite (load_ok _ _ _ 0 H1), (load_ok _ _ _ d H2), C0.
      rewrite Ev. destruct (0 <? char_val sc d); [reflexivity|]. destruct (0 >? char_val sc d); reflexivity.
    + exists 0. assert (y = []) as ->.
      { destruct Cy as [_ [[E _]|[E _]]]; pose proof (zlen_nonneg y).
        - lia.
        - destruct y; [reflexivity|]. rewrite zlen_cons in E. pose proof (zlen_nonneg y). lia. }
      split; [exact R0|]. apply levals_exit, evals_const. apply Z.ltb_ge in Ln. rewrite Ln. reflexivity.
  - assert (Ln : zlen pre < n).
    { destruct Cx as [_ D]. rewrite zlen_cons in D. pose proof (zlen_nonneg x). lia. }
    assert (Ln' := Ln). apply Z.ltb_lt in Ln'.
    destruct (Head _ _ _ Cx ltac:(lia)) as (H1 & Bx & Nx & Tlx). cbn in H1, Bx, Nx, Tlx.
    destruct (Head _ _ _ Cy ltac:(lia)) as (H2 & By & Ey & Tly).
    assert (Hc0 : c <> 0). { intros ->. destruct Nx as [Nx _]. discriminate (Nx eq_refl). }
    destruct (Z.ltb_spec (char_val sc c) (char_val sc (hd 0 y))) as [L1|L1].
    + exists (-1). split.
      * split; [split; [lia|intros E; subst y; cbn in L1; lia]|]. split; [|unfold is_i32; lia]. intros P Q.
        destruct (plain_cons sc c x Bx P) as [E1 _]. destruct y as [|d y].
        -- cbn in L1. rewrite C0 in L1. unfold is_byte in Bx. lia.
        -- destruct (plain_cons sc d y By Q) as [E2 _]. cbn in L1 |- *. destruct (Z.compare_spec c d); cbn; lia.
      * apply levals_exit, evals_const. rewrite Ln'. unfold bind. rewrite (load_ok _ _ _ c H1), (load_ok _ _ _ _ H2).
        apply Z.ltb_lt in L1. rewrite L1. reflexivity.
    + destruct (Z.gtb_spec (char_val sc c) (char_val sc (hd 0 y))) as [L2|L2].
      * exists 1. split.
        -- split; [split; [lia|intros E; subst y; cbn in L2; lia]|]. split; [|unfold is_i32; lia]. intros P Q.
           destruct (plain_cons sc c x Bx P) as [E1 _]. destruct y as [|d y]; [cbn; lia|].
           destruct (plain_cons sc d y By Q) as [E2 _]. cbn in L2 |- *. destruct (Z.compare_spec c d); cbn; lia.
        -- apply levals_exit, evals_const. rewrite Ln'. unfold bind. rewrite (load_ok _ _ _ c H1), (load_ok _ _ _ _ H2).
           apply Z.ltb_ge in L1. rewrite L1. apply Z.gtb_lt in L2. rewrite L2. reflexivity.
      * assert (Ecd : c = hd 0 y) by (eapply char_val_inj with (sc := sc); auto; lia).
        destruct y as [|d y]; [cbn in Ecd; lia|]. cbn in Ecd. subst d. cbn [hd tl] in *.
        specialize (Tlx ltac:(discriminate)). specialize (Tly ltac:(discriminate)).
        destruct (IH (pre ++ [c]) y (pre' ++ [c])) as (v & V & R).
        ++ rewrite !zlen_app. lia.
        ++ inversion Tx; assumption.
        ++ inversion Ty; assumption.
        ++ rewrite zlen_app. change (zlen [c]) with 1. lia.
        ++ rewrite zlen_app. change (zlen [c]) with 1. rewrite Z.add_assoc, Z.sub_add_distr. exact Tlx.
        ++ rewrite zlen_app. change (zlen [c]) with 1. rewrite Z.add_assoc, Z.sub_add_distr. exact Tly.
        ++ exists v. split.
           ** destruct V as (V1 & V2 & V3). split; [|split].
              --- rewrite V1. split; [intros ->; reflexivity|congruence].
              --- intros P Q. cbn [lexcmp]. rewrite Z.compare_refl.
                  apply V2; [apply (plain_cons sc c x Bx P)|apply (plain_cons sc c y By Q)].
              --- exact V3.
           ** eapply levals_step.
              --- apply evals_const. rewrite Ln'. unfold bind. rewrite (load_ok _ _ _ c H1), (load_ok _ _ _ c H2).
                  rewrite Z.ltb_irrefl. destruct (Z.gtb_spec (char_val sc c) (char_val sc c)); [lia|].
                  destruct (Z.eqb_spec (char_val sc c) 0) as [X|X]; [apply char_val_0 in X; auto; contradiction|]. reflexivity.
              --- pose proof (zlen_nonneg pre). rewrite iadd_1 by lia. rewrite zlen_app in R. exact R.
Qed.

Theorem C22_strncmp_partial : forall sc h a b n s t, 0 <= n < 2147483648 -> ctext h a n s -> ctext h b n t ->
  exists v, evals (fun F => strncmp sc F a b n) h v h /\
    (v = 0 <-> s = t) /\ (plain sc s -> plain sc t -> sign_of v (lexcmp s t)).
Proof.
  intros sc h a b n s t Hn Cs Ct.
  destruct (strncmp_loop sc h a b n ltac:(lia) s [] t [] eq_refl) as (v & (V1 & V2 & _) & R).
  - apply Cs.
  - apply Ct.
  - rewrite zlen_nil. lia.
  - rewrite zlen_nil, Z.add_0_r, Z.sub_0_r. exact Cs.
  - rewrite zlen_nil, Z.add_0_r, Z.sub_0_r. exact Ct.
  - exists v. split; [|split; assumption]. unfold strncmp. apply levals_evals with (body := fun _ => _). exact R.
Qed.
Print Assumptions C22_strncmp_partial.

(** copying: invariant "the first i bytes have been written" *)
Definition heq (h h' : heap) : Prop := forall x, h x = h' x.

Theorem C22_strcpy : forall sc h d a s, cstring h a s -> accessible h d (zlen s + 1) -> apart d (zlen s + 1) a (zlen s + 1) ->
  exists h', evals (fun F => strcpy sc F d a) h d h' /\ heq h' (blit h d (s ++ [0])).
Proof.
  intros sc h d a s (T & B & L) Acc Ap.
  assert (C0 : char_val sc 0 = 0) by (apply char_val_0; unfold is_byte; lia).
  assert (G : forall r pre h1, s = pre ++ r -> heq h1 (blit h d pre) ->
    exists h2, levals (fun _ i => (c <- load sc (a + i) ;; (if c =? 0 then ret (inr i)
       else store (d + i) c ;;; ret (inl (iadd i 1))))%cm) (zlen pre) h1 (zlen s) h2 /\ heq h2 (blit h d s)).
  { induction r as [|c r IH]; intros pre h1 E H1.
    - rewrite app_nil_r in E. subst pre. exists h1. split; [|exact H1]. apply levals_exit, evals_const. unfold bind.
      rewrite (load_ok _ _ _ 0).
      + rewrite C0. reflexivity.
      + rewrite H1, blit_out by (unfold apart in Ap; pose proof (zlen_nonneg s); lia). apply cstr_end. exact B.
    - assert (Hc : 0 < c < 256) by (eapply text_in; [exact T|rewrite E; apply in_or_app; cbn; auto]).
      assert (Ls : zlen s = zlen pre + (1 + zlen r)) by (rewrite E, zlen_app, zlen_cons; reflexivity).
      pose proof (zlen_nonneg pre). pose proof (zlen_nonneg r).
      destruct (IH (pre ++ [c]) (upd h1 (d + zlen pre) (char_val sc c))) as (h2 & R & H2).
      + rewrite <- app_assoc. exact E.
      + intros x. rewrite <- (blit_snoc h d pre c) by (unfold is_byte; lia). unfold upd.
        rewrite char_val_mod by (unfold is_byte; lia). rewrite Z.mod_small by lia. rewrite H1. reflexivity.
      + exists h2. split; [|exact H2]. eapply levals_step; [|rewrite zlen_app in R; exact R].
        apply evals_const. unfold bind.
        assert (Hl : h1 (a + zlen pre) = Some c).
        { rewrite H1, blit_out by (unfold apart in Ap; lia). rewrite E, <- app_assoc in B. eapply cstr_mid. exact B. }
        rewrite (load_ok _ _ _ c Hl).
        destruct (Z.eqb_spec (char_val sc c) 0) as [X|X]; [apply char_val_0 in X; unfold is_byte; lia|].
        rewrite store_ok; [rewrite iadd_1 by lia; reflexivity|].
        rewrite H1, blit_out by lia. apply Acc. lia. }
  destruct (G s [] h eq_refl) as (h2 & R & H2). { intros x. symmetry. apply blit_nil. }
  exists (upd h2 (d + zlen s) 0). split.
  - unfold strcpy. eapply evals_bind.
    + apply levals_evals with (body := fun _ => _). exact R.
    + eapply evals_bind with (m := fun _ => _).
      * apply evals_const. apply store_ok. rewrite H2, blit_out by (pose proof (zlen_nonneg s); lia).
        apply Acc. pose proof (zlen_nonneg s). lia.
      * apply evals_ret.
  - intros x. rewrite <- (blit_snoc h d s 0) by (unfold is_byte; lia). unfold upd. rewrite H2. reflexivity.
Qed.
Print Assumptions C22_strcpy.

Lemma repeat_snoc (n : nat) : repeat 0 n ++ [0] = repeat 0 (S n).
Proof. rewrite <- repeat_cons. reflexivity. Qed.

Theorem C22_strncpy : forall sc h d a n s, 0 <= n < 2147483648 -> ctext h a n s -> accessible h d n ->
  apart d n a (zlen s + 1) ->
  exists h', evals (fun F => strncpy sc F d a n) h d h' /\ heq h' (blit h d (zero_padded s n)).
Proof.
  intros sc h d a n s Hn [T D] Acc Ap.
  assert (C0 : char_val sc 0 = 0) by (apply char_val_0; unfold is_byte; lia).
  assert (Ls : zlen s <= n) by lia.
  set (body := fun (_ : nat) '(i, beyond) => (
      if i <? n then
        if beyond =? 0 then
          c <- load sc (a + i) ;;
          store (d + i) c ;;;
          ret (inl (iadd i 1, if c =? 0 then 1 else 0))
        else
          store (d + i) 0 ;;;
          ret (inl (iadd i 1, beyond))
      else ret (inr d))%cm).
  assert (Bs : bytes_at h a s). { destruct D as [[_ B]|[_ B]]; [apply bytes_at_app in B; apply B|exact B]. }
  (* padding phase *)
  assert (P : forall m k h1, Z.of_nat m = n - zlen s - Z.of_nat k -> (1 <= k)%nat ->
     heq h1 (blit h d (s ++ repeat 0 k)) ->
     exists h2, levals body (zlen s + Z.of_nat k, 1) h1 d h2 /\ heq h2 (blit h d (zero_padded s n))).
  { induction m as [|m IH]; intros k h1 E Hk H1.
    - exists h1. split.
      + apply levals_exit, evals_const. unfold body. destruct (Z.ltb_spec (zlen s + Z.of_nat k) n); [lia|]. reflexivity.
      + unfold zero_padded. replace (Z.to_nat (n - zlen s)) with k by lia. exact H1.
    - destruct (IH (S k) (upd h1 (d + (zlen s + Z.of_nat k)) 0)) as (h2 & R & H2); [lia|lia| |].
      + intros x. rewrite <- repeat_snoc, app_assoc. rewrite <- blit_snoc by (unfold is_byte; lia).
        rewrite zlen_app. replace (zlen (repeat 0 k)) with (Z.of_nat k) by (unfold zlen; rewrite repeat_length; reflexivity).
        unfold upd. rewrite H1. reflexivity.
      + exists h2. split; [|exact H2]. eapply levals_step.
        * apply evals_const. unfold body. destruct (Z.ltb_spec (zlen s + Z.of_nat k) n); [|lia]. cbn [Z.eqb].
          unfold bind. rewrite store_ok; [reflexivity|].
          rewrite H1, blit_out.
          -- apply Acc. pose proof (zlen_nonneg s). lia.
          -- right. rewrite zlen_app. unfold zlen. rewrite repeat_length. lia.
        * pose proof (zlen_nonneg s). rewrite iadd_1 by lia.
          replace (zlen s + Z.of_nat k + 1) with (zlen s + Z.of_nat (S k)) by lia. exact R. }
  assert (G : forall r pre h1, s = pre ++ r -> heq h1 (blit h d pre) ->
    exists h2, levals body (zlen pre, 0) h1 d h2 /\ heq h2 (blit h d (zero_padded s n))).
  { induction r as [|c r IH]; intros pre h1 E H1.
    - rewrite app_nil_r in E. subst pre. pose proof (zlen_nonneg s).
      destruct D as [[L B]|[L _]].
      + destruct (P (Z.to_nat (n - zlen s - 1)) 1%nat (upd h1 (d + zlen s) 0)) as (h2 & R & H2); [lia|lia| |].
        * intros x. rewrite <- (blit_snoc h d s 0) by (unfold is_byte; lia). unfold upd. rewrite H1. reflexivity.
        * exists h2. split; [|exact H2]. eapply levals_step.
          -- apply evals_const. unfold body. destruct (Z.ltb_spec (zlen s) n); [|lia]. cbn [Z.eqb]. unfold bind.
             rewrite (load_ok _ _ _ 0).
             ++ rewrite store_ok by (rewrite H1, blit_out by lia; apply Acc; lia). rewrite C0. cbn [Z.eqb]. reflexivity.
             ++ rewrite H1, blit_out by (unfold apart in Ap; lia). apply cstr_end. exact B.
          -- rewrite iadd_1 by lia. exact R.
      + exists h1. split.
        * apply levals_exit, evals_const. unfold body. destruct (Z.ltb_spec (zlen s) n); [lia|]. reflexivity.
        * unfold zero_padded. replace (n - zlen s) with 0 by lia. cbn. rewrite app_nil_r. exact H1.
    - assert (Hc : 0 < c < 256) by (eapply text_in; [exact T|rewrite E; apply in_or_app; cbn; auto]).
      assert (Ls' : zlen s = zlen pre + (1 + zlen r)) by (rewrite E, zlen_app, zlen_cons; reflexivity).
      pose proof (zlen_nonneg pre). pose proof (zlen_nonneg r).
      destruct (IH (pre ++ [c]) (upd h1 (d + zlen pre) (char_val sc c))) as (h2 & R & H2).
      + rewrite <- app_assoc. exact E.
      + intros x. rewrite <- (blit_snoc h d pre c) by (unfold is_byte; lia). unfold upd.
        rewrite char_val_mod by (unfold is_byte; lia). rewrite Z.mod_small by lia. rewrite H1. reflexivity.
      + exists h2. split; [|exact H2]. eapply levals_step; [|rewrite zlen_app in R; exact R].
        apply evals_const. unfold body. destruct (Z.ltb_spec (zlen pre) n); [|lia]. cbn [Z.eqb]. unfold bind.
        assert (Hl : h1 (a + zlen pre) = Some c).
        { rewrite H1, blit_out by (unfold apart in Ap; lia). rewrite E in Bs. eapply cstr_mid. exact Bs. }
        rewrite (load_ok _ _ _ c Hl). rewrite store_ok.
        * destruct (Z.eqb_spec (char_val sc c) 0) as [X|X]; [apply char_val_0 in X; unfold is_byte; lia|].
          rewrite iadd_1 by lia. reflexivity.
        * rewrite H1, blit_out by lia. apply Acc. lia. }
  destruct (G s [] h eq_refl) as (h2 & R & H2). { intros x. symmetry. apply blit_nil. }
  exists h2. split; [|exact H2]. unfold strncpy. apply levals_evals. exact R.
Qed.
Print Assumptions C22_strncpy.

(** memcpy copies downwards, so it is also correct when the destination overlaps the end
    of the source; ISO C only asks for disjoint buffers. *)
Theorem C22_memcpy : forall sc h d a s, Forall is_byte s -> bytes_at h a s -> accessible h d (zlen s) ->
  (a <= d \/ apart d (zlen s) a (zlen s)) ->
  exists h', evals (fun F => memcpy sc F d a (zlen s)) h d h' /\ heq h' (blit h d s).
Proof.
  intros sc h d a s Fb B Acc Ap.
  assert (G : forall m h1, Z.of_nat m <= zlen s ->
     (forall x, h1 x = if (d + Z.of_nat m <=? x) && (x <? d + zlen s) then Some (nth (Z.to_nat (x - d)) s 0) else h x) ->
     exists h2, levals (fun _ count => (
        if count >? 0 then
        let count := count - 1 in
        c <- load sc (a + count) ;;
        store (d + count) c ;;;
        ret (inl count)
      else ret (inr d))%cm) (Z.of_nat m) h1 d h2 /\ heq h2 (blit h d s)).
  { induction m as [|m IH]; intros h1 Hm H1.
    - exists h1. split.
      + apply levals_exit, evals_const. reflexivity.
      + intros x. rewrite H1. unfold blit. rewrite Z.add_0_r. reflexivity.
    - assert (Hin : is_byte (nth m s 0)).
      { rewrite Forall_forall in Fb. apply Fb. apply nth_In. unfold zlen in Hm. lia. }
      destruct (IH (upd h1 (d + Z.of_nat m) (char_val sc (nth m s 0)))) as (h2 & R & H2); [lia| |].
      + intros x. unfold upd. rewrite char_val_mod by exact Hin. rewrite H1.
        destruct (Z.eqb_spec x (d + Z.of_nat m)) as [->|N].
        * destruct (Z.leb_spec (d + Z.of_nat m) (d + Z.of_nat m)); [|lia].
          destruct (Z.ltb_spec (d + Z.of_nat m) (d + zlen s)); [|lia]. cbn. f_equal. f_equal. lia.
        * destruct (Z.leb_spec (d + Z.of_nat (S m)) x), (Z.leb_spec (d + Z.of_nat m) x); cbn; try lia; reflexivity.
      + exists h2. split; [|exact H2]. eapply levals_step; [|exact R]. apply evals_const.
        destruct (Z.gtb_spec (Z.of_nat (S m)) 0); [|lia]. cbn zeta.
        replace (Z.of_nat (S m) - 1) with (Z.of_nat m) by lia. unfold bind.
        assert (Hl : h1 (a + Z.of_nat m) = Some (nth m s 0)).
        { rewrite H1. destruct (Z.leb_spec (d + Z.of_nat (S m)) (a + Z.of_nat m)); cbn [andb].
          - destruct (Z.ltb_spec (a + Z.of_nat m) (d + zlen s)); [unfold apart in Ap; lia|].
            rewrite B by lia. rewrite Nat2Z.id. reflexivity.
          - rewrite B by lia. rewrite Nat2Z.id. reflexivity. }
        rewrite (load_ok _ _ _ _ Hl). rewrite store_ok; [reflexivity|].
        rewrite H1. destruct ((d + Z.of_nat (S m) <=? d + Z.of_nat m) && (d + Z.of_nat m <? d + zlen s)); [discriminate|].
        apply Acc. lia. }
  destruct (G (List.length s) h) as (h2 & R & H2).
  - unfold zlen. lia.
  - intros x. unfold zlen. destruct (Z.leb_spec (d + Z.of_nat (List.length s)) x); cbn; [|reflexivity].
    destruct (Z.ltb_spec x (d + Z.of_nat (List.length s))); [lia|reflexivity].
  - exists h2. split; [|exact H2]. unfold memcpy. apply levals_evals with (body := fun _ => _). exact R.
Qed.
Print Assumptions C22_memcpy.

(** Where plain char is signed (RISC-V), strcmp orders bytes above 127 the wrong way
    round: "\200" sorts before "a". *)
Definition two_strings : heap := fun x =>
  if x =? 100 then Some 200 else if x =? 101 then Some 0 else
  if x =? 200 then Some 97 else if x =? 201 then Some 0 else None.
Theorem C22_strcmp_order_refuted :
  cstring two_strings 100 [200] /\ cstring two_strings 200 [97] /\ lexcmp [200] [97] = Gt /\
  evals (fun F => strcmp true F 100 200) two_strings (-1) two_strings /\
  evals (fun F => strcmp false F 100 200) two_strings 1 two_strings.
Proof.
  assert (E : forall a c, 0 < c < 256 -> two_strings a = Some c -> two_strings (a + 1) = Some 0 -> cstring two_strings a [c]).
  { intros a c Hc H0 H1. split; [constructor; [exact Hc|constructor]|]. split; [|unfold zlen; cbn; lia].
    intros i Hi. unfold zlen in Hi. cbn in Hi. assert (i = 0 \/ i = 1) as [-> | ->] by lia;
      [rewrite Z.add_0_r; exact H0|exact H1]. }
  split; [apply E; try reflexivity; lia|]. split; [apply E; try reflexivity; lia|]. split; [reflexivity|].
  split; exists 1%nat; intros [|n] Hn; try lia; reflexivity.
Qed.
Print Assumptions C22_strcmp_order_refuted.

(** "abc" at 100, "abd" at 200, room for 6 bytes at 300 *)
Definition abc : heap := fun x =>
  if (100 <=? x) && (x <? 104) then Some (nth (Z.to_nat (x - 100)) [97; 98; 99; 0] 0) else
  if (200 <=? x) && (x <? 204) then Some (nth (Z.to_nat (x - 200)) [97; 98; 100; 0] 0) else
  if (300 <=? x) && (x <? 306) then Some 7 else None.
Example C22_case :
  option_map fst (strlen true 10 100 abc) = Some 3 /\
  option_map fst (strcmp true 10 100 200 abc) = Some (-1) /\
  option_map fst (strncmp true 10 100 200 2 abc) = Some 0 /\
  option_map (fun r => List.map (fun i => snd r (300 + i)) [0; 1; 2; 3; 4; 5; 6]) (strcpy true 10 300 100 abc)
    = Some [Some 97; Some 98; Some 99; Some 0; Some 7; Some 7; None] /\
  option_map (fun r => List.map (fun i => snd r (300 + i)) [0; 1; 2; 3; 4; 5; 6]) (strncpy true 10 300 100 5 abc)
    = Some [Some 97; Some 98; Some 99; Some 0; Some 0; Some 7; None] /\
  option_map (fun r => List.map (fun i => snd r (300 + i)) [0; 1; 2; 3; 4; 5; 6]) (memcpy true 10 300 100 2 abc)
    = Some [Some 97; Some 98; Some 7; Some 7; Some 7; Some 7; None].
Proof. repeat split; vm_compute; reflexivity. Qed.
Example C22_case_hyps : cstring abc 100 [97; 98; 99] /\ accessible abc 300 4 /\ apart 300 4 100 4 /\ ctext abc 200 2 [97; 98].
Proof.
  assert (E4 : forall i, 0 <= i < 4 -> i = 0 \/ i = 1 \/ i = 2 \/ i = 3) by lia.
  split; [|split; [|split]].
  - split; [repeat constructor; lia|]. split; [|unfold zlen; cbn; lia].
    intros i Hi. unfold zlen in Hi. cbn in Hi. destruct (E4 i Hi) as [->|[->|[->| ->]]]; reflexivity.
  - intros i Hi. destruct (E4 i Hi) as [->|[->|[->| ->]]]; discriminate.
  - unfold apart. lia.
  - split; [repeat constructor; lia|]. right. split; [reflexivity|].
    intros i Hi. unfold zlen in Hi. cbn in Hi. assert (i = 0 \/ i = 1) as [->| ->] by lia; reflexivity.
Qed.
