(** Proofs about the number conversions of the embedded libc. *)
From Verif.Base Require Import Bits.
From Verif.Lib Require Import CMem LibcString LibcFormat FormatSpec.
From Verif.Properties Require Import LibcStringProps.
Open Scope Z_scope.

(** ** Division by ten with shifts (lib/c.c:152-161) *)
Lemma div10 val : 0 < val < 2147483648 ->
  let q := iadd (ishr val 1) (ishr val 2) in
  let q := iadd q (ishr q 4) in
  let q := iadd q (ishr q 8) in
  let q := iadd q (ishr q 16) in
  let q := ishr q 3 in
  let r := isub val (ishl (iadd (ishl q 2) q) 1) in
  let t := ishr (iadd r 6) 4 in
  iadd q t = val / 10 /\ isub r (ishl (iadd (ishl t 2) t) 1) = val mod 10.
Proof.
  intros Hv. unfold ishr, iadd, isub, ishl.
  change (2 ^ 1) with 2. change (2 ^ 2) with 4. change (2 ^ 4) with 16. change (2 ^ 8) with 256.
  change (2 ^ 16) with 65536. change (2 ^ 3) with 8.
  cbn zeta.
  assert (Q0 : 0 <= val / 2 + val / 4 < 1610612736) by lia.
  rewrite (wrap_id (val / 2 + val / 4)) by (unfold is_i32; lia).
  set (q0 := val / 2 + val / 4) in *.
  assert (Q1 : 0 <= q0 + q0 / 16 < 1711276032) by lia.
  rewrite (wrap_id (q0 + q0 / 16)) by (unfold is_i32; lia).
  set (q1 := q0 + q0 / 16) in *.
  assert (Q2 : 0 <= q1 + q1 / 256 < 1717960704) by lia.
  rewrite (wrap_id (q1 + q1 / 256)) by (unfold is_i32; lia).
  set (q2 := q1 + q1 / 256) in *.
  assert (Q3 : 0 <= q2 + q2 / 65536 < 1717986919) by lia.
  rewrite (wrap_id (q2 + q2 / 65536)) by (unfold is_i32; lia).
  set (q3 := q2 + q2 / 65536) in *.
  set (q4 := q3 / 8).
  assert (Q4 : 0 <= q4 < 214748365) by (subst q4; lia).
  rewrite (wrap_id (q4 * 4)) by (unfold is_i32; lia).
  rewrite (wrap_id (q4 * 4 + q4)) by (unfold is_i32; lia).
  rewrite (wrap_id ((q4 * 4 + q4) * 2)) by (unfold is_i32; lia).
  assert (R : 0 <= val - (q4 * 4 + q4) * 2 < 20).
  { clear Q1 Q2 Q3. subst q4 q3 q2 q1 q0. clear Q0 Q4. lia. }
  set (r := val - (q4 * 4 + q4) * 2) in *.
  rewrite (wrap_id r) by (unfold is_i32; lia).
  rewrite (wrap_id (r + 6)) by (unfold is_i32; lia).
  assert (E : val = 10 * q4 + r) by (subst r; lia).
  clearbody r q4 q3 q2 q1 q0. clear Q0 Q1 Q2 Q3.
  set (t := (r + 6) / 16).
  assert (T : (r < 10 /\ t = 0) \/ (10 <= r /\ t = 1)) by (subst t; lia).
  rewrite (wrap_id (q4 + t)), (wrap_id (t * 4)) by (unfold is_i32; lia).
  rewrite (wrap_id (t * 4 + t)) by (unfold is_i32; lia).
  rewrite (wrap_id ((t * 4 + t) * 2)) by (unfold is_i32; lia).
  rewrite (wrap_id (r - (t * 4 + t) * 2)) by (unfold is_i32; lia).
  lia.
Qed.

(** ** The digit buffer *)
Lemma bytes_at_upd p a A x B v i : bytes_at p a (A ++ x :: B) -> i = a + zlen A ->
  bytes_at (upd p i v) a (A ++ (v mod 256) :: B).
Proof.
  intros H ->. rewrite bytes_at_app in H |- *. destruct H as [H1 H2]. rewrite bytes_at_cons in H2 |- *.
  destruct H2 as [H2 H3]. pose proof (zlen_nonneg A). split; [|split].
  - eapply bytes_at_ext; [|exact H1]. intros j Hj. apply upd_other. lia.
  - apply upd_same.
  - eapply bytes_at_ext; [|exact H3]. intros j Hj. apply upd_other. lia.
Qed.
Lemma bytes_at_get p a A x B i : bytes_at p a (A ++ x :: B) -> i = a + zlen A -> p i = Some x.
Proof. intros H ->. eapply cstr_mid; exact H. Qed.

Lemma zlen_repeat (x : Z) n : zlen (repeat x n) = Z.of_nat n.
Proof. unfold zlen. rewrite repeat_length. reflexivity. Qed.

Lemma nth_rep (x d : Z) n i : (i < n)%nat -> nth i (repeat x n) d = x.
Proof. intros. eapply repeat_spec. apply nth_In. rewrite repeat_length. assumption. Qed.

Lemma isub_1 i : -2147483647 <= i < 2147483648 -> isub i 1 = i - 1.
Proof. intros. apply wrap_id. unfold is_i32. lia. Qed.

(** decimal digits, possibly none for 0 *)
Definition num0 (b : Z) (ds : list Z) (n : Z) : Prop :=
  Forall (fun d => 0 <= d < b) ds /\ value b ds = n /\ (ds = [] \/ 0 < hd 0 ds).

Lemma num0_snoc b ds q r : 1 < b -> num0 b ds q -> 0 <= r < b -> 0 < q * b + r -> num0 b (ds ++ [r]) (q * b + r).
Proof.
  intros Hb (F & V & L) Hr Hp. split; [|split].
  - apply Forall_app. split; [exact F|]. constructor; [exact Hr|constructor].
  - rewrite value_snoc, V. reflexivity.
  - right. destruct ds as [|d ds].
    + cbn in V |- *. subst q. lia.
    + destruct L as [L|L]; [discriminate|exact L].
Qed.

Definition body10 (sc : bool) (pb : Z) := fun (_ : nat) '(val, i) => (
        if val =? 0 then ret (inr i)
        else
          let q := iadd (ishr val 1) (ishr val 2) in
          let q := iadd q (ishr q 4) in
          let q := iadd q (ishr q 8) in
          let q := iadd q (ishr q 16) in
          let q := ishr q 3 in
          let r := isub val (ishl (iadd (ishl q 2) q) 1) in
          let t := ishr (iadd r 6) 4 in
          let q := iadd q t in
          let r := isub r (ishl (iadd (ishl t 2) t) 1) in
          c <- load sc (pb + i) ;;
          store (pb + i) (iadd c r) ;;;
          ret (inl (q, isub i 1)))%cm.

Lemma base10_loop sc : forall k val, 0 <= val < 2147483648 -> val < 10 ^ Z.of_nat k ->
  forall m tail p, (k <= m)%nat -> (m <= 16)%nat -> bytes_at p 0 (repeat 48 m ++ tail) ->
  exists ds p', num0 10 ds val /\ (List.length ds <= k)%nat /\
    levals (body10 sc 0) (val, Z.of_nat m - 1) p (Z.of_nat m - 1 - zlen ds) p' /\
    bytes_at p' 0 (repeat 48 (m - List.length ds) ++ map digit_char ds ++ tail).
Proof.
  induction k as [|k IH]; intros val Hv Hk m tail p Hm Hm16 B.
  - assert (val = 0) by (cbn in Hk; lia). subst val. exists [], p. split; [|split; [cbn; lia|split]].
    + split; [constructor|]. split; [reflexivity|left; reflexivity].
    + apply levals_exit, evals_const. unfold zlen. cbn [List.length Z.of_nat]. rewrite Z.sub_0_r. reflexivity.
    + cbn [List.length map app]. rewrite Nat.sub_0_r. exact B.
  - destruct (Z.eq_dec val 0) as [->|N].
    { exists [], p. split; [|split; [cbn; lia|split]].
      + split; [constructor|]. split; [reflexivity|left; reflexivity].
      + apply levals_exit, evals_const. unfold zlen. cbn [List.length Z.of_nat]. rewrite Z.sub_0_r. reflexivity.
      + cbn [List.length map app]. rewrite Nat.sub_0_r. exact B. }
    destruct m as [|m]; [lia|].
    assert (D := div10 val ltac:(lia)).
    assert (Hq : 0 <= val / 10 < 10 ^ Z.of_nat k).
    { rewrite Nat2Z.inj_succ, Z.pow_succ_r in Hk by lia. set (T := 10 ^ Z.of_nat k) in *. clearbody T. lia. }
    assert (Hr : 0 <= val mod 10 < 10) by lia.
    replace (S m) with (m + 1)%nat in B by lia. rewrite repeat_app in B. cbn [repeat] in B. rewrite <- app_assoc in B. cbn [app] in B.
    assert (Hl : p (0 + Z.of_nat m) = Some 48) by (eapply bytes_at_get; [exact B|rewrite zlen_repeat; reflexivity]).
    pose proof (bytes_at_upd p 0 _ 48 tail (48 + val mod 10) (0 + Z.of_nat m) B ltac:(rewrite zlen_repeat; reflexivity)) as B1.
    rewrite (Z.mod_small (48 + val mod 10)) in B1 by lia.
    destruct (IH (val / 10) ltac:(lia) ltac:(lia) m _ _ ltac:(lia) ltac:(lia) B1) as (ds & p' & ND & LD & R & B').
    exists (ds ++ [val mod 10]), p'. split; [|split; [rewrite app_length; cbn; lia|split]].
    + replace val with (val / 10 * 10 + val mod 10) at 2 by lia. apply num0_snoc; try lia. exact ND.
    + rewrite zlen_app. change (zlen [val mod 10]) with 1.
      replace (Z.of_nat (S m) - 1 - (zlen ds + 1)) with (Z.of_nat m - 1 - zlen ds) by lia.
      eapply levals_step; [|exact R]. apply evals_const. unfold body10.
      destruct (Z.eqb_spec val 0); [contradiction|]. cbn zeta in D |- *. destruct D as [-> ->].
      unfold bind. replace (Z.of_nat (S m) - 1) with (Z.of_nat m) by lia. rewrite (load_ok _ _ _ 48 Hl).
      rewrite store_ok by congruence. rewrite isub_1 by lia. rewrite char_val_ascii by lia.
      unfold iadd. rewrite wrap_id by (unfold is_i32; lia). reflexivity.
    + rewrite app_length, map_app. cbn [List.length map]. replace (S m - (List.length ds + 1))%nat with (m - List.length ds)%nat by lia.
      rewrite <- app_assoc. cbn [app]. replace (digit_char (val mod 10)) with (48 + val mod 10); [exact B'|].
      unfold digit_char. destruct (Z.ltb_spec (val mod 10) 10); lia.
Qed.

(** sixteen zeros, then the number right-justified *)
Definition zeros16 (p : heap) : Prop := bytes_at p 0 (repeat 48 16).
Definition lit_there (p : heap) : Prop := bytes_at p LIT (int_min_text ++ [0]).

Definition sign10 (v : Z) : list Z := if v <? 0 then [45] else [].

Lemma numeral_num0 b ds n : 0 < n -> num0 b ds n -> numeral b ds n.
Proof.
  intros Hn (F & V & L). split; [exact F|]. split; [exact V|]. right. destruct L as [->|L]; [cbn in V; lia|exact L].
Qed.
Lemma num0_zero b ds : 1 < b -> num0 b ds 0 -> ds = [].
Proof. intros Hb (F & V & L). eapply (numeral_unique_aux b Hb ds 0); eauto. Qed.

Lemma base10_spec sc p v : is_i32 v -> zeros16 p -> lit_there p ->
  exists p' t, evals (fun F => str_base10 sc F 0 v) p tt p' /\
    bytes_at p' 0 (repeat 48 (16 - List.length t) ++ t) /\
    t = (if v =? 0 then [] else sign10 v ++ map digit_char (digits 10 (Z.abs v))) /\ (List.length t <= 11)%nat.
Proof.
  intros Hv Hz Hl. unfold is_i32 in Hv. unfold str_base10.
  destruct (Z.eqb_spec v (-2147483648)) as [->|N].
  - destruct (C22_strncpy sc p (0 + INT_BUF_LEN - 11) LIT 11 int_min_text) as (p' & R & H).
    + lia.
    + split; [repeat constructor; lia|]. right. split; [reflexivity|]. apply bytes_at_app in Hl. apply Hl.
    + intros i Hi. unfold INT_BUF_LEN. replace (0 + 16 - 11 + i) with (0 + (5 + i)) by lia. rewrite Hz; [discriminate|].
      rewrite zlen_repeat. lia.
    + unfold apart, INT_BUF_LEN, LIT. left. lia.
    + exists p', int_min_text. split; [|split; [|split; [reflexivity|cbn; lia]]].
      * eapply evals_bind; [exact R|apply evals_ret].
      * change (16 - List.length int_min_text)%nat with 5%nat.
        unfold zero_padded in H. change (Z.to_nat (11 - zlen int_min_text)) with O in H. cbn [repeat] in H. rewrite app_nil_r in H.
        apply bytes_at_app. split.
        -- intros i Hi. rewrite zlen_repeat in Hi. rewrite H, blit_out by (unfold INT_BUF_LEN; lia).
           rewrite Hz by (rewrite zlen_repeat; lia). f_equal. rewrite !nth_rep by lia. reflexivity.
        -- rewrite zlen_repeat. intros i Hi. rewrite H. unfold INT_BUF_LEN.
           replace (0 + Z.of_nat 5 + i) with (0 + 16 - 11 + i) by lia. apply blit_in. exact Hi.
  - set (a := if v <? 0 then ineg v else v).
    assert (Ea : a = Z.abs v).
    { subst a. destruct (Z.ltb_spec v 0); [unfold ineg; rewrite wrap_id by (unfold is_i32; lia)|]; lia. }
    destruct (base10_loop sc 10 a ltac:(lia) ltac:(change (10 ^ Z.of_nat 10) with 10000000000; lia) 16%nat [] p ltac:(lia) ltac:(lia))
      as (ds & p' & ND & LD & R & B'). { rewrite app_nil_r. exact Hz. }
    rewrite app_nil_r in B'.
    assert (ED : map digit_char ds = if v =? 0 then [] else map digit_char (digits 10 (Z.abs v))).
    { destruct (Z.eqb_spec v 0) as [->|N0].
      - rewrite Ea in ND. apply num0_zero in ND; [|lia]. subst ds. reflexivity.
      - f_equal. apply (numeral_unique 10 _ _ (Z.abs v)); [lia| |apply numeral_digits; lia].
        rewrite Ea in ND. apply numeral_num0; [lia|exact ND]. }
    destruct (Z.ltb_spec v 0) as [Ng|Ng].
    + (* the sign *)
      set (k := (15 - List.length ds)%nat).
      assert (B2 : bytes_at p' 0 (repeat 48 k ++ 48 :: map digit_char ds)).
      { replace (16 - List.length ds)%nat with (k + 1)%nat in B' by (subst k; lia).
        rewrite repeat_app, <- app_assoc in B'. exact B'. }
      exists (upd p' (Z.of_nat k) 45), (45 :: map digit_char ds). split; [|split; [|split]].
      * eapply evals_bind; [apply levals_evals; exact R|]. apply evals_const. change (1 =? 1) with true. cbv beta iota.
        replace (0 + (Z.of_nat 16 - 1 - zlen ds)) with (Z.of_nat k) by (unfold zlen; subst k; lia).
        rewrite store_ok; [reflexivity|]. rewrite (bytes_at_get p' 0 _ _ _ (Z.of_nat k) B2); [discriminate|rewrite zlen_repeat; lia].
      * cbn [List.length]. rewrite map_length. replace (16 - S (List.length ds))%nat with k by (subst k; lia).
        apply (bytes_at_upd p' 0 _ 48 _ 45 (Z.of_nat k)); [exact B2|rewrite zlen_repeat; lia].
      * destruct (Z.eqb_spec v 0); [lia|]. rewrite ED. unfold sign10. destruct (Z.ltb_spec v 0); [reflexivity|lia].
      * cbn [List.length]. rewrite map_length. lia.
    + exists p', (map digit_char ds). split; [|split; [|split]].
      * eapply evals_bind; [apply levals_evals; exact R|]. apply evals_ret.
      * rewrite map_length. exact B'.
      * rewrite ED. unfold sign10. destruct (Z.ltb_spec v 0); [lia|]. reflexivity.
      * rewrite map_length. lia.
Qed.

(** ** Octal and hexadecimal: the k lowest digits *)
Fixpoint padded (b : Z) (k : nat) (n : Z) : list Z :=
  match k with O => [] | S k => padded b k (n / b) ++ [n mod b] end.
Lemma padded_length b k : forall n, List.length (padded b k n) = k.
Proof. induction k; intros; cbn; [reflexivity|]. rewrite app_length, IHk. cbn. lia. Qed.
Lemma padded_digits b k : 1 < b -> forall n, Forall (fun d => 0 <= d < b) (padded b k n).
Proof.
  intros Hb. induction k; intros; cbn; [constructor|]. apply Forall_app. split; [apply IHk|].
  constructor; [apply Z.mod_pos_bound; lia|constructor].
Qed.
Lemma padded_value b k : 1 < b -> forall n, value b (padded b k n) = n mod b ^ Z.of_nat k.
Proof.
  intros Hb. induction k; intros n; cbn [padded].
  - cbn. rewrite Z.mod_1_r. reflexivity.
  - rewrite value_snoc, IHk, Nat2Z.inj_succ, Z.pow_succ_r by lia.
    rewrite Z.rem_mul_r by (try apply Z.pow_pos_nonneg; try apply Z.pow_nonzero; lia). lia.
Qed.

Lemma iand_7 v : iand v 7 = v mod 8. Proof. apply (land_ones_mod v 3). lia. Qed.
Lemma iand_3 v : iand v 3 = v mod 4. Proof. apply (land_ones_mod v 2). lia. Qed.
Lemma iand_15 v : iand v 15 = v mod 16. Proof. apply (land_ones_mod v 4). lia. Qed.

Lemma hex_char d : 0 <= d < 16 -> digit_char d mod 256 = digit_char d.
Proof. intros. unfold digit_char. destruct (Z.ltb_spec d 10); lia. Qed.

Definition body8 (pb times : Z) := fun (_ : nat) '(val, c, i) => (
      if i <? times then
        let v := iand val 7 in
        store (pb + c) (iadd 48 v) ;;;
        ret (inl (ishr val 3, isub c 1, iadd i 1))
      else ret (inr (val, c)))%cm.

Lemma base8_loop : forall k v m tail p i, (k <= m)%nat -> (m <= 16)%nat -> i = 10 - Z.of_nat k -> 0 <= i ->
  bytes_at p 0 (repeat 48 m ++ tail) ->
  exists p', levals (body8 0 10) (v, Z.of_nat m - 1, i) p (v / 8 ^ Z.of_nat k, Z.of_nat m - 1 - Z.of_nat k) p' /\
    bytes_at p' 0 (repeat 48 (m - k) ++ map digit_char (padded 8 k v) ++ tail).
Proof.
  induction k as [|k IH]; intros v m tail p i Hk Hm Hi Hi0 B.
  - exists p. split.
    + apply levals_exit, evals_const. unfold body8. destruct (Z.ltb_spec i 10); [lia|].
      change (8 ^ Z.of_nat 0) with 1. rewrite Z.div_1_r, Z.sub_0_r. reflexivity.
    + cbn. rewrite Nat.sub_0_r. exact B.
  - destruct m as [|m]; [lia|].
    replace (S m) with (m + 1)%nat in B by lia. rewrite repeat_app in B. cbn [repeat] in B. rewrite <- app_assoc in B. cbn [app] in B.
    assert (Hl : p (0 + Z.of_nat m) = Some 48) by (eapply bytes_at_get; [exact B|rewrite zlen_repeat; reflexivity]).
    pose proof (bytes_at_upd p 0 _ 48 tail (48 + v mod 8) (0 + Z.of_nat m) B ltac:(rewrite zlen_repeat; reflexivity)) as B1.
    rewrite (Z.mod_small (48 + v mod 8)) in B1 by lia.
    destruct (IH (v / 8) m _ _ (i + 1) ltac:(lia) ltac:(lia) ltac:(lia) ltac:(lia) B1) as (p' & R & B').
    exists p'. split.
    + eapply levals_step.
      * apply evals_const. unfold body8. destruct (Z.ltb_spec i 10); [|lia]. cbn zeta. unfold bind.
        replace (Z.of_nat (S m) - 1) with (Z.of_nat m) by lia. rewrite store_ok by congruence.
        rewrite iand_7. rewrite isub_1, iadd_1 by lia.
        replace (iadd 48 (v mod 8)) with (48 + v mod 8); [reflexivity|].
        symmetry. apply wrap_id. unfold is_i32. lia.
      * unfold ishr. change (2 ^ 3) with 8. rewrite Nat2Z.inj_succ, Z.pow_succ_r by lia.
        rewrite <- Z.div_div by (try apply Z.pow_pos_nonneg; lia).
        replace (Z.of_nat (S m) - 1 - Z.succ (Z.of_nat k)) with (Z.of_nat m - 1 - Z.of_nat k) by lia. exact R.
    + cbn [padded]. rewrite map_app, <- app_assoc. cbn [map app]. replace (S m - S k)%nat with (m - k)%nat by lia.
      replace (digit_char (v mod 8)) with (48 + v mod 8); [exact B'|]. unfold digit_char. destruct (Z.ltb_spec (v mod 8) 10); lia.
Qed.

Lemma base8_spec p v : is_i32 v -> zeros16 p ->
  exists p', evals (fun F => str_base8 F 0 v) p tt p' /\
    bytes_at p' 0 (repeat 48 5 ++ map digit_char (padded 8 11 (w32 v))).
Proof.
  intros Hv Hz. unfold is_i32 in Hv.
  destruct (base8_loop 10 v 16%nat [] p 0 ltac:(lia) ltac:(lia) ltac:(lia) ltac:(lia)) as (p1 & R & B). { rewrite app_nil_r. exact Hz. }
  rewrite app_nil_r in B. change (16 - 10)%nat with (5 + 1)%nat in B. rewrite repeat_app, <- app_assoc in B. cbn [repeat] in B.
  exists (upd p1 5 (iadd 48 (iand (v / 8 ^ Z.of_nat 10) 3))). split.
  - unfold str_base8. eapply evals_bind; [apply levals_evals; exact R|]. cbn beta iota zeta.
    apply evals_const. unfold INT_BUF_LEN. change (0 + (Z.of_nat 16 - 1 - Z.of_nat 10)) with 5. apply store_ok.
    rewrite (bytes_at_get p1 0 _ _ _ 5 B); [discriminate|reflexivity].
  - pose proof (bytes_at_upd p1 0 _ 48 _ (iadd 48 (iand (v / 8 ^ Z.of_nat 10) 3)) 5 B eq_refl) as B1.
    replace (map digit_char (padded 8 11 (w32 v))) with (iadd 48 (iand (v / 8 ^ Z.of_nat 10) 3) mod 256 :: map digit_char (padded 8 10 v)); [exact B1|].
    (* the eleven octal digits of the unsigned value *)
    rewrite iand_3. unfold iadd. rewrite wrap_id by (unfold is_i32; lia).
    assert (P : forall k x y, x mod 8 ^ Z.of_nat k = y mod 8 ^ Z.of_nat k -> padded 8 k x = padded 8 k y).
    { clear. induction k as [|k IH]; intros x y E; [reflexivity|]. cbn [padded].
      rewrite Nat2Z.inj_succ, Z.pow_succ_r in E by lia.
      pose proof (Z.pow_pos_nonneg 8 (Z.of_nat k) ltac:(lia) ltac:(lia)).
      rewrite !Z.rem_mul_r in E by lia. f_equal.
      - apply IH. lia.
      - f_equal. assert (x mod 8 = y mod 8).
        { set (A := x / 8 mod 8 ^ Z.of_nat k) in *. set (C := y / 8 mod 8 ^ Z.of_nat k) in *. clearbody A C. lia. }
        assumption. }
    assert (P11 : forall k x, padded 8 (S k) x = (x / 8 ^ Z.of_nat k) mod 8 :: padded 8 k x).
    { clear. induction k as [|k IH]; intros x; [cbn; rewrite Z.div_1_r; reflexivity|].
      change (padded 8 (S (S k)) x) with (padded 8 (S k) (x / 8) ++ [x mod 8]). rewrite IH.
      rewrite Z.div_div by (try apply Z.pow_pos_nonneg; lia). rewrite Nat2Z.inj_succ, Z.pow_succ_r by lia. reflexivity. }
    rewrite (P11 10%nat (w32 v)). cbn [map]. f_equal.
    + change (8 ^ Z.of_nat 10) with 1073741824.
      assert (E : (w32 v / 1073741824) mod 8 = (v / 1073741824) mod 4) by (unfold w32; lia).
      rewrite E. set (d := (v / 1073741824) mod 4). assert (0 <= d < 4) by (subst d; lia). clearbody d.
      unfold digit_char. destruct (Z.ltb_spec d 10); lia.
    + f_equal. apply P. change (8 ^ Z.of_nat 10) with 1073741824. unfold w32. lia.
Qed.

Definition body16 (pb times : Z) := fun (_ : nat) '(val, c, i) => (
      if i <? times then
        let v := iand val 15 in
        (if v <? 10 then store (pb + c) (iadd 48 v)
         else if v <? 16 then store (pb + c) (isub (iadd 97 v) 10)
         else fail) ;;;
        ret (inl (ishr val 4, isub c 1, iadd i 1))
      else ret (inr tt))%cm.

Lemma base16_loop : forall k v m tail p i, (k <= m)%nat -> (m <= 16)%nat -> i = 8 - Z.of_nat k -> 0 <= i ->
  bytes_at p 0 (repeat 48 m ++ tail) ->
  exists p', levals (body16 0 8) (v, Z.of_nat m - 1, i) p tt p' /\
    bytes_at p' 0 (repeat 48 (m - k) ++ map digit_char (padded 16 k v) ++ tail).
Proof.
  induction k as [|k IH]; intros v m tail p i Hk Hm Hi Hi0 B.
  - exists p. split.
    + apply levals_exit, evals_const. unfold body16. destruct (Z.ltb_spec i 8); [lia|]. reflexivity.
    + cbn. rewrite Nat.sub_0_r. exact B.
  - destruct m as [|m]; [lia|].
    replace (S m) with (m + 1)%nat in B by lia. rewrite repeat_app in B. cbn [repeat] in B. rewrite <- app_assoc in B. cbn [app] in B.
    assert (Hl : p (0 + Z.of_nat m) = Some 48) by (eapply bytes_at_get; [exact B|rewrite zlen_repeat; reflexivity]).
    pose proof (bytes_at_upd p 0 _ 48 tail (digit_char (v mod 16)) (0 + Z.of_nat m) B ltac:(rewrite zlen_repeat; reflexivity)) as B1.
    rewrite hex_char in B1 by lia.
    destruct (IH (v / 16) m _ _ (i + 1) ltac:(lia) ltac:(lia) ltac:(lia) ltac:(lia) B1) as (p' & R & B').
    exists p'. split.
    + refine (levals_step _ _ _ _ _ _ _ _ R).
      apply evals_const. unfold body16. destruct (Z.ltb_spec i 8); [|lia]. cbn zeta. unfold bind.
        replace (Z.of_nat (S m) - 1) with (Z.of_nat m) by lia.
        rewrite iand_15. assert (0 <= v mod 16 < 16) by lia. rewrite isub_1, iadd_1 by lia.
        assert (E : isub (iadd 97 (v mod 16)) 10 = 97 + v mod 16 - 10).
        { unfold isub, iadd. rewrite !wrap_id; unfold is_i32; rewrite ?wrap_id; unfold is_i32; lia. }
        assert (E' : iadd 48 (v mod 16) = 48 + v mod 16) by (apply wrap_id; unfold is_i32; lia).
        rewrite E, E'. unfold digit_char. destruct (Z.ltb_spec (v mod 16) 10).
        -- rewrite store_ok by congruence. reflexivity.
        -- destruct (Z.ltb_spec (v mod 16) 16); [|lia]. rewrite store_ok by congruence. reflexivity.
    + cbn [padded]. rewrite map_app, <- app_assoc. cbn [map app]. replace (S m - S k)%nat with (m - k)%nat by lia. exact B'.
Qed.

Lemma base16_spec p v : is_i32 v -> zeros16 p ->
  exists p', evals (fun F => str_base16 F 0 v) p tt p' /\
    bytes_at p' 0 (repeat 48 8 ++ map digit_char (padded 16 8 (w32 v))).
Proof.
  intros Hv Hz.
  destruct (base16_loop 8 v 16%nat [] p 0 ltac:(lia) ltac:(lia) ltac:(lia) ltac:(lia)) as (p1 & R & B). { rewrite app_nil_r. exact Hz. }
  rewrite app_nil_r in B. exists p1. split.
  - unfold str_base16. apply levals_evals. exact R.
  - assert (P : forall k x y, x mod 16 ^ Z.of_nat k = y mod 16 ^ Z.of_nat k -> padded 16 k x = padded 16 k y).
    { clear. induction k as [|k IH]; intros x y E; [reflexivity|]. cbn [padded].
      rewrite Nat2Z.inj_succ, Z.pow_succ_r in E by lia.
      pose proof (Z.pow_pos_nonneg 16 (Z.of_nat k) ltac:(lia) ltac:(lia)).
      rewrite !Z.rem_mul_r in E by lia. 
      assert (x mod 16 = y mod 16 /\ x / 16 mod 16 ^ Z.of_nat k = y / 16 mod 16 ^ Z.of_nat k) as [-> E2].
      { set (A := x / 16 mod 16 ^ Z.of_nat k) in *. set (C := y / 16 mod 16 ^ Z.of_nat k) in *. clearbody A C. lia. }
      f_equal. apply IH. exact E2. }
    rewrite (P 8%nat (w32 v) v); [exact B|]. change (16 ^ Z.of_nat 8) with 4294967296. unfold w32. apply Z.mod_mod. lia.
Qed.
