(** Bitwise facts about 32-bit words. *)
From Verif.Base Require Import Int32.

Lemma testbit_above n w j : 0 <= n -> 0 <= w < 2 ^ n -> n <= j -> Z.testbit w j = false.
Proof.
  intros Hn Hw Hj. rewrite <- (Z.mod_small w (2 ^ n)) by lia.
  apply Z.mod_pow2_bits_high. lia.
Qed.

Lemma lxor_ones_sub n w : 0 <= n -> 0 <= w < 2 ^ n -> Z.lxor w (2 ^ n - 1) = 2 ^ n - 1 - w.
Proof.
  intros Hn Hw.
  replace (2 ^ n - 1) with (Z.ones n) by (rewrite Z.ones_equiv; lia).
  assert (Z.lxor w (Z.ones n) = Z.ldiff (Z.ones n) w) as ->.
  { apply Z.bits_inj'. intros j Hj. rewrite Z.lxor_spec, Z.ldiff_spec.
    destruct (Z.ltb_spec j n).
    - rewrite Z.ones_spec_low by lia. destruct (Z.testbit w j); reflexivity.
    - rewrite Z.ones_spec_high by lia. rewrite (testbit_above n) by lia. reflexivity. }
  rewrite <- Z.sub_nocarry_ldiff; [reflexivity|].
  apply Z.bits_inj'. intros j Hj. rewrite Z.ldiff_spec, Z.bits_0.
  destruct (Z.ltb_spec j n).
  - rewrite Z.ones_spec_low by lia. apply andb_false_r.
  - rewrite (testbit_above n w) by lia. reflexivity.
Qed.

Lemma lxor_m1 w : is_u32 w -> Z.lxor w 4294967295 = 4294967295 - w.
Proof. intros. apply (lxor_ones_sub 32); [lia|]. unfold is_u32 in *. lia. Qed.

Lemma mod_testbit x n j : 0 <= n -> 0 <= j ->
  Z.testbit (x mod 2 ^ n) j = if j <? n then Z.testbit x j else false.
Proof.
  intros. destruct (Z.ltb_spec j n).
  - apply Z.mod_pow2_bits_low. lia.
  - apply Z.mod_pow2_bits_high. lia.
Qed.

(** a bitwise operator commutes with taking the low n bits *)
Lemma land_mod a b n : 0 <= n -> Z.land a b mod 2 ^ n = Z.land (a mod 2 ^ n) (b mod 2 ^ n).
Proof.
  intros. apply Z.bits_inj'. intros j Hj.
  rewrite mod_testbit, !Z.land_spec, !mod_testbit by lia.
  destruct (j <? n); reflexivity.
Qed.
Lemma lor_mod a b n : 0 <= n -> Z.lor a b mod 2 ^ n = Z.lor (a mod 2 ^ n) (b mod 2 ^ n).
Proof.
  intros. apply Z.bits_inj'. intros j Hj.
  rewrite mod_testbit, !Z.lor_spec, !mod_testbit by lia.
  destruct (j <? n); reflexivity.
Qed.
Lemma lxor_mod a b n : 0 <= n -> Z.lxor a b mod 2 ^ n = Z.lxor (a mod 2 ^ n) (b mod 2 ^ n).
Proof.
  intros. apply Z.bits_inj'. intros j Hj.
  rewrite mod_testbit, !Z.lxor_spec, !mod_testbit by lia.
  destruct (j <? n); reflexivity.
Qed.

Lemma w32_land a b : w32 (Z.land a b) = Z.land (w32 a) (w32 b).
Proof. apply (land_mod a b 32). lia. Qed.
Lemma w32_lor a b : w32 (Z.lor a b) = Z.lor (w32 a) (w32 b).
Proof. apply (lor_mod a b 32). lia. Qed.
Lemma w32_lxor a b : w32 (Z.lxor a b) = Z.lxor (w32 a) (w32 b).
Proof. apply (lxor_mod a b 32). lia. Qed.

Lemma lxor_01 v : v = 0 \/ v = 1 -> Z.lxor v 1 = 1 - v.
Proof. intros [-> | ->]; reflexivity. Qed.

Lemma land_1 w : Z.land w 1 = w mod 2.
Proof. change 1 with (2 ^ 1 - 1). rewrite land_ones_mod by lia. reflexivity. Qed.
