(** 32-bit integer arithmetic.

    [w32]  : the unsigned canonical representative of a machine word.
    [s32]  : the signed (two's complement) reading of a word.
    [wrap] : the C `int` value of a mathematical integer; every `int`
             operation of the modelled C code wraps this way.  (gcc/clang
             and shecc itself implement wrapping; ISO C leaves signed
             overflow undefined.  Division is treated separately.) *)
From Coq Require Export ZArith List Bool Lia Zify ZifyBool.
Export ListNotations.
Open Scope Z_scope.

Definition M32 : Z := 4294967296.
Definition H32 : Z := 2147483648.

Definition w32 (x : Z) : Z := x mod 4294967296.
Definition s32 (x : Z) : Z :=
  let u := x mod 4294967296 in
  if u <? 2147483648 then u else u - 4294967296.
Definition wrap (x : Z) : Z := s32 x.

Definition is_u32 (x : Z) : Prop := 0 <= x < 4294967296.
Definition is_i32 (x : Z) : Prop := -2147483648 <= x < 2147483648.

(* C operators on int *)
Definition iadd (a b : Z) : Z := wrap (a + b).
Definition isub (a b : Z) : Z := wrap (a - b).
Definition imul (a b : Z) : Z := wrap (a * b).
Definition ineg (a : Z) : Z := wrap (- a).
Definition ishl (a n : Z) : Z := wrap (a * 2 ^ n).
Definition ishr (a n : Z) : Z := a / 2 ^ n.        (* arithmetic >> on int *)
Definition iand (a b : Z) : Z := Z.land a b.
Definition ior (a b : Z) : Z := Z.lor a b.
Definition ixor (a b : Z) : Z := Z.lxor a b.

Ltac Zify.zify_post_hook ::= Z.div_mod_to_equations.

Lemma w32_range x : is_u32 (w32 x).
Proof. unfold is_u32, w32; lia. Qed.

Lemma w32_id x : is_u32 x -> w32 x = x.
Proof. unfold is_u32, w32; intros; apply Z.mod_small; lia. Qed.

Lemma w32_idem x : w32 (w32 x) = w32 x.
Proof. unfold w32; lia. Qed.

Lemma s32_range x : is_i32 (s32 x).
Proof. unfold is_i32, s32; destruct (Z.ltb_spec (x mod 4294967296) 2147483648); lia. Qed.

Lemma wrap_range x : is_i32 (wrap x).
Proof. apply s32_range. Qed.

Lemma s32_id x : is_i32 x -> s32 x = x.
Proof.
  unfold is_i32, s32; intros.
  destruct (Z.ltb_spec (x mod 4294967296) 2147483648); lia.
Qed.

Lemma wrap_id x : is_i32 x -> wrap x = x.
Proof. apply s32_id. Qed.

Lemma w32_s32 x : w32 (s32 x) = w32 x.
Proof. unfold w32, s32; destruct (Z.ltb_spec (x mod 4294967296) 2147483648); lia. Qed.

Lemma w32_wrap x : w32 (wrap x) = w32 x.
Proof. apply w32_s32. Qed.

Lemma s32_w32 x : s32 (w32 x) = s32 x.
Proof.
  unfold w32, s32. rewrite Z.mod_mod by lia. reflexivity.
Qed.

Lemma w32_eq_s32 x y : w32 x = w32 y -> s32 x = s32 y.
Proof. intros H. rewrite <- (s32_w32 x), <- (s32_w32 y), H. reflexivity. Qed.

Lemma wrap_eq x y : w32 x = w32 y -> wrap x = wrap y.
Proof. apply w32_eq_s32. Qed.

Lemma s32_inj x y : s32 x = s32 y -> w32 x = w32 y.
Proof. intros H. rewrite <- (w32_s32 x), <- (w32_s32 y), H. reflexivity. Qed.

Lemma w32_add a b : w32 (w32 a + w32 b) = w32 (a + b).
Proof. unfold w32. rewrite <- Zplus_mod. reflexivity. Qed.
Lemma w32_add_l a b : w32 (w32 a + b) = w32 (a + b).
Proof. unfold w32. rewrite Zplus_mod_idemp_l. reflexivity. Qed.
Lemma w32_add_r a b : w32 (a + w32 b) = w32 (a + b).
Proof. unfold w32. rewrite Zplus_mod_idemp_r. reflexivity. Qed.
Lemma w32_sub_l a b : w32 (w32 a - b) = w32 (a - b).
Proof. unfold w32. rewrite Zminus_mod_idemp_l. reflexivity. Qed.
Lemma w32_sub_r a b : w32 (a - w32 b) = w32 (a - b).
Proof. unfold w32. rewrite Zminus_mod_idemp_r. reflexivity. Qed.
Lemma w32_mul_l a b : w32 (w32 a * b) = w32 (a * b).
Proof. unfold w32. rewrite Zmult_mod_idemp_l. reflexivity. Qed.
Lemma w32_mul_r a b : w32 (a * w32 b) = w32 (a * b).
Proof. unfold w32. rewrite Zmult_mod_idemp_r. reflexivity. Qed.

Lemma w32_iadd a b : w32 (iadd a b) = w32 (w32 a + w32 b).
Proof. unfold iadd. rewrite w32_wrap, w32_add. reflexivity. Qed.
Lemma w32_ishl a n : w32 (ishl a n) = w32 (a * 2 ^ n).
Proof. unfold ishl. apply w32_wrap. Qed.

(** every congruence modulo 2^32 that [lia] can decide *)
Lemma w32_cong a b : (exists k, a = b + k * 4294967296) -> w32 a = w32 b.
Proof. unfold w32; intros [k ->]. apply Z_mod_plus_full. Qed.

Lemma w32_mod a : exists k, w32 a = a + k * 4294967296.
Proof. unfold w32. exists (- (a / 4294967296)). lia. Qed.

Lemma s32_mod a : exists k, s32 a = a + k * 4294967296.
Proof.
  unfold s32. destruct (Z.ltb_spec (a mod 4294967296) 2147483648).
  - exists (- (a / 4294967296)). lia.
  - exists (- (a / 4294967296) - 1). lia.
Qed.

Lemma land_ones_mod x n : 0 <= n -> Z.land x (2 ^ n - 1) = x mod 2 ^ n.
Proof. intros. rewrite <- Z.land_ones by lia. rewrite Z.ones_equiv, Z.sub_1_r. reflexivity. Qed.

Lemma s32_neg_iff x : is_u32 x -> (s32 x < 0 <-> 2147483648 <= x).
Proof.
  unfold is_u32, s32; intros. rewrite Z.mod_small by lia.
  destruct (Z.ltb_spec x 2147483648); lia.
Qed.

Lemma s32_cases x : is_u32 x ->
  (x < 2147483648 /\ s32 x = x) \/ (2147483648 <= x /\ s32 x = x - 4294967296).
Proof.
  unfold is_u32, s32; intros. rewrite Z.mod_small by lia.
  destruct (Z.ltb_spec x 2147483648); lia.
Qed.

(** bit-field of a word: bits [lo .. lo+n-1] *)
Definition bits (w lo n : Z) : Z := (w / 2 ^ lo) mod 2 ^ n.

Lemma bits_range w lo n : 0 <= n -> 0 <= bits w lo n < 2 ^ n.
Proof. intros. unfold bits. apply Z.mod_pos_bound. apply Z.pow_pos_nonneg; lia. Qed.

(** sign extension of an n-bit field value *)
Definition sext (n v : Z) : Z := if v <? 2 ^ (n - 1) then v else v - 2 ^ n.
