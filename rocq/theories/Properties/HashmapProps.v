(** C17: the function table is a map. *)
From Verif.Base Require Import Int32.
From Verif.Data Require Import Hashmap.

(** *** Specification *)
(** the value of the first pair with key [k] in a history of insertions *)
Fixpoint first_stored {V} (h : list (str * V)) (k : str) : option V :=
  match h with
  | [] => None
  | (k', v) :: r => if list_eq_dec Z.eq_dec k' k then Some v else first_stored r k
  end.
Definition puts {V} (m : hashmap V) (h : list (str * V)) : hashmap V :=
  fold_left (fun m kv => hashmap_put m (fst kv) (snd kv)) h m.
Definition adds {V} (m : hashmap V) (h : list (str * V)) : hashmap V :=
  fold_left (fun m kv => fst (add_func m (fst kv) (snd kv))) h m.

Definition power_of_two (n : Z) : Prop := exists k, 0 <= k /\ n = 2 ^ k.

(** *** Proof support *)
Lemma streqb_eq a b : streqb a b = true <-> a = b.
Proof.
  revert b. induction a as [|x a IH]; destruct b as [|y b]; cbn; try (split; congruence).
  rewrite andb_true_iff, Z.eqb_eq, IH. split; [intros [-> ->]; reflexivity|intros H; inversion H; auto].
Qed.
Lemma streqb_dec a b : streqb a b = if list_eq_dec Z.eq_dec a b then true else false.
Proof.
  destruct (list_eq_dec Z.eq_dec a b) as [->|N]; [apply streqb_eq; reflexivity|].
  destruct (streqb a b) eqn:E; [|reflexivity]. apply streqb_eq in E. contradiction.
Qed.

(** bit [i] of [x] is set iff some bit of [v] in [i, i+w) is *)
Definition smeared (v x w : Z) : Prop :=
  0 <= x /\ forall i, 0 <= i -> Z.testbit x i = true <-> exists j, i <= j < i + w /\ Z.testbit v j = true.
Lemma smear_step v x w : 0 < w -> smeared v x w -> smeared v (Z.lor x (Z.shiftr x w)) (2 * w).
Proof.
  intros Hw [H0 H]. split.
  { apply Z.lor_nonneg. split; [lia|]. apply Z.shiftr_nonneg. lia. }
  intros i Hi. rewrite Z.lor_spec, Z.shiftr_spec, orb_true_iff by lia. rewrite !H by lia. split.
  - intros [(j & Hj & T)|(j & Hj & T)]; exists j; split; auto; lia.
  - intros (j & Hj & T). destruct (Z_lt_ge_dec j (i + w)); [left|right]; exists j; split; auto; lia.
Qed.
Lemma smear0 v : 0 <= v -> smeared v v 1.
Proof.
  intros H. split; [assumption|]. intros i Hi. split.
  - intros T. exists i. split; [lia|assumption].
  - intros (j & Hj & T). replace i with j by lia. assumption.
Qed.

Lemma round_up_ones v : 0 < v < 2 ^ 31 ->
  round_up_pow2 (v + 1) = 2 ^ (Z.log2 v + 1).
Proof.
  intros H. unfold round_up_pow2. replace (v + 1 - 1) with v by lia.
  set (x1 := Z.lor v (Z.shiftr v 1)). set (x2 := Z.lor x1 (Z.shiftr x1 2)).
  set (x4 := Z.lor x2 (Z.shiftr x2 4)). set (x8 := Z.lor x4 (Z.shiftr x4 8)).
  set (x16 := Z.lor x8 (Z.shiftr x8 16)).
  assert (S : smeared v x16 32).
  { apply (smear_step v x8 16); [lia|]. apply (smear_step v x4 8); [lia|].
    apply (smear_step v x2 4); [lia|]. apply (smear_step v x1 2); [lia|].
    apply (smear_step v v 1); [lia|]. apply smear0. lia. }
  destruct S as [S0 S]. clearbody x16. clear x1 x2 x4 x8.
  pose proof (Z.log2_spec v) as L. pose proof (Z.log2_nonneg v).
  assert (Z.log2 v < 31) by (apply Z.log2_lt_pow2; lia).
  assert (x16 = Z.ones (Z.log2 v + 1)) as ->.
  { apply Z.bits_inj'. intros i Hi.
    destruct (Z_lt_ge_dec i (Z.log2 v + 1)).
    - rewrite Z.ones_spec_low by lia. apply S; [lia|].
      exists (Z.log2 v). split; [lia|]. apply Z.bit_log2. lia.
    - rewrite Z.ones_spec_high by lia. apply not_true_iff_false. intros T. apply S in T; [|lia].
      destruct T as (j & Hj & T). rewrite Z.bits_above_log2 in T by lia. discriminate. }
  rewrite Z.ones_equiv. lia.
Qed.

(** the table size is the least power of two that is at least the requested size *)
Theorem C17_table_size : forall v, 1 <= v <= 2 ^ 30 ->
  power_of_two (round_up_pow2 v) /\ v <= round_up_pow2 v < 2 * v.
Proof.
  intros v Hv. destruct (Z.eq_dec v 1) as [->|N].
  - split; [exists 0; split; [lia|reflexivity]|]. change (round_up_pow2 1) with 1. lia.
  - assert (exists w, v = w + 1 /\ 0 < w < 2 ^ 30) as (w & -> & Hw) by (exists (v - 1); lia).
    rewrite round_up_ones by lia.
    pose proof (Z.log2_spec w ltac:(lia)) as L. pose proof (Z.log2_nonneg w).
    split; [exists (Z.log2 w + 1); split; [lia|reflexivity]|].
    rewrite <- Z.add_1_r in L. rewrite Z.pow_add_r in * by lia. change (2 ^ 1) with 2 in *. lia.
Qed.
Print Assumptions C17_table_size.

Theorem C17_index_in_range : forall size key, 1 <= size <= 2 ^ 30 ->
  0 <= hashmap_hash_index (round_up_pow2 size) key < round_up_pow2 size.
Proof.
  intros size key Hs. destruct (C17_table_size size Hs) as [(k & Hk & E) _].
  unfold hashmap_hash_index. rewrite E. replace (2 ^ k - 1) with (Z.ones k) by (rewrite Z.ones_equiv; lia).
  rewrite Z.land_ones by lia. apply Z.mod_pos_bound. lia.
Qed.
Print Assumptions C17_index_in_range.

Lemma chain_app {V} (a b : list (str * V)) k :
  chain_get V (a ++ b) k = match chain_get V a k with Some v => Some v | None => chain_get V b k end.
Proof.
  induction a as [|[k' v] a IH]; cbn; [reflexivity|]. destruct (streqb k' k); auto.
Qed.

Lemma get_put {V} (m : hashmap V) k v k' :
  hashmap_get (hashmap_put m k v) k' =
    match hashmap_get m k' with
    | Some x => Some x
    | None => if list_eq_dec Z.eq_dec k k' then Some v else None
    end.
Proof.
  unfold hashmap_get, hashmap_put. cbn [hm_size hm_buckets].
  destruct (Z.eqb_spec (hashmap_hash_index (hm_size m) k') (hashmap_hash_index (hm_size m) k)) as [E|N].
  - rewrite chain_app. cbn. rewrite streqb_dec. destruct (list_eq_dec Z.eq_dec k k'); reflexivity.
  - destruct (list_eq_dec Z.eq_dec k k') as [->|]; [contradiction|].
    destruct (chain_get _ _ _); reflexivity.
Qed.

Lemma get_puts {V} (h : list (str * V)) : forall m k,
  hashmap_get (puts m h) k =
    match hashmap_get m k with Some x => Some x | None => first_stored h k end.
Proof.
  induction h as [|[k0 v] h IH]; intros m k; cbn [puts fold_left first_stored].
  - destruct (hashmap_get m k); reflexivity.
  - unfold puts in IH. rewrite IH. cbn [fst snd]. rewrite get_put.
    destruct (hashmap_get m k); [reflexivity|]. destruct (list_eq_dec Z.eq_dec k0 k); reflexivity.
Qed.

(** *** C17 *)
Theorem C17_lookup : forall V size (h : list (str * V)) k,
  hashmap_get (puts (hashmap_create size) h) k = first_stored h k /\
  (hashmap_contains (puts (hashmap_create size) h) k = true <-> In k (map fst h)).
Proof.
  intros V size h k.
  assert (E : hashmap_get (puts (hashmap_create size) h) k = first_stored h k) by (rewrite get_puts; reflexivity).
  split; [exact E|]. unfold hashmap_contains. rewrite E. clear E.
  induction h as [|[k0 v] h IH]; cbn [first_stored map fst In].
  - split; [discriminate|intros []].
  - destruct (list_eq_dec Z.eq_dec k0 k) as [->|N]; [split; auto|].
    rewrite IH. split; [auto|intros [E|E]; [contradiction|assumption]].
Qed.
Print Assumptions C17_lookup.

(** the function table: a name keeps the record of its first declaration, whatever else
    is declared; every add_func for that name returns that record *)
Lemma adds_get {V} (h : list (str * V)) : forall m k,
  find_func (adds m h) k = match find_func m k with Some x => Some x | None => first_stored h k end.
Proof.
  unfold find_func. induction h as [|[k0 v] h IH]; intros m k; cbn [adds fold_left first_stored].
  - destruct (hashmap_get m k); reflexivity.
  - unfold adds in IH. rewrite IH. cbn [fst snd]. unfold add_func.
    destruct (hashmap_get m k0) eqn:E0; cbn [fst].
    + destruct (hashmap_get m k) eqn:E; [reflexivity|].
      destruct (list_eq_dec Z.eq_dec k0 k) as [->|]; [congruence|reflexivity].
    + rewrite get_put. destruct (hashmap_get m k); [reflexivity|].
      destruct (list_eq_dec Z.eq_dec k0 k); reflexivity.
Qed.

Theorem C17_functions : forall V size (h : list (str * V)) name fresh,
  let table := adds (hashmap_create size) h in
  find_func table name = first_stored h name /\
  snd (add_func table name fresh) = match first_stored h name with Some fn => fn | None => fresh end /\
  (forall other, find_func (fst (add_func table name fresh)) other =
     match first_stored h other with
     | Some fn => Some fn
     | None => if list_eq_dec Z.eq_dec name other then Some fresh else None end).
Proof.
  intros V size h name fresh table.
  assert (E : forall k, find_func table k = first_stored h k) by (intros; apply (adds_get h (hashmap_create size))).
  split; [apply E|]. unfold find_func in E. unfold add_func, find_func. rewrite !E. split.
  - destruct (first_stored h name); reflexivity.
  - intros other. destruct (first_stored h name) eqn:En; cbn [fst].
    + rewrite E. destruct (first_stored h other) eqn:Eo; [reflexivity|].
      destruct (list_eq_dec Z.eq_dec name other) as [->|]; [congruence|reflexivity].
    + rewrite get_put, E. destruct (first_stored h other); reflexivity.
Qed.
Print Assumptions C17_functions.

(** Documentation says hashmap_put replaces the value of an existing key. It does not:
    the first value stays (src/globals.c:293-301 vs 302-319). *)
Theorem C17_put_does_not_replace : forall V size (k : str) (v w : V),
  hashmap_get (puts (hashmap_create size) [(k, v); (k, w)]) k = Some v.
Proof.
  intros. rewrite (proj1 (C17_lookup V size _ k)). cbn. destruct (list_eq_dec Z.eq_dec k k); [reflexivity|contradiction].
Qed.
Print Assumptions C17_put_does_not_replace.

(** non-vacuity: the production size; two names that collide in a 2-bucket table; a
    hash that is negative *)
Example C17_case_size : round_up_pow2 512 = 512 /\ round_up_pow2 513 = 1024.
Proof. split; reflexivity. Qed.
Example C17_case_collision :
  hashmap_hash_index 2 [97] = hashmap_hash_index 2 [99] /\
  hashmap_get (puts (hashmap_create 2) [([97], 1); ([99], 2)]) [99] = Some 2.
Proof. vm_compute. split; reflexivity. Qed.
Example C17_case_negative : fold_left fnv_step [97] (s32 0x811c9dc5) < 0.
Proof. vm_compute. reflexivity. Qed.
