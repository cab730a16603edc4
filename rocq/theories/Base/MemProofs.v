(** Lemmas about byte memory. *)
From Verif.Base Require Import Int32 Mem.

Lemma ldb_range m a : 0 <= ldb m a < 256.
Proof. unfold ldb. apply Z.mod_pos_bound. lia. Qed.
Lemma ldh_range m a : 0 <= ldh m a < 65536.
Proof. unfold ldh. pose proof (ldb_range m a). pose proof (ldb_range m (a + 1)). lia. Qed.
Lemma ldw_range m a : is_u32 (ldw m a).
Proof.
  unfold ldw, is_u32.
  pose proof (ldb_range m a). pose proof (ldb_range m (a + 1)).
  pose proof (ldb_range m (a + 2)). pose proof (ldb_range m (a + 3)). lia.
Qed.

Lemma ldb_w32 m a : ldb m (w32 a) = ldb m a.
Proof. unfold ldb. rewrite w32_idem. reflexivity. Qed.
Lemma ldb_cong m a b : w32 a = w32 b -> ldb m a = ldb m b.
Proof. unfold ldb. intros ->. reflexivity. Qed.
Lemma w32_shift a b d : w32 a = w32 b -> w32 (a + d) = w32 (b + d).
Proof. intros H. rewrite <- w32_add_l, H, w32_add_l. reflexivity. Qed.
Lemma ldw_cong m a b : w32 a = w32 b -> ldw m a = ldw m b.
Proof.
  intros H. unfold ldw.
  rewrite (ldb_cong m a b H), (ldb_cong m (a + 1) (b + 1)), (ldb_cong m (a + 2) (b + 2)),
    (ldb_cong m (a + 3) (b + 3)) by auto using w32_shift. reflexivity.
Qed.
Lemma ldw_w32 m a : ldw m (w32 a) = ldw m a.
Proof. apply ldw_cong, w32_idem. Qed.

Lemma stb_cong m a b v w : w32 a = w32 b -> v mod 256 = w mod 256 -> stb m a v = stb m b w.
Proof. unfold stb. intros -> ->. reflexivity. Qed.

Lemma stw_cong m a b v w : w32 a = w32 b -> w32 v = w32 w -> stw m a v = stw m b w.
Proof.
  intros Ha Hv. unfold stw.
  assert (v mod 256 = w mod 256) as E0.
  { unfold w32 in Hv. lia. }
  assert ((v / 256) mod 256 = (w / 256) mod 256) as E1 by (unfold w32 in Hv; lia).
  assert ((v / 65536) mod 256 = (w / 65536) mod 256) as E2 by (unfold w32 in Hv; lia).
  assert ((v / 16777216) mod 256 = (w / 16777216) mod 256) as E3 by (unfold w32 in Hv; lia).
  rewrite (stb_cong m a b v w Ha E0).
  rewrite (stb_cong _ (a + 1) (b + 1) _ _ (w32_shift _ _ _ Ha) E1).
  rewrite (stb_cong _ (a + 2) (b + 2) _ _ (w32_shift _ _ _ Ha) E2).
  rewrite (stb_cong _ (a + 3) (b + 3) _ _ (w32_shift _ _ _ Ha) E3).
  reflexivity.
Qed.

Lemma ldb_stb_same m a v : ldb (stb m a v) a = v mod 256.
Proof. unfold ldb, stb. rewrite Z.eqb_refl. lia. Qed.
Lemma ldb_stb_other m a b v : w32 a <> w32 b -> ldb (stb m b v) a = ldb m a.
Proof. intros. unfold ldb, stb. destruct (Z.eqb_spec (w32 a) (w32 b)); [contradiction|reflexivity]. Qed.
Lemma ldb_stb m a b v :
  ldb (stb m b v) a = if w32 a =? w32 b then v mod 256 else ldb m a.
Proof.
  destruct (Z.eqb_spec (w32 a) (w32 b)) as [E|E].
  - rewrite (ldb_cong _ _ _ E). apply ldb_stb_same.
  - apply ldb_stb_other; assumption.
Qed.

Lemma w32_add_neq a d e : 0 <= d < 4294967296 -> 0 <= e < 4294967296 -> d <> e ->
  w32 (a + d) <> w32 (a + e).
Proof. unfold w32. lia. Qed.

Lemma ldb_stw_in m a v d : 0 <= d < 4 -> ldb (stw m a v) (a + d) = (v / 256 ^ d) mod 256.
Proof.
  intros H. unfold stw.
  assert (forall d e, 0 <= d < 4 -> 0 <= e < 4 -> d <> e -> w32 (a + d) <> w32 (a + e)) as N.
  { intros. apply w32_add_neq; lia. }
  assert (d = 0 \/ d = 1 \/ d = 2 \/ d = 3) as [-> | [-> | [-> | ->]]] by lia.
  - pose proof (N 0 1 ltac:(lia) ltac:(lia) ltac:(lia)) as N1.
    pose proof (N 0 2 ltac:(lia) ltac:(lia) ltac:(lia)) as N2.
    pose proof (N 0 3 ltac:(lia) ltac:(lia) ltac:(lia)) as N3.
    rewrite Z.add_0_r in *. rewrite 3!ldb_stb_other by assumption.
    rewrite ldb_stb_same, Z.div_1_r. reflexivity.
  - rewrite 2!ldb_stb_other by (apply N; lia). apply ldb_stb_same.
  - rewrite ldb_stb_other by (apply N; lia). apply ldb_stb_same.
  - apply ldb_stb_same.
Qed.

Lemma ldw_stw_same m a v : ldw (stw m a v) a = w32 v.
Proof.
  unfold ldw. pose proof (ldb_stw_in m a v 0 ltac:(lia)) as E0. rewrite Z.add_0_r in E0.
  rewrite E0, !ldb_stw_in by lia.
  change (256 ^ 0) with 1. change (256 ^ 1) with 256. change (256 ^ 2) with 65536.
  change (256 ^ 3) with 16777216. rewrite Z.div_1_r. clear. unfold w32. lia.
Qed.

Lemma ldb_stw_other m a b v :
  (forall d, 0 <= d < 4 -> w32 a <> w32 (b + d)) -> ldb (stw m b v) a = ldb m a.
Proof.
  intros H. unfold stw. rewrite !ldb_stb_other; auto.
  - rewrite <- (Z.add_0_r b). apply H. lia.
  - apply H; lia. - apply H; lia. - apply H; lia.
Qed.

Lemma word_read_back m a b v :
  ldw (stw m a v) a = w32 v /\
  ((forall i j, 0 <= i < 4 -> 0 <= j < 4 -> w32 (a + i) <> w32 (b + j)) ->
   ldw (stw m a v) b = ldw m b).
Proof.
  split; [apply ldw_stw_same|]. intros H. unfold ldw.
  rewrite <- (Z.add_0_r b) at 1. rewrite !ldb_stw_other; [rewrite Z.add_0_r; reflexivity|..];
    intros d Hd E; (eapply H; [exact Hd| |symmetry; exact E]); lia.
Qed.

Lemma words_at_app m ws1 : forall a ws2,
  words_at m a (ws1 ++ ws2) <-> words_at m a ws1 /\ words_at m (a + 4 * Z.of_nat (length ws1)) ws2.
Proof.
  induction ws1 as [|w ws IH]; intros a ws2; cbn [app words_at length].
  - replace (a + 4 * Z.of_nat 0) with a by lia. tauto.
  - rewrite IH. replace (a + 4 + 4 * Z.of_nat (length ws)) with (a + 4 * Z.of_nat (S (length ws))) by lia.
    tauto.
Qed.

Lemma words_at_ext m m' ws : forall a,
  (forall d, 0 <= d < 4 * Z.of_nat (length ws) -> ldb m' (a + d) = ldb m (a + d)) ->
  words_at m a ws -> words_at m' a ws.
Proof.
  induction ws as [|w ws IH]; intros a H; cbn [words_at length] in *; [auto|].
  intros [Hw Hr]. split.
  - rewrite <- Hw. unfold ldw. rewrite <- (Z.add_0_r a) at 1 5. rewrite !H by lia. reflexivity.
  - apply IH; [|assumption]. intros d Hd. rewrite <- !Z.add_assoc. apply H. lia.
Qed.
