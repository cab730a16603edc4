(** The memory in which the embedded libc (lib/c.c) is modelled, and the small monad its
    functions are written in.

    A memory maps an address to a byte, or to None when the program has no right to touch
    that address; loading from or storing to such an address makes the run fail (None).
    So a theorem about a memory in which only some objects are accessible also says that
    nothing outside them is read or written.  Pointers are mathematical integers (objects
    do not wrap around the end of the address space); [int] arithmetic wraps explicitly. *)
From Verif.Base Require Export Int32.

Definition heap := Z -> option Z.
Definition M (A : Type) := heap -> option (A * heap).

Definition ret {A} (a : A) : M A := fun h => Some (a, h).
Definition bind {A B} (m : M A) (k : A -> M B) : M B :=
  fun h => match m h with Some (a, h') => k a h' | None => None end.
Definition fail {A} : M A := fun _ => None.

Declare Scope cm_scope.
Delimit Scope cm_scope with cm.
Notation "x <- e ;; k" := (bind e (fun x => k)) (at level 90, e at level 80, right associativity) : cm_scope.
Notation "e ;;; k" := (bind e (fun _ => k)) (at level 90, right associativity) : cm_scope.

(** [load sc a]: the value of the [char] object at [a]: plain char is signed on RISC-V
    (LB) and unsigned on ARM (LDRB), cf. C43_char_refuted. *)
Definition char_val (sc : bool) (b : Z) : Z := if sc then sext 8 (b mod 256) else b mod 256.
Definition load (sc : bool) (a : Z) : M Z :=
  fun h => match h a with Some b => Some (char_val sc b, h) | None => None end.
Definition upd (h : heap) (a : Z) (v : Z) : heap := fun x => if x =? a then Some (v mod 256) else h x.
Definition store (a : Z) (v : Z) : M unit :=
  fun h => match h a with Some _ => Some (tt, upd h a v) | None => None end.

(** C loops: [inl] = next iteration with that state, [inr] = leave with that result;
    the fuel only bounds the number of iterations of one run. *)
Fixpoint loop {S R} (body : S -> M (S + R)) (fuel : nat) (s : S) : M R :=
  match fuel with
  | O => fail
  | Datatypes.S k => bind (body s) (fun r => match r with inl s' => loop body k s' | inr x => ret x end)
  end.

(** a run terminates with a result: it does so with every large enough fuel *)
Definition evals {A} (m : nat -> M A) (h : heap) (a : A) (h' : heap) : Prop :=
  exists n0 : nat, forall n, (n0 <= n)%nat -> m n h = Some (a, h').

Lemma evals_ret {A} (a : A) h : evals (fun _ => ret a) h a h.
Proof. exists O. reflexivity. Qed.

Lemma evals_bind {A B} (m : nat -> M A) (k : nat -> A -> M B) h a h1 b h2 :
  evals m h a h1 -> evals (fun n => k n a) h1 b h2 -> evals (fun n => bind (m n) (k n)) h b h2.
Proof.
  intros [n1 H1] [n2 H2]. exists (max n1 n2). intros n Hn. unfold bind.
  rewrite H1 by lia. apply H2. lia.
Qed.

Lemma evals_const {A} (m : M A) h a h' : m h = Some (a, h') -> evals (fun _ => m) h a h'.
Proof. intros H. exists O. intros; exact H. Qed.

Lemma evals_det {A} (m : nat -> M A) h a1 h1 a2 h2 : evals m h a1 h1 -> evals m h a2 h2 -> a1 = a2 /\ h1 = h2.
Proof.
  intros [n1 E1] [n2 E2]. specialize (E1 (max n1 n2)). specialize (E2 (max n1 n2)).
  rewrite E1 in E2 by lia. specialize (E2 ltac:(lia)). inversion E2. auto.
Qed.

(** runs of a loop whose body itself needs fuel *)
Definition levals {S R} (body : nat -> S -> M (S + R)) (s : S) (h : heap) (r : R) (h' : heap) : Prop :=
  exists n0 : nat, forall n k, (n0 <= n)%nat -> (n0 <= k)%nat -> loop (body n) k s h = Some (r, h').

Lemma levals_evals {S R} (body : nat -> S -> M (S + R)) s h r h' :
  levals body s h r h' -> evals (fun n => loop (body n) n s) h r h'.
Proof. intros [n0 H]. exists n0. intros n Hn. apply H; assumption. Qed.

Lemma levals_step {S R} (body : nat -> S -> M (S + R)) s h s' h1 r h' :
  evals (fun n => body n s) h (inl s') h1 -> levals body s' h1 r h' -> levals body s h r h'.
Proof.
  intros [n1 H1] [n2 H2]. exists (Datatypes.S (max n1 n2)). intros n k Hn Hk.
  destruct k as [|k]; [lia|]. cbn [loop]. unfold bind. rewrite H1 by lia. apply H2; lia.
Qed.

Lemma levals_exit {S R} (body : nat -> S -> M (S + R)) s h r h' :
  evals (fun n => body n s) h (inr r) h' -> levals body s h r h'.
Proof.
  intros [n1 H1]. exists (Datatypes.S n1). intros n k Hn Hk.
  destruct k as [|k]; [lia|]. cbn [loop]. unfold bind. rewrite H1 by lia. reflexivity.
Qed.

(** ** Specification vocabulary *)
Definition zlen (s : list Z) : Z := Z.of_nat (List.length s).
Definition is_byte (b : Z) : Prop := 0 <= b < 256.

(** the bytes [s] lie at [a] *)
Definition bytes_at (h : heap) (a : Z) (s : list Z) : Prop :=
  forall i, 0 <= i < zlen s -> h (a + i) = Some (nth (Z.to_nat i) s 0).
(** the [n] bytes at [a] may be accessed *)
Definition accessible (h : heap) (a n : Z) : Prop := forall i, 0 <= i < n -> h (a + i) <> None.
(** a C string: non-zero bytes followed by a zero byte; its length fits an int *)
Definition text (s : list Z) : Prop := Forall (fun b => 0 < b < 256) s.
Definition cstring (h : heap) (a : Z) (s : list Z) : Prop :=
  text s /\ bytes_at h a (s ++ [0]) /\ zlen s < 2147483648 - 1.
(** what a function that looks at at most [n] characters sees: all of a shorter string,
    or the first [n] characters of something longer *)
Definition ctext (h : heap) (a n : Z) (s : list Z) : Prop :=
  text s /\ ((zlen s < n /\ bytes_at h a (s ++ [0])) \/ (zlen s = n /\ bytes_at h a s)).
(** memory after the bytes [s] have been written at [a] *)
Definition blit (h : heap) (a : Z) (s : list Z) : heap :=
  fun x => if (a <=? x) && (x <? a + zlen s) then Some (nth (Z.to_nat (x - a)) s 0) else h x.
(** two byte ranges do not overlap *)
Definition apart (a n b m : Z) : Prop := a + n <= b \/ b + m <= a.

(** ** Lemmas *)
Lemma zlen_app s t : zlen (s ++ t) = zlen s + zlen t.
Proof. unfold zlen. rewrite app_length. lia. Qed.
Lemma zlen_cons b s : zlen (b :: s) = 1 + zlen s.
Proof. unfold zlen. cbn [List.length]. lia. Qed.
Lemma zlen_nil : zlen [] = 0.
Proof. reflexivity. Qed.
Lemma zlen_nonneg s : 0 <= zlen s.
Proof. unfold zlen. lia. Qed.

Lemma bytes_at_app h a s t : bytes_at h a (s ++ t) <-> bytes_at h a s /\ bytes_at h (a + zlen s) t.
Proof.
  unfold bytes_at. rewrite zlen_app. pose proof (zlen_nonneg s). pose proof (zlen_nonneg t). split.
  - intros H1. split; intros i Hi.
    + rewrite H1 by lia. rewrite app_nth1; [reflexivity|unfold zlen in *; lia].
    + rewrite <- Z.add_assoc, H1 by lia. rewrite app_nth2 by (unfold zlen in *; lia).
      f_equal. f_equal. unfold zlen in *. lia.
  - intros [H1 H2] i Hi. destruct (Z.lt_ge_cases i (zlen s)).
    + rewrite H1 by lia. rewrite app_nth1; [reflexivity|unfold zlen in *; lia].
    + replace (a + i) with (a + zlen s + (i - zlen s)) by lia. rewrite H2 by lia.
      rewrite app_nth2 by (unfold zlen in *; lia). f_equal. f_equal. unfold zlen in *. lia.
Qed.

Lemma bytes_at_cons h a b s : bytes_at h a (b :: s) <-> h a = Some b /\ bytes_at h (a + 1) s.
Proof.
  change (b :: s) with ([b] ++ s). rewrite bytes_at_app. change (zlen [b]) with 1.
  split; intros [H1 H2]; split; auto.
  - specialize (H1 0). rewrite Z.add_0_r in H1. apply H1. change (zlen [b]) with 1. lia.
  - intros i Hi. change (zlen [b]) with 1 in Hi. assert (i = 0) by lia. subst. rewrite Z.add_0_r. exact H1.
Qed.

Lemma bytes_at_nil h a : bytes_at h a [].
Proof. intros i Hi. change (zlen []) with 0 in Hi. lia. Qed.

Lemma bytes_at_ext h h' a s : (forall i, 0 <= i < zlen s -> h' (a + i) = h (a + i)) -> bytes_at h a s -> bytes_at h' a s.
Proof. intros E H i Hi. rewrite E by lia. apply H. lia. Qed.

Lemma char_val_0 sc b : is_byte b -> (char_val sc b = 0 <-> b = 0).
Proof.
  unfold char_val, is_byte, sext. intros. rewrite Z.mod_small by lia.
  destruct sc; [|lia]. destruct (Z.ltb_spec b (2 ^ (8 - 1))); lia.
Qed.
Lemma char_val_inj sc a b : is_byte a -> is_byte b -> char_val sc a = char_val sc b -> a = b.
Proof.
  unfold char_val, is_byte, sext. intros. rewrite !Z.mod_small in * by lia.
  destruct sc; [|lia]. destruct (Z.ltb_spec a (2 ^ (8 - 1))), (Z.ltb_spec b (2 ^ (8 - 1))); lia.
Qed.
Lemma char_val_range sc b : is_byte b -> -128 <= char_val sc b < 256.
Proof.
  unfold char_val, is_byte, sext. intros. rewrite (Z.mod_small b) by lia.
  destruct sc; [|lia]. destruct (Z.ltb_spec b (2 ^ (8 - 1))); lia.
Qed.
Lemma char_val_mod sc b : is_byte b -> char_val sc b mod 256 = b.
Proof.
  unfold char_val, is_byte, sext. intros. rewrite (Z.mod_small b) by lia.
  destruct sc; [|rewrite Z.mod_small; lia]. destruct (Z.ltb_spec b (2 ^ (8 - 1))); lia.
Qed.
Lemma char_val_ascii sc b : 0 <= b < 128 -> char_val sc b = b.
Proof.
  unfold char_val, sext. intros. rewrite (Z.mod_small b) by lia.
  destruct sc; [|lia]. destruct (Z.ltb_spec b (2 ^ (8 - 1))); lia.
Qed.

Lemma upd_same h a v : upd h a v a = Some (v mod 256).
Proof. unfold upd. rewrite Z.eqb_refl. reflexivity. Qed.
Lemma upd_other h a v x : x <> a -> upd h a v x = h x.
Proof. unfold upd. intros. destruct (Z.eqb_spec x a); [contradiction|reflexivity]. Qed.

Lemma blit_in h a s i : 0 <= i < zlen s -> blit h a s (a + i) = Some (nth (Z.to_nat i) s 0).
Proof.
  unfold blit. intros. destruct (Z.leb_spec a (a + i)); [|lia].
  destruct (Z.ltb_spec (a + i) (a + zlen s)); [|lia]. cbn. f_equal. f_equal. lia.
Qed.
Lemma blit_out h a s x : x < a \/ a + zlen s <= x -> blit h a s x = h x.
Proof.
  unfold blit. intros. destruct (Z.leb_spec a x), (Z.ltb_spec x (a + zlen s)); cbn; auto; lia.
Qed.
Lemma bytes_at_blit h a s : bytes_at (blit h a s) a s.
Proof. intros i Hi. apply blit_in. exact Hi. Qed.
Lemma blit_nil h a x : blit h a [] x = h x.
Proof. apply blit_out. change (zlen []) with 0. lia. Qed.
(** writing bytes one after the other *)
Lemma blit_snoc h a s b x : is_byte b -> upd (blit h a s) (a + zlen s) b x = blit h a (s ++ [b]) x.
Proof.
  intros Hb. unfold is_byte in Hb. pose proof (zlen_nonneg s) as Z0.
  destruct (Z.eq_dec x (a + zlen s)) as [->|N].
  - rewrite upd_same, blit_in by (rewrite zlen_app; change (zlen [b]) with 1; lia).
    rewrite app_nth2 by (unfold zlen; lia). rewrite Z.mod_small by lia.
    replace (Z.to_nat (zlen s) - List.length s)%nat with O by (unfold zlen; lia). reflexivity.
  - rewrite upd_other by exact N.
    destruct (Z.lt_ge_cases x a); [rewrite !blit_out by (rewrite ?zlen_app; lia); reflexivity|].
    destruct (Z.lt_ge_cases x (a + zlen s)).
    + replace x with (a + (x - a)) by lia. rewrite !blit_in by (rewrite ?zlen_app; change (zlen [b]) with 1; lia).
      rewrite app_nth1 by (unfold zlen in *; lia). reflexivity.
    + rewrite !blit_out; auto. right. rewrite zlen_app. change (zlen [b]) with 1. lia.
Qed.
Lemma upd_ext h h' a v x : (forall x, h x = h' x) -> upd h a v x = upd h' a v x.
Proof. intros E. unfold upd. rewrite E. reflexivity. Qed.
Lemma blit_ext h h' a s x : (forall x, h x = h' x) -> blit h a s x = blit h' a s x.
Proof. intros E. unfold blit. rewrite E. reflexivity. Qed.
Lemma blit_blit_app h a s t x : blit (blit h a s) (a + zlen s) t x = blit h a (s ++ t) x.
Proof.
  unfold blit. rewrite zlen_app. pose proof (zlen_nonneg s). pose proof (zlen_nonneg t).
  destruct (Z.leb_spec (a + zlen s) x), (Z.ltb_spec x (a + zlen s + zlen t)), (Z.leb_spec a x),
    (Z.ltb_spec x (a + zlen s)), (Z.ltb_spec x (a + (zlen s + zlen t))); cbn; try lia; try reflexivity.
  - rewrite app_nth2 by (unfold zlen in *; lia). f_equal. f_equal. unfold zlen in *; lia.
  - rewrite app_nth1 by (unfold zlen in *; lia). reflexivity.
Qed.

Lemma load_ok sc h a b : h a = Some b -> load sc a h = Some (char_val sc b, h).
Proof. unfold load. intros ->. reflexivity. Qed.
Lemma store_ok h a v : h a <> None -> store a v h = Some (tt, upd h a v).
Proof. unfold store. destruct (h a); [reflexivity|contradiction]. Qed.
