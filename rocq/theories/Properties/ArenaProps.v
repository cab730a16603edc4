(** C18: arena allocations never overlap. *)
From Verif.Base Require Import Int32.
From Verif.Data Require Import Arena.

(** *** Specification *)
Inductive op := Alloc (size : Z) | Reset.
(** a block that was handed out: where and how long *)
Record got := mkgot { g_ptr : ptr; g_size : Z }.

(** run a history; the blocks handed out since the last reset *)
Fixpoint history (a : arena) (live : list got) (h : list op) : arena * list got :=
  match h with
  | [] => (a, live)
  | Alloc n :: r => let (a', p) := arena_alloc a n in history a' (live ++ [mkgot p n]) r
  | Reset :: r => history (arena_reset a) [] r
  end.

Definition disjoint (x y : got) : Prop :=
  pt_chunk (g_ptr x) <> pt_chunk (g_ptr y) \/
  pt_off (g_ptr x) + g_size x <= pt_off (g_ptr y) \/ pt_off (g_ptr y) + g_size y <= pt_off (g_ptr x).

Definition inside (a : arena) (x : got) : Prop :=
  exists c, nth_error a (pt_chunk (g_ptr x)) = Some c /\
    0 <= pt_off (g_ptr x) /\ pt_off (g_ptr x) + g_size x <= ck_capacity c.

(** the requests a 32-bit int arena can serve without arithmetic overflow *)
Definition sane (o : op) : Prop := match o with Alloc n => 0 < n < 2 ^ 30 | Reset => True end.

(** *** Proof *)
Definition cap_ok (c : chunk) : Prop := 0 < ck_capacity c <= 2 ^ 30 /\ 0 <= ck_offset c <= ck_capacity c.
(** live block below the fill level of its chunk *)
Definition below (a : arena) (x : got) : Prop :=
  exists c, nth_error a (pt_chunk (g_ptr x)) = Some c /\
    0 <= pt_off (g_ptr x) /\ pt_off (g_ptr x) + g_size x <= ck_offset c.

Lemma alloc_from_spec : forall a k n, Forall cap_ok a -> 0 < n < 2 ^ 30 ->
  let (a', p) := arena_alloc_from k a n in
  Forall cap_ok a' /\
  exists i c, pt_chunk p = (k + i)%nat /\ nth_error a' i = Some c /\
    ck_offset c = pt_off p + n /\ 0 <= pt_off p /\
    (match nth_error a i with Some c0 => ck_offset c0 = pt_off p | None => True end) /\
    (forall j c0, j <> i -> nth_error a j = Some c0 -> nth_error a' j = Some c0).
Proof.
  induction a as [|b a IH]; intros k n Ha Hn; cbn [arena_alloc_from].
  - unfold iadd, arena_block_create. cbn [ck_capacity ck_offset]. rewrite wrap_id by (unfold is_i32; lia).
    split.
    + constructor; [|constructor]. unfold cap_ok. cbn. unfold DEFAULT_ARENA_SIZE.
      destruct (Z.gtb_spec n 262144); cbn [ck_capacity ck_offset]; lia.
    + exists 0%nat. eexists. split; [cbn; lia|]. split; [reflexivity|]. cbn. split; [lia|]. split; [lia|].
      split; [exact I|]. intros j c0 _ H. destruct j; discriminate.
  - inversion Ha as [|? ? Hb Ha']; subst. destruct Hb as [Hb1 Hb2].
    assert (E : iadd (ck_offset b) n = ck_offset b + n) by (unfold iadd; apply wrap_id; unfold is_i32; lia).
    rewrite E. destruct (Z.leb_spec (ck_offset b + n) (ck_capacity b)).
    + split.
      * constructor; [|assumption]. unfold cap_ok. cbn. lia.
      * exists 0%nat. eexists. split; [cbn; lia|]. split; [reflexivity|]. cbn. split; [lia|]. split; [lia|].
        split; [reflexivity|]. intros [|j] c0 Hj Hc; [contradiction|exact Hc].
    + specialize (IH (S k) n Ha' Hn). destruct (arena_alloc_from (S k) a n) as [a' p].
      destruct IH as (F & i & c & P & N & O & O0 & Q & R). split.
      * constructor; [split; lia|exact F].
      * exists (S i), c. split; [lia|]. split; [exact N|]. split; [exact O|]. split; [exact O0|].
        split; [exact Q|]. intros [|j] c0 Hj Hc; [exact Hc|]. apply R; [lia|exact Hc].
Qed.

Lemma history_ok : forall h a live, Forall sane h -> Forall cap_ok a ->
  Forall (below a) live -> Forall (fun g => 0 < g_size g) live -> ForallOrdPairs disjoint live ->
  let (a', live') := history a live h in
  Forall cap_ok a' /\ Forall (below a') live' /\ ForallOrdPairs disjoint live'.
Proof.
  induction h as [|o h IH]; intros a live Hs Ha Hl Hp Hd; cbn [history]; [auto|].
  inversion Hs; subst. destruct o as [n|].
  - pose proof (alloc_from_spec a 0 n Ha H1) as S. unfold arena_alloc.
    destruct (arena_alloc_from 0 a n) as [a' p]. destruct S as (F & i & c & P & N & O & O0 & Q & R).
    cbn in P. cbn [sane] in H1. apply IH; auto.
    + apply Forall_app. split.
      * eapply Forall_impl; [|exact Hl]. intros g (c0 & N0 & B0 & B1).
        destruct (Nat.eq_dec (pt_chunk (g_ptr g)) i) as [E|E].
        -- rewrite E in *. rewrite N0 in Q. exists c. rewrite E. split; [exact N|]. split; [lia|]. rewrite O. lia.
        -- exists c0. split; [apply R; assumption|]. lia.
      * constructor; [|constructor]. exists c. cbn. rewrite P. split; [exact N|]. lia.
    + apply Forall_app. split; [assumption|]. constructor; [cbn; lia|constructor].
    + (* the new block starts at the old fill level *)
      assert (Hnew : Forall (fun g => disjoint g (mkgot p n)) live).
      { apply Forall_forall. intros g Hg. rewrite Forall_forall in Hl. destruct (Hl g Hg) as (c0 & N0 & B0 & B1).
        unfold disjoint. cbn. destruct (Nat.eq_dec (pt_chunk (g_ptr g)) (pt_chunk p)) as [E|E]; [right; left|left; exact E].
        rewrite E, P in N0. rewrite N0 in Q. lia. }
      clear -Hd Hnew. induction live as [|g live IH]; cbn.
      * constructor; constructor.
      * inversion Hd; subst. inversion Hnew; subst. constructor; [|apply IH; assumption].
        apply Forall_app. split; [assumption|]. constructor; [assumption|constructor].
  - apply IH; auto; try constructor.
    unfold arena_reset. apply Forall_map. eapply Forall_impl; [|exact Ha].
    intros b [Hb1 Hb2]. unfold cap_ok. cbn. lia.
Qed.

Theorem C18_arena : forall cap h, 0 < cap <= 2 ^ 30 -> Forall sane h ->
  let (a, live) := history (arena_init cap) [] h in
  Forall (inside a) live /\ ForallOrdPairs disjoint live.
Proof.
  intros cap h Hc Hs.
  pose proof (history_ok h (arena_init cap) [] Hs) as H.
  destruct (history (arena_init cap) [] h) as [a live].
  destruct H as (F & B & D).
  - constructor; [|constructor]. unfold cap_ok, arena_block_create. cbn. lia.
  - constructor.
  - constructor.
  - constructor.
  - split; [|exact D]. eapply Forall_impl; [|exact B]. intros g (c & N & B0 & B1).
    exists c. split; [exact N|]. split; [lia|].
    rewrite Forall_forall in F. destruct (F c (nth_error_In _ _ N)). lia.
Qed.
Print Assumptions C18_arena.

(** Beyond int range the bounds check itself overflows: a request of INT_MAX bytes from
    a chunk already in use is granted out of 256 KiB.  (shecc never asks for that.) *)
Theorem C18_overflow_refuted :
  snd (history (arena_init DEFAULT_ARENA_SIZE) [] [Alloc 8; Alloc 2147483647]) =
    [mkgot (mkptr 0 0) 8; mkgot (mkptr 0 8) 2147483647].
Proof. reflexivity. Qed.
Print Assumptions C18_overflow_refuted.

Example C18_case :
  snd (history (arena_init 100) [] [Alloc 60; Alloc 50; Alloc 40; Reset; Alloc 60; Alloc 300000; Alloc 50; Alloc 8]) =
  [mkgot (mkptr 0 0) 60; mkgot (mkptr 2 0) 300000; mkgot (mkptr 1 0) 50; mkgot (mkptr 0 60) 8].
Proof. reflexivity. Qed.
