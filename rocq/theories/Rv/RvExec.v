(** Symbolic execution of decoded RV32 code. *)
From Verif.Base Require Import Int32 Mem.
From Verif.Ir Require Import Ph2.
From Verif.Rv Require Import RvISA RvEnc RvEncProofs RvGen.

Definition code_at (m : mem) (a : Z) (is : list rvinstr) : Prop :=
  forall j i, nth_error is j = Some i -> rv_decode (ldw m (a + 4 * Z.of_nat j)) = Some i.

Definition arange (a : Z) (n : nat) : Prop :=
  0 <= a /\ a mod 4 = 0 /\ a + 4 * Z.of_nat n < 4294967296.

Definition rv_star (s s' : rvstate) : Prop := exists n, rv_steps n s = Some s'.

Lemma rv_star_refl s : rv_star s s.
Proof. exists O; reflexivity. Qed.

Lemma rv_star_step s s1 s' : rv_step s = RNext s1 -> rv_star s1 s' -> rv_star s s'.
Proof. intros H [n Hn]. exists (S n). cbn. rewrite H. exact Hn. Qed.

Lemma rv_steps_app n1 n2 s s1 s2 :
  rv_steps n1 s = Some s1 -> rv_steps n2 s1 = Some s2 -> rv_steps (n1 + n2) s = Some s2.
Proof.
  revert s. induction n1; cbn; intros s H1 H2.
  - inversion H1; subst; assumption.
  - destruct (rv_step s); try discriminate. eauto.
Qed.

Lemma rv_star_trans s s1 s2 : rv_star s s1 -> rv_star s1 s2 -> rv_star s s2.
Proof. intros [n H] [n' H']. exists (n + n')%nat. eapply rv_steps_app; eauto. Qed.

Definition xget (x : Z -> Z) (r : Z) : Z := if r =? 0 then 0 else x r.

Lemma star_at m a is c i x s' S' :
  code_at m a is -> arange a (length is) ->
  nth_error is (Z.to_nat (c / 4)) = Some i -> 0 <= c -> c mod 4 = 0 ->
  rv_exec i (mkrv (a + c) x m) = RNext s' ->
  rv_star s' S' -> rv_star (mkrv (a + c) x m) S'.
Proof.
  intros Hc Ha Hn Hp Hm He Hs. eapply rv_star_step; [|exact Hs].
  unfold rv_step. cbn [rpc rm].
  destruct Ha as (Ha0 & Ha4 & _).
  replace ((a + c) mod 4 =? 0) with true by lia.
  specialize (Hc _ _ Hn).
  replace (a + 4 * Z.of_nat (Z.to_nat (c / 4))) with (a + c) in Hc by lia.
  rewrite Hc. exact He.
Qed.

(** at least one step *)
Definition rv_plus (s s' : rvstate) : Prop := exists n, rv_steps (S n) s = Some s'.

Lemma plus_at m a is c i x s' S' :
  code_at m a is -> arange a (length is) ->
  nth_error is (Z.to_nat (c / 4)) = Some i -> 0 <= c -> c mod 4 = 0 ->
  rv_exec i (mkrv (a + c) x m) = RNext s' ->
  rv_star s' S' -> rv_plus (mkrv (a + c) x m) S'.
Proof.
  intros Hc Ha Hn Hp Hm He [n Hs]. exists n. cbn [rv_steps].
  unfold rv_step. cbn [rpc rm].
  destruct Ha as (Ha0 & Ha4 & _).
  replace ((a + c) mod 4 =? 0) with true by lia.
  specialize (Hc _ _ Hn).
  replace (a + 4 * Z.of_nat (Z.to_nat (c / 4))) with (a + c) in Hc by lia.
  rewrite Hc, He. exact Hs.
Qed.

Lemma pc_norm a n c d c' : arange a n -> c + d = c' -> 0 <= c' <= 4 * Z.of_nat n ->
  w32 (a + c + d) = a + c'.
Proof. unfold arange, w32; intros (? & ? & ?) <- ?. rewrite Z.mod_small; lia. Qed.

(** emission *)
Fixpoint encs (pos : Z) (fs : list (Z -> option Z)) (is : list rvinstr) : Prop :=
  match fs, is with
  | [], [] => True
  | f :: fs', i :: is' =>
      (exists w, f pos = Some w /\ rv_decode (w32 w) = Some i) /\ encs (pos + 4) fs' is'
  | _, _ => False
  end.

Lemma encs_emits fs : forall pos is, encs pos fs is ->
  exists ws, emits pos fs = Some ws /\ length ws = length is /\
    forall m a, words_at m a ws -> code_at m a is.
Proof.
  induction fs as [|f fs IH]; intros pos [|i is] H; cbn in H; try contradiction.
  - exists []. repeat split; auto. intros m a _ [|j] i E; discriminate.
  - destruct H as ((w & Ew & Ed) & H). destruct (IH _ _ H) as (ws & E & El & Ec).
    exists (w :: ws). cbn. rewrite Ew, E. repeat split; cbn; auto.
    intros m a [Hw Hr] [|j] i' Hn; cbn in Hn.
    + inversion Hn; subst. replace (a + 4 * Z.of_nat 0) with a by lia.
      rewrite Hw. exact Ed.
    + specialize (Ec _ _ Hr _ _ Hn).
      replace (a + 4 * Z.of_nat (S j)) with (a + 4 + 4 * Z.of_nat j) by lia. exact Ec.
Qed.

Lemma enc_asm i pos : rv_operands_ok i ->
  exists w, k (rv_asm i) pos = Some w /\ rv_decode (w32 w) = Some i.
Proof. apply rv_asm_ok. Qed.

Lemma enc_lui d v pos : reg5 d ->
  exists w, k (e_lui d (rv_hi v)) pos = Some w /\ rv_decode (w32 w) = Some (ILUI d (lui_val v)).
Proof. intros. apply e_lui_hi; assumption. Qed.

Lemma enc_jal d v pos o : reg5 d -> o = v - pos -> -1048576 <= o < 1048576 -> o mod 2 = 0 ->
  exists w, e_jal d (v - pos) = Some w /\ rv_decode (w32 w) = Some (IJAL d o).
Proof. intros Hd -> H1 H2. apply (rv_asm_ok (IJAL d (v - pos))). cbn. auto. Qed.

Ltac regs5 := unfold reg5, r_zero, r_ra, r_sp, r_gp, r_t0, r_t1, r_t2, r_t3, r_t4, r_t5,
  r_a0, r_a1, r_a2, r_a3, r_a4, r_a5, r_a6, r_a7 in *; lia.

Ltac enc1 :=
  lazymatch goal with
  | |- exists w, ?f ?pos = Some w /\ rv_decode (w32 w) = Some ?i =>
      first [ apply (enc_asm i pos); cbn [rv_operands_ok]; repeat split; regs5
            | apply enc_lui; regs5 ]
  end.
Ltac encs_tac := cbn [encs]; repeat split; try enc1.

(** register file *)
Lemma xset_same x r v : r <> 0 -> xset x r v r = w32 v.
Proof. intros. unfold xset. destruct (Z.eqb_spec r 0); [contradiction|]. rewrite Z.eqb_refl. reflexivity. Qed.
Lemma xset_zero x v : xset x 0 v = x.
Proof. reflexivity. Qed.
Lemma xset_other x r v q : q <> r -> xset x r v q = x q.
Proof. intros. unfold xset. destruct (r =? 0); [reflexivity|]. destruct (Z.eqb_spec q r); [contradiction|reflexivity]. Qed.

Ltac xsimp :=
  repeat first
    [ rewrite xset_same by regs5
    | rewrite xset_other by regs5 ].

(** registers a program can see: ra, sp, gp and a0..a7 *)
Definition visible (q : Z) : Prop := q = 1 \/ q = 2 \/ q = 3 \/ 10 <= q < 18.

Definition pres (x x' : Z -> Z) (rd : Z) : Prop :=
  forall q, visible q -> q <> rd -> x' q = x q.

Ltac stp :=
  first [eapply star_at | eapply plus_at]; [eassumption | eassumption | reflexivity | lia | reflexivity
                  | cbn [rv_exec rpc rx rm]; reflexivity | ];
  unfold rget; cbn [rpc rx rm];
  repeat match goal with
  | H : arange ?a ?n |- context [w32 (?a + ?c + ?d)] =>
      let c' := eval compute in (c + d) in
      rewrite (pc_norm a n c d c' H) by (cbn [length]; lia)
  end; rewrite ?xset_zero.
