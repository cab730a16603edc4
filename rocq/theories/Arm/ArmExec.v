(** Symbolic execution of decoded ARM code. *)
From Verif.Base Require Import Int32 Mem MemProofs Bits.
From Verif.Ir Require Import Ph2.
From Verif.Arm Require Import ArmISA ArmEnc ArmEncProofs ArmGen.

Definition code_at (m : mem) (a : Z) (is : list (cond * ainstr)) : Prop :=
  forall j i, nth_error is j = Some i -> arm_decode (ldw m (a + 4 * Z.of_nat j)) = Some i.

Definition arange (a : Z) (n : nat) : Prop :=
  0 <= a /\ a mod 4 = 0 /\ a + 4 * Z.of_nat n < 4294967296.

Definition arm_star (s s' : armstate) : Prop := exists n, arm_steps n s = Some s'.

Lemma arm_star_refl s : arm_star s s.
Proof. exists O; reflexivity. Qed.

Lemma arm_star_step s s1 s' : arm_step s = ANext s1 -> arm_star s1 s' -> arm_star s s'.
Proof. intros H [n Hn]. exists (S n). cbn. rewrite H. exact Hn. Qed.

Lemma arm_steps_app n1 n2 s s1 s2 :
  arm_steps n1 s = Some s1 -> arm_steps n2 s1 = Some s2 -> arm_steps (n1 + n2) s = Some s2.
Proof.
  revert s. induction n1; cbn; intros s H1 H2.
  - inversion H1; subst; assumption.
  - destruct (arm_step s); try discriminate. eauto.
Qed.

Lemma arm_star_trans s s1 s2 : arm_star s s1 -> arm_star s1 s2 -> arm_star s s2.
Proof. intros [n H] [n' H']. exists (n + n')%nat. eapply arm_steps_app; eauto. Qed.

Lemma step_at m a is c i x f :
  code_at m a is -> arange a (length is) ->
  nth_error is (Z.to_nat (c / 4)) = Some i -> 0 <= c -> c mod 4 = 0 ->
  arm_step (mkarm (a + c) x f m) = arm_exec i (mkarm (a + c) x f m).
Proof.
  intros Hc Ha Hn Hp Hm. unfold arm_step. cbn [apc am].
  destruct Ha as (Ha0 & Ha4 & _).
  replace ((a + c) mod 4 =? 0) with true by lia.
  specialize (Hc _ _ Hn).
  replace (a + 4 * Z.of_nat (Z.to_nat (c / 4))) with (a + c) in Hc by lia.
  rewrite Hc. reflexivity.
Qed.

Lemma star_at m a is c i x f s' S' :
  code_at m a is -> arange a (length is) ->
  nth_error is (Z.to_nat (c / 4)) = Some i -> 0 <= c -> c mod 4 = 0 ->
  arm_exec i (mkarm (a + c) x f m) = ANext s' ->
  arm_star s' S' -> arm_star (mkarm (a + c) x f m) S'.
Proof.
  intros Hc Ha Hn Hp Hm He Hs. eapply arm_star_step; [|exact Hs].
  rewrite (step_at _ _ _ _ _ _ _ Hc Ha Hn Hp Hm). exact He.
Qed.

(** at least one step *)
Definition arm_plus (s s' : armstate) : Prop := exists n, arm_steps (S n) s = Some s'.

Lemma plus_at m a is c i x f s' S' :
  code_at m a is -> arange a (length is) ->
  nth_error is (Z.to_nat (c / 4)) = Some i -> 0 <= c -> c mod 4 = 0 ->
  arm_exec i (mkarm (a + c) x f m) = ANext s' ->
  arm_star s' S' -> arm_plus (mkarm (a + c) x f m) S'.
Proof.
  intros Hc Ha Hn Hp Hm He [n Hs]. exists n. cbn [arm_steps].
  rewrite (step_at _ _ _ _ _ _ _ Hc Ha Hn Hp Hm), He. exact Hs.
Qed.

Lemma pc_norm a n c d c' : arange a n -> c + d = c' -> 0 <= c' <= 4 * Z.of_nat n ->
  w32 (a + c + d) = a + c'.
Proof. unfold arange, w32; intros (? & ? & ?) <- ?. rewrite Z.mod_small; lia. Qed.

(** * emission *)
Fixpoint encs (pos : Z) (fs : list (Z -> option Z)) (is : list (cond * ainstr)) : Prop :=
  match fs, is with
  | [], [] => True
  | f :: fs', i :: is' =>
      (exists w, f pos = Some w /\ arm_decode (w32 w) = Some i) /\ encs (pos + 4) fs' is'
  | _, _ => False
  end.

Lemma encs_emits fs : forall pos is, encs pos fs is ->
  exists ws, emits pos fs = Some ws /\ length ws = length is /\
    forall m a, words_at m a ws -> code_at m a is.
Proof.
  induction fs as [|f fs IH]; intros pos [|i is] H; cbn in H; try contradiction.
  - exists []. repeat split; auto. intros m a _ [|j] i E; discriminate.
  - destruct H as ((w & Ew & Ed) & H). destruct (IH _ _ H) as (ws & E & El & Ec).
    exists (w :: ws). cbn. rewrite Ew, E. repeat split; cbn; auto.
    intros m a [Hw Hr] [|j] i' Hn; cbn in Hn.
    + inversion Hn; subst. replace (a + 4 * Z.of_nat 0) with a by lia.
      rewrite Hw. exact Ed.
    + specialize (Ec _ _ Hr _ _ Hn).
      replace (a + 4 * Z.of_nat (S j)) with (a + 4 + 4 * Z.of_nat j) by lia. exact Ec.
Qed.

Ltac regs4 := unfold reg4, reg15, a_r0, a_r1, a_r2, a_r3, a_r4, a_r5, a_r6, a_r7, a_r8, a_r9,
  a_r10, a_r12, a_sp, a_lr, a_pc in *; lia.

(** * register file *)
Lemma aset_same x r v : aset x r v r = w32 v.
Proof. unfold aset. rewrite Z.eqb_refl. reflexivity. Qed.
Lemma aset_other x r v q : q <> r -> aset x r v q = x q.
Proof. intros. unfold aset. destruct (Z.eqb_spec q r); [contradiction|reflexivity]. Qed.
Lemma aset_cong x r v w : w32 v = w32 w -> aset x r v = aset x r w.
Proof. intros H. unfold aset. rewrite H. reflexivity. Qed.

Ltac xsimp :=
  repeat first
    [ rewrite aset_same
    | rewrite aset_other by regs4 ].

(** registers a program can see: r0..r7, r12 (globals), sp and lr *)
Definition visible (q : Z) : Prop := 0 <= q < 8 \/ q = 12 \/ q = 13 \/ q = 14.
Definition pres (x x' : Z -> Z) (rd : Z) : Prop :=
  forall q, visible q -> q <> rd -> x' q = x q.

(** * instructions *)
Definition xop (o : dpop) (a b : Z) : Z :=
  match o with
  | AND | TST => Z.land a b | EOR | TEQ => Z.lxor a b | ORR => Z.lor a b
  | BIC => Z.land a (notw b) | MOV => b | MVN => notw b
  | ADD | CMN => a + b | SUB | CMP => a - b | RSB => b - a
  end.

Lemma dp_eval_val o a b sc f : fst (dp_eval o a b sc f) = w32 (xop o a b).
Proof.
  destruct o; cbn [dp_eval xop fst add_c]; try reflexivity; unfold notw, w32;
    first [ f_equal; lia
          | replace (a + (4294967295 - b) + 1) with (a - b + 1 * 4294967296) by lia;
            apply Z_mod_plus_full
          | replace (4294967295 - a + b + 1) with (b - a + 1 * 4294967296) by lia;
            apply Z_mod_plus_full ].
Qed.

(** value of a second operand (registers below 15) *)
Definition yval (x : Z -> Z) (y : op2) : Z :=
  match y with
  | OImm b _ => b
  | OReg rm LSL 0 => x rm
  | OReg rm t n => fst (shift_c t (x rm) n false)
  | ORsr rm t rs => fst (shift_c t (x rm) (x rs mod 256) false)
  end.
Definition y_ok (y : op2) : Prop :=
  match y with
  | OImm b r => 0 <= b < 256 /\ r = 0
  | OReg rm _ _ => rm <> 15
  | ORsr rm _ rs => rm <> 15 /\ rs <> 15
  end.

Lemma shift_fst t v n c c' : fst (shift_c t v n c) = fst (shift_c t v n c').
Proof. unfold shift_c. destruct (n =? 0); [reflexivity|]. destruct t; reflexivity. Qed.

Lemma aget_reg pc x f m r : r <> 15 -> aget (mkarm pc x f m) r = x r.
Proof. intros. unfold aget. destruct (Z.eqb_spec r 15); [contradiction|reflexivity]. Qed.

Lemma yval_ok pc x f m y : y_ok y -> fst (op2_eval (mkarm pc x f m) y) = yval x y.
Proof.
  destruct y as [b r|rm t n|rm t rs]; cbn [y_ok op2_eval yval af].
  - intros [Hb ->]. cbn. unfold ror32. rewrite Z.div_1_r. change (2 ^ 32) with 4294967296.
    unfold w32. rewrite Z_mod_plus_full. apply Z.mod_small. lia.
  - intros H. rewrite aget_reg by assumption.
    destruct t; [|apply shift_fst..]. destruct n; [reflexivity|apply shift_fst..].
  - intros [H1 H2]. rewrite !aget_reg by assumption. apply shift_fst.
Qed.

Lemma ex_dp c o rd rn y pc x f m :
  cond_ok c f = true -> is_test o = false -> rd <> 15 -> rn <> 15 -> y_ok y ->
  arm_exec (c, ADp o false rd rn y) (mkarm pc x f m) =
  ANext (mkarm (w32 (pc + 4)) (aset x rd (xop o (x rn) (yval x y))) f m).
Proof.
  intros Hc Ht Hd Hn Hy. unfold arm_exec. cbn [fst snd af]. rewrite Hc. cbn [arm_exec1 apc ax am af].
  pose proof (yval_ok pc x f m y Hy) as Ey.
  destruct (op2_eval (mkarm pc x f m) y) as [b sc]. cbn [fst] in Ey. subst b.
  pose proof (dp_eval_val o (aget (mkarm pc x f m) rn) (yval x y) sc f) as Ev.
  destruct (dp_eval o _ _ sc f) as [r f']. cbn [fst] in Ev. subst r.
  rewrite Ht. destruct (Z.eqb_spec rd 15); [contradiction|].
  rewrite aget_reg by assumption. rewrite (aset_cong x rd (w32 _) _ (w32_idem _)). reflexivity.
Qed.

Lemma ex_skip c i pc x f m : cond_ok c f = false ->
  arm_exec (c, i) (mkarm pc x f m) = ANext (mkarm (w32 (pc + 4)) x f m).
Proof. intros H. unfold arm_exec. cbn [fst af]. rewrite H. reflexivity. Qed.

(** flags set by a comparison; unused flags are those of [f] *)
Definition cmpf (a b : Z) : flags :=
  mkfl (bit (w32 (a - b)) 31) (w32 (a - b) =? 0) (b <=? a)
       (negb (s32 (w32 (a - b)) =? s32 a - s32 b)).

Lemma ex_cmp c rd rn y pc x f m :
  cond_ok c f = true -> rn <> 15 -> y_ok y -> is_u32 (x rn) -> is_u32 (yval x y) ->
  arm_exec (c, ADp CMP true rd rn y) (mkarm pc x f m) =
  ANext (mkarm (w32 (pc + 4)) x (cmpf (x rn) (yval x y)) m).
Proof.
  intros Hc Hn Hy Ua Ub. unfold arm_exec. cbn [fst snd af]. rewrite Hc. cbn [arm_exec1 apc ax am af].
  pose proof (yval_ok pc x f m y Hy) as Ey.
  destruct (op2_eval (mkarm pc x f m) y) as [b sc]. cbn [fst] in Ey. subst b.
  rewrite aget_reg by assumption. cbn [is_test]. cbv [dp_eval add_c]. unfold cmpf.
  set (a := x rn) in *. set (b := yval x y) in *.
  assert (w32 (a + notw b + 1) = w32 (a - b)) as E.
  { apply w32_cong. exists 1. unfold notw. lia. }
  rewrite E. do 3 f_equal.
  - unfold notw, w32, is_u32 in *. lia.
  - do 2 f_equal.
    assert (s32 (notw b) = -1 - s32 b) as ->; [|lia].
    unfold notw. destruct (s32_cases b Ub) as [[]|[]],
      (s32_cases (4294967295 - b)) as [[]|[]]; unfold is_u32 in *; lia.
Qed.

Section Cmp.
  Variables a b : Z.
  Hypothesis Ha : is_u32 a.
  Hypothesis Hb : is_u32 b.
  Lemma cmpf_Z : fZ (cmpf a b) = (a =? b).
  Proof. cbn. unfold w32, is_u32 in *. lia. Qed.
  Lemma cmpf_EQ : cond_ok EQ (cmpf a b) = (a =? b). Proof. apply cmpf_Z. Qed.
  Lemma cmpf_NE : cond_ok NE (cmpf a b) = negb (a =? b).
  Proof. cbn [cond_ok]. rewrite cmpf_Z. reflexivity. Qed.
  Lemma cmpf_CS : cond_ok CS (cmpf a b) = (b <=? a). Proof. reflexivity. Qed.
  Lemma cmpf_CC : cond_ok CC (cmpf a b) = (a <? b). Proof. cbn. lia. Qed.
  Lemma cmpf_LT : cond_ok LT (cmpf a b) = (s32 a <? s32 b).
  Proof.
    cbn [cond_ok cmpf fN fV]. rewrite (bitE _ 31 2147483648) by reflexivity.
    pose proof (w32_range (a - b)) as Hr.
    assert (w32 (a - b) = a - b \/ w32 (a - b) = a - b + 4294967296) as Hw
      by (unfold w32, is_u32 in *; lia).
    destruct (s32_cases a Ha) as [[? Ea]|[? Ea]], (s32_cases b Hb) as [[? Eb]|[? Eb]],
      (s32_cases _ Hr) as [[? Er]|[? Er]]; rewrite Ea, Eb, Er; unfold is_u32 in *;
      destruct (Z.eqb_spec (w32 (a - b) / 2147483648 mod 2) 1);
      match goal with |- context [?u =? ?v] => destruct (Z.eqb_spec u v) end; cbn; lia.
  Qed.
  Lemma cmpf_GE : cond_ok GE (cmpf a b) = (s32 b <=? s32 a).
  Proof. pose proof cmpf_LT as H. cbn [cond_ok] in *. destruct (eqb _ _); cbn in H; lia. Qed.
  Lemma s32_eqb : (s32 a =? s32 b) = (a =? b).
  Proof. destruct (s32_cases a Ha) as [[]|[]], (s32_cases b Hb) as [[]|[]]; unfold is_u32 in *; lia. Qed.
  Lemma cmpf_GT : cond_ok GT (cmpf a b) = (s32 b <? s32 a).
  Proof.
    pose proof cmpf_GE as H. pose proof s32_eqb. cbn [cond_ok] in *. rewrite H, cmpf_Z. lia.
  Qed.
  Lemma cmpf_LE : cond_ok LE (cmpf a b) = (s32 a <=? s32 b).
  Proof. pose proof cmpf_GT as H. cbn [cond_ok] in *. rewrite H. lia. Qed.
End Cmp.

Lemma ex_teq rd rn pc x f m :
  rn <> 15 -> is_u32 (x rn) ->
  exists f', arm_exec (AL, ADp TEQ true rd rn (OImm 0 0)) (mkarm pc x f m) =
  ANext (mkarm (w32 (pc + 4)) x f' m) /\ fZ f' = (x rn =? 0).
Proof.
  intros Hn Hu. unfold arm_exec. cbn [fst snd af cond_ok]. cbn [arm_exec1 apc ax am af].
  pose proof (yval_ok pc x f m (OImm 0 0) ltac:(cbn; lia)) as Ey.
  destruct (op2_eval (mkarm pc x f m) (OImm 0 0)) as [b sc]. cbn [fst yval] in Ey. subst b.
  rewrite aget_reg by assumption. cbn [is_test]. cbv [dp_eval].
  eexists. split; [reflexivity|]. cbn [fZ]. rewrite Z.lxor_0_r, w32_id by assumption. reflexivity.
Qed.

(** movs r, r, lsr #1 *)
Lemma ex_movs_lsr1 r pc x f m : r <> 15 -> is_u32 (x r) ->
  exists f', arm_exec (AL, ADp MOV true r 0 (OReg r LSR 1)) (mkarm pc x f m) =
  ANext (mkarm (w32 (pc + 4)) (aset x r (x r / 2)) f' m) /\ fC f' = (x r mod 2 =? 1).
Proof.
  intros Hn Hu. unfold arm_exec. cbn [fst snd af cond_ok]. cbn [arm_exec1 apc ax am af].
  cbn [op2_eval af]. rewrite aget_reg by assumption. unfold shift_c. change (1 =? 0) with false.
  cbv iota. cbv [dp_eval is_test]. destruct (Z.eqb_spec r 15); [contradiction|].
  eexists. split.
  - rewrite (aset_cong x r (w32 (x r / 2 ^ 1)) (x r / 2)); [reflexivity|]. apply w32_idem.
  - cbn [fC]. unfold bit. change (2 ^ (1 - 1)) with 1. rewrite Z.div_1_r. reflexivity.
Qed.

Lemma ex_movw rd v pc x f m :
  arm_exec (AL, AMovw rd v) (mkarm pc x f m) = ANext (mkarm (w32 (pc + 4)) (aset x rd v) f m).
Proof. reflexivity. Qed.
Lemma ex_movt rd v pc x f m :
  arm_exec (AL, AMovt rd v) (mkarm pc x f m) =
  ANext (mkarm (w32 (pc + 4)) (aset x rd (v * 65536 + x rd mod 65536)) f m).
Proof. reflexivity. Qed.
Lemma ex_mul rd rn rm pc x f m :
  arm_exec (AL, AMul rd rn rm) (mkarm pc x f m) =
  ANext (mkarm (w32 (pc + 4)) (aset x rd (x rn * x rm)) f m).
Proof. reflexivity. Qed.
Lemma ex_sdiv rd rn rm pc x f m :
  arm_exec (AL, ASdiv rd rn rm) (mkarm pc x f m) =
  ANext (mkarm (w32 (pc + 4)) (aset x rd (if x rm =? 0 then 0 else Z.quot (s32 (x rn)) (s32 (x rm)))) f m).
Proof. reflexivity. Qed.
Lemma ex_ldr b rt rn o pc x f m : rn <> 15 ->
  arm_exec (AL, ALdr b rt rn o) (mkarm pc x f m) =
  ANext (mkarm (w32 (pc + 4)) (aset x rt (if b then ldb m (x rn + o) else ldw m (x rn + o))) f m).
Proof. intros. unfold arm_exec. cbn [fst snd af cond_ok arm_exec1 apc ax am]. rewrite aget_reg by assumption. reflexivity. Qed.
Lemma ex_str b rt rn o pc x f m : rn <> 15 ->
  arm_exec (AL, AStr b rt rn o) (mkarm pc x f m) =
  ANext (mkarm (w32 (pc + 4)) x f (if b then stb m (x rn + o) (x rt) else stw m (x rn + o) (x rt))).
Proof. intros. unfold arm_exec. cbn [fst snd af cond_ok arm_exec1 apc ax am]. rewrite aget_reg by assumption. reflexivity. Qed.
Lemma ex_b c o pc x f m : cond_ok c f = true ->
  arm_exec (c, AB o) (mkarm pc x f m) = ANext (mkarm (w32 (pc + (8 + o))) x f m).
Proof. intros H. unfold arm_exec. cbn [fst snd af]. rewrite H. cbn [arm_exec1 apc ax am af]. rewrite Z.add_assoc. reflexivity. Qed.
Lemma ex_bl o pc x f m :
  arm_exec (AL, ABl o) (mkarm pc x f m) =
  ANext (mkarm (w32 (pc + (8 + o))) (aset x 14 (w32 (pc + 4))) f m).
Proof. unfold arm_exec. cbn [fst snd af cond_ok arm_exec1 apc ax am]. rewrite Z.add_assoc. reflexivity. Qed.
Lemma ex_blx rm pc x f m : x rm mod 4 = 0 ->
  arm_exec (AL, ABlx rm) (mkarm pc x f m) =
  ANext (mkarm (x rm) (aset x 14 (w32 (pc + 4))) f m).
Proof. intros H. cbn. unfold bx. rewrite H. reflexivity. Qed.

Lemma movw_movt v : w32 (v / 65536 mod 65536 * 65536 + w32 (v mod 65536) mod 65536) = w32 v.
Proof. unfold w32. lia. Qed.

Ltac side := first [ assumption | reflexivity | regs4 | (cbn [y_ok]; regs4) | (cbn [y_ok]; split; regs4) ].
Ltac exe := idtac;
  lazymatch goal with
  | |- arm_exec (_, ADp CMP true _ _ _) _ = _ => apply ex_cmp; [side|side|side| |]
  | |- arm_exec (_, ADp _ false _ _ _) _ = _ => apply ex_dp; side
  | |- arm_exec (_, AMovw _ _) _ = _ => apply ex_movw
  | |- arm_exec (_, AMovt _ _) _ = _ => apply ex_movt
  | |- arm_exec (_, AMul _ _ _) _ = _ => apply ex_mul
  | |- arm_exec (_, ASdiv _ _ _) _ = _ => apply ex_sdiv
  | |- arm_exec (_, ALdr _ _ _ _) _ = _ => apply ex_ldr; side
  | |- arm_exec (_, AStr _ _ _ _) _ = _ => apply ex_str; side
  | |- arm_exec (_, AB _) _ = _ => apply ex_b; side
  end.
Ltac pcs :=
  repeat match goal with
  | H : arange ?a ?n |- context [w32 (?a + ?c + ?d)] =>
      let c' := eval compute in (c + d) in
      rewrite (pc_norm a n c d c' H) by (cbn [length]; lia)
  end.
Ltac stp_with t :=
  first [eapply star_at | eapply plus_at]; [eassumption | eassumption | reflexivity | lia | reflexivity | t | ];
  [.. | pcs; cbn [xop yval]].
Ltac stp := stp_with exe.
Ltac skp := first [eapply star_at | eapply plus_at];
  [eassumption | eassumption | reflexivity | lia | reflexivity | apply ex_skip | ]; [.. | pcs].
