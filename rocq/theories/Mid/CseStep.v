(** One replacement of common subexpression elimination keeps every execution. *)
From Verif.Base Require Import Int32.
From Verif.Ir Require Import Ph2Sem.
From Verif.Mid Require Import Insn Edges EdgesProofs Graph Dom DceSpec FoldSpec FoldProofs CfgProofs LiveSpec Cse CseSpec.

Definition keep (i k : nat) : bool := negb (Nat.eqb k i).
Lemma keep_In i k l : In k (filter (keep i) l) <-> In k l /\ k <> i.
Proof. rewrite filter_In. unfold keep. destruct (Nat.eqb_spec k i); cbn; intuition congruence. Qed.
Lemma filter_none i l : ~ In i l -> filter (keep i) l = l.
Proof.
  induction l as [|x l IH]; intros N; cbn; [reflexivity|]. unfold keep at 1. destruct (Nat.eqb_spec x i) as [->|M]; [destruct N; left; reflexivity|].
  cbn. rewrite IH; [reflexivity|]. intros Q. apply N. right. exact Q.
Qed.
Lemma filter_split i : forall l a k b, filter (keep i) l = a ++ k :: b -> exists l1 l2, l = l1 ++ k :: l2 /\ filter (keep i) l1 = a /\ filter (keep i) l2 = b.
Proof.
  induction l as [|x l IH]; intros a k b E; cbn in E; [destruct a; discriminate|].
  destruct (keep i x) eqn:Kx.
  - destruct a as [|y a]; cbn in E; injection E as -> E.
    + exists [], l. auto.
    + destruct (IH _ _ _ E) as (l1 & l2 & -> & <- & Q). exists (y :: l1), l2. cbn. rewrite Kx. auto.
  - destruct (IH _ _ _ E) as (l1 & l2 & -> & <- & Q). exists (x :: l1), l2. cbn. rewrite Kx. auto.
Qed.
Lemma flat_map_filter i (code : nat -> list nat) l : flat_map (fun b => filter (keep i) (code b)) l = filter (keep i) (flat_map code l).
Proof. induction l as [|x l IH]; cbn; [reflexivity|]. rewrite IH, filter_app. reflexivity. Qed.
Lemma last_split (r : nat) : forall t, In r t -> exists t1 t2, t = t1 ++ r :: t2 /\ ~ In r t2.
Proof.
  induction t as [|x t IH]; intros I; [destruct I|]. destruct (in_dec Nat.eq_dec r t) as [J|J].
  - destruct (IH J) as (t1 & t2 & -> & N). exists (x :: t1), t2. auto.
  - destruct I as [->|I]; [|contradiction]. exists [], t. auto.
Qed.
Lemma snoc_split {A} (t : list A) k t1 r t2 : t ++ [k] = t1 ++ r :: t2 -> (t2 = [] /\ t = t1 /\ k = r) \/ exists t3, t2 = t3 ++ [k] /\ t = t1 ++ r :: t3.
Proof.
  intros E. destruct (exists_last (l := r :: t2)) as (q & y & Eq); [discriminate|]. rewrite Eq, app_assoc in E.
  apply app_inj_tail in E as [E ->]. destruct q as [|z q]; cbn in Eq; injection Eq as <- ->; [left|right].
  - rewrite app_nil_r in E. auto.
  - exists q. auto.
Qed.
Lemma nodup_split {A} (l1 : list A) x l2 m1 m2 : NoDup (l1 ++ x :: l2) -> l1 ++ x :: l2 = m1 ++ x :: m2 -> l1 = m1 /\ l2 = m2.
Proof.
  revert m1. induction l1 as [|y l1 IH]; intros [|z m1] ND E; cbn in *.
  - injection E as ->. auto.
  - injection E as -> E. inversion ND as [|? ? N _]; subst. destruct N. apply in_or_app. right. left. reflexivity.
  - injection E as -> E. inversion ND as [|? ? N _]; subst. destruct N. apply in_or_app. right. left. reflexivity.
  - injection E as -> E. inversion ND as [|? ? N ND']; subst. destruct (IH m1 ND' E) as [-> ->]. auto.
Qed.

Section Next.
  Variable own : nat -> nat.
  Variable code : nat -> list nat.
  Hypothesis Ho : forall b i, In i (code b) -> own i = b.
  Hypothesis ND : forall b, NoDup (code b).
  Lemma own_in b c k : In k (code b) -> In k (code c) -> b = c.
  Proof. intros A B. rewrite <- (Ho b k A). apply (Ho c k B). Qed.
  (* R is right after P, N right after I *)
  Lemma next_to a n b c k1 k2 l1 l2 : code b = k1 ++ a :: n :: k2 -> code c = l1 ++ n :: l2 -> c = b /\ l1 = k1 ++ [a] /\ l2 = k2.
  Proof.
    intros Eb Ec. assert (c = b).
    { apply (own_in c b n); [rewrite Ec|rewrite Eb]; apply in_or_app; right; cbn; tauto. }
    subst c. assert (E : l1 ++ n :: l2 = (k1 ++ [a]) ++ n :: k2) by (rewrite <- app_assoc; cbn; congruence).
    pose proof (ND b) as Nb. rewrite Ec in Nb. destruct (nodup_split _ _ _ _ _ Nb E) as [-> ->]. auto.
  Qed.
  Lemma next_to' a n b c k1 k2 l1 l2 : code b = k1 ++ a :: n :: k2 -> code c = l1 ++ a :: l2 -> c = b /\ l1 = k1 /\ l2 = n :: k2.
  Proof.
    intros Eb Ec. assert (c = b).
    { apply (own_in c b a); [rewrite Ec|rewrite Eb]; apply in_or_app; right; cbn; tauto. }
    subst c. rewrite Ec in Eb. pose proof (ND b) as Nb. rewrite Ec in Nb. destruct (nodup_split _ _ _ _ _ Nb Eb) as [-> ->]. auto.
  Qed.
End Next.

Section Step.
  Variable ins : nat -> insn.
  Variable own : nat -> nat.
  Variable code : nat -> list nat.
  Variable g : egraph.
  Variables entry exit : nat.
  Variables is_global in_memory : nat -> bool.
  Variable init : nat -> Z.
  Hypothesis F : function_ok ins own code g entry exit is_global in_memory.
  Hypothesis ND : forall b, NoDup (code b).
  Let live b := reach (succs (to_cfg g)) entry b.
  Variables P R I N base idx def tv u : nat.
  Hypothesis NPI : P <> I.
  Hypothesis SP : sum_read ins code (to_cfg g) entry is_global P R base idx.
  Hypothesis SI : sum_read ins code (to_cfg g) entry is_global I N base idx.
  Hypothesis RdP : i_rd (ins P) = Some tv.
  Hypothesis RsR : i_rs1 (ins R) = Some tv /\ i_rs2 (ins R) = None.
  Hypothesis RdR : i_rd (ins R) = Some def.
  Hypothesis RdI : i_rd (ins I) = Some u.
  Hypothesis RsN : i_rs1 (ins N) = Some u /\ i_rs2 (ins N) = None.
  Hypothesis Only : forall c k, live c -> In k (code c) -> reads (ins k) u -> k = N.
  Hypothesis Lu : is_global u = false /\ in_memory u = false.
  Hypothesis Ldef : is_global def = false.
  Hypothesis Av : forall t, way_to code (to_cfg g) entry I t -> exists t1 t2, t = t1 ++ R :: t2 /\ forall k, In k (P :: R :: t2) -> quiet ins in_memory base idx k.
  Definition ins' : nat -> insn := upd ins N (mkinsn OP_assign (i_rd (ins N)) (Some def) (i_rs2 (ins N))).
  Definition code' : nat -> list nat := fun b => filter (keep I) (code b).
  Context {world : Type}.
  Variable truth : Z -> bool.
  Variable get : world -> nat -> Z.
  Variable put : world -> nat -> Z -> world.
  Variable effect : nat -> option Z -> option Z -> world -> world.
  Variable other : nat -> option Z -> option Z -> world -> Z.
  Hypothesis Alike : forall x w, other R (Some x) None w = other N (Some x) None w.
  Let val := value (val := Z) (world := world) get in_memory.
  Let step1 := step get put effect (computes other ins init) in_memory ins.
  Let step2 := step get put effect (computes other ins' init) in_memory ins'.

  Lemma sp_parts : exists b l1 l2, live b /\ code b = l1 ++ P :: R :: l2.
  Proof. destruct SP as (b & l1 & l2 & L & E & _). exists b, l1, l2. auto. Qed.
  Lemma si_parts : exists b l1 l2, live b /\ code b = l1 ++ I :: N :: l2.
  Proof. destruct SI as (b & l1 & l2 & L & E & _). exists b, l1, l2. auto. Qed.
  Lemma opP : i_op (ins P) = OP_add. Proof. destruct SP as (b & l1 & l2 & H). tauto. Qed.
  Lemma opR : i_op (ins R) = OP_read. Proof. destruct SP as (b & l1 & l2 & H). tauto. Qed.
  Lemma opI : i_op (ins I) = OP_add. Proof. destruct SI as (b & l1 & l2 & H). tauto. Qed.
  Lemma opN : i_op (ins N) = OP_read. Proof. destruct SI as (b & l1 & l2 & H). tauto. Qed.
  Lemma rsP : i_rs1 (ins P) = Some base /\ i_rs2 (ins P) = Some idx. Proof. destruct SP as (b & l1 & l2 & H). tauto. Qed.
  Lemma rsI : i_rs1 (ins I) = Some base /\ i_rs2 (ins I) = Some idx. Proof. destruct SI as (b & l1 & l2 & H). tauto. Qed.
  Lemma hereR : exists b, live b /\ In R (code b).
  Proof. destruct sp_parts as (b & l1 & l2 & L & E). exists b. split; [exact L|]. rewrite E. apply in_or_app. right. right. left. reflexivity. Qed.
  Lemma NRI : R <> I. Proof. intros Q. pose proof opR. pose proof opI. congruence. Qed.
  Lemma NNI : N <> I. Proof. intros Q. pose proof opN. pose proof opI. congruence. Qed.
  Lemma one_reader k v b : live b -> In k (code b) -> i_rd (ins k) = Some v -> (v = def -> k = R) /\ (v = u -> k = I).
  Proof.
    intros L Ik Rk. split; intros ->.
    - destruct hereR as (c & Lc & Ic). destruct (f_single _ _ _ _ _ _ _ _ F b c k R def L Lc Ik Ic Rk RdR Ldef) as [Q|[_ Q]]; [exact Q|].
      rewrite opR in Q. discriminate.
    - destruct si_parts as (c & l1 & l2 & Lc & E). assert (Ic : In I (code c)) by (rewrite E; apply in_or_app; right; left; reflexivity).
      destruct (f_single _ _ _ _ _ _ _ _ F b c k I u L Lc Ik Ic Rk RdI (proj1 Lu)) as [Q|[_ Q]]; [exact Q|]. rewrite opI in Q. discriminate.
  Qed.
  Lemma def_u : def <> u.
  Proof. intros Q. destruct hereR as (c & Lc & Ic). apply NRI. exact (proj2 (one_reader R def c Lc Ic RdR) Q). Qed.

  Definition sum (st : state (val := Z) (world := world)) : Z := computes other ins init I (Some (val st base)) (Some (val st idx)) (snd st).
  Lemma sum_is st : sum st = s32 (val st base + val st idx).
  Proof. unfold sum, computes. rewrite opI. reflexivity. Qed.
  Lemma step_quiet k st : quiet ins in_memory base idx k -> snd (step1 k st) = snd st /\ sum (step1 k st) = sum st /\
    (forall v, i_rd (ins k) <> Some v -> fst (step1 k st) v = fst st v).
  Proof.
    intros [Q1 Q2]. rewrite !sum_is. unfold step1, step. rewrite Q1. destruct (i_rd (ins k)) as [d|]; [|auto].
    destruct (Q2 d eq_refl) as (M & Nb & Ni). rewrite M. cbn [snd fst]. split; [reflexivity|]. unfold val, value. cbn [fst snd].
    assert (X : forall v, v <> d -> upd (fst st) d (computes other ins init k (option_map (fun v => if in_memory v then get (snd st) v else fst st v) (i_rs1 (ins k)))
      (option_map (fun v => if in_memory v then get (snd st) v else fst st v) (i_rs2 (ins k))) (snd st)) v = fst st v) by (intros v Nv; apply upd_other; exact Nv).
    split.
    - rewrite !X by congruence. reflexivity.
    - intros v Nv. apply upd_other. congruence.
  Qed.
  Definition good (t : list nat) (st : state (val := Z) (world := world)) : Prop :=
    (forall t1 t2, t = t1 ++ R :: t2 -> (forall k, In k (P :: R :: t2) -> quiet ins in_memory base idx k) -> fst st def = other R (Some (sum st)) None (snd st)) /\
    (forall t1, t = t1 ++ [P] -> quiet ins in_memory base idx P -> fst st tv = sum st).
  Lemma good_step b k l1 l2 t st : live b -> code b = l1 ++ k :: l2 -> good (t ++ l1) st -> good (t ++ l1 ++ [k]) (step1 k st).
  Proof.
    intros L Ec [G1 G2]. assert (Ik : In k (code b)) by (rewrite Ec; apply in_or_app; right; left; reflexivity).
    rewrite app_assoc. split.
    - intros t1 t2 E Q. destruct (Nat.eq_dec k R) as [->|Nk].
      + (* R itself: P came right before *)
        destruct sp_parts as (c & k1 & k2 & Lc & Ec2). destruct (next_to own code (f_own _ _ _ _ _ _ _ _ F) ND _ _ _ _ _ _ _ _ Ec2 Ec) as (-> & -> & ->).
        assert (QP : quiet ins in_memory base idx P) by (apply Q; left; reflexivity).
        assert (QR : quiet ins in_memory base idx R) by (apply Q; right; left; reflexivity).
        pose proof (G2 (t ++ k1) (app_assoc _ _ _) QP) as T.
        destruct (step_quiet R st QR) as (W & S & _). rewrite W, S. unfold step1, step. rewrite opR, RdR. cbn [has_effect].
        destruct QR as [_ QR]. destruct (QR def RdR) as (M & _ & _). rewrite M. cbn [fst]. rewrite upd_same.
        destruct RsR as [-> ->]. cbn [option_map]. unfold computes. rewrite opR.
        destruct QP as [_ QP]. destruct (QP tv RdP) as (Mt & _ & _). unfold value. rewrite Mt, T. reflexivity.
      + destruct (snoc_split _ _ _ _ _ E) as [(_ & _ & ->)|(t3 & -> & E3)]; [congruence|].
        assert (Qk : quiet ins in_memory base idx k) by (apply Q; right; right; apply in_or_app; right; left; reflexivity).
        destruct (step_quiet k st Qk) as (W & S & V). rewrite W, S, V.
        * apply (G1 t1 t3 E3). intros j J. apply Q. destruct J as [J|[J|J]]; [left; exact J|right; left; exact J|right; right; apply in_or_app; left; exact J].
        * intros Rk. apply Nk. exact (proj1 (one_reader k def b L Ik Rk) eq_refl).
    - intros t1 E Q. apply app_inj_tail in E as [_ ->]. destruct (step_quiet P st Q) as (W & S & _). rewrite S.
      unfold step1, step. rewrite opP, RdP. cbn [has_effect]. destruct Q as [_ Q]. destruct (Q tv RdP) as (M & _ & _). rewrite M. cbn [fst]. rewrite upd_same.
      destruct rsP as [-> ->]. cbn [option_map]. rewrite sum_is. unfold computes. rewrite opP. reflexivity.
  Qed.
  Lemma good_steps b t : live b -> forall l2 l1 l3 st, code b = l1 ++ l2 ++ l3 -> good (t ++ l1) st ->
    good (t ++ l1 ++ l2) (fold_left (fun st k => step1 k st) l2 st).
  Proof.
    intros L. induction l2 as [|k l2 IH]; intros l1 l3 st Ec G; cbn [fold_left]; [rewrite app_nil_r; exact G|].
    replace (t ++ l1 ++ k :: l2) with (t ++ (l1 ++ [k]) ++ l2) by (rewrite <- app_assoc; reflexivity).
    apply (IH (l1 ++ [k]) l3); [rewrite <- app_assoc; exact Ec|]. apply (good_step b k l1 (l2 ++ l3)); assumption.
  Qed.

  Definition agree (s1 s2 : state (val := Z) (world := world)) : Prop := snd s1 = snd s2 /\ forall v, v <> u -> fst s1 v = fst s2 v.
  Lemma agree_val s1 s2 v : agree s1 s2 -> v <> u -> val s1 v = val s2 v.
  Proof. intros [A B] Nv. unfold val, value. rewrite A, (B v Nv). reflexivity. Qed.
  Lemma agree_step k s1 s2 : k <> N -> (forall v, reads (ins k) v -> v <> u) -> agree s1 s2 -> agree (step1 k s1) (step2 k s2).
  Proof.
    intros Nk Rk A. unfold step1, step2, step, ins'. rewrite (upd_other _ _ _ _ Nk).
    assert (E1 : option_map (value get in_memory s1) (i_rs1 (ins k)) = option_map (value get in_memory s2) (i_rs1 (ins k))).
    { destruct (i_rs1 (ins k)) as [v|] eqn:Q; [|reflexivity]. cbn. f_equal. apply (agree_val s1 s2 v A). apply Rk. left. exact Q. }
    assert (E2 : option_map (value get in_memory s1) (i_rs2 (ins k)) = option_map (value get in_memory s2) (i_rs2 (ins k))).
    { destruct (i_rs2 (ins k)) as [v|] eqn:Q; [|reflexivity]. cbn. f_equal. apply (agree_val s1 s2 v A). apply Rk. right. exact Q. }
    rewrite E1, E2. destruct A as [Aw Av']. rewrite Aw.
    assert (X : forall a b w, computes other (upd ins N (mkinsn OP_assign (i_rd (ins N)) (Some def) (i_rs2 (ins N)))) init k a b w = computes other ins init k a b w).
    { intros a b w. unfold computes. rewrite (upd_other _ _ _ _ Nk). reflexivity. }
    destruct (i_rd (ins k)) as [d|]; [rewrite X; destruct (in_memory d)|]; (split; cbn [snd fst]; [reflexivity|]); try assumption.
    intros v Nv. unfold upd. destruct (Nat.eqb v d); [reflexivity|apply Av'; exact Nv].
  Qed.
  Lemma agree_steps l : forall s1 s2, (forall k, In k l -> k <> N /\ forall v, reads (ins k) v -> v <> u) -> ~ In I l -> agree s1 s2 ->
    agree (fold_left (fun st k => step1 k st) l s1) (fold_left (fun st k => step2 k st) (filter (keep I) l) s2).
  Proof.
    induction l as [|k l IH]; intros s1 s2 H NI A; cbn [fold_left filter]; [exact A|].
    unfold keep at 1. destruct (Nat.eqb_spec k I) as [Q|Q]; [destruct NI; left; exact Q|]. cbn [negb fold_left].
    apply IH; [intros j J; apply H; right; exact J|intros J; apply NI; right; exact J|].
    destruct (H k (or_introl eq_refl)). apply agree_step; assumption.
  Qed.
  (* the addition and the reading on one side, the copy on the other *)
  Lemma agree_pair t s1 s2 : way_to code (to_cfg g) entry I t -> good t s1 -> agree s1 s2 -> agree (step1 N (step1 I s1)) (step2 N s2).
  Proof.
    intros W [G _] A. destruct (Av t W) as (t1 & t2 & E & Q). pose proof (G t1 t2 E Q) as D.
    assert (MR : in_memory def = false) by (destruct (Q R (or_intror (or_introl eq_refl))) as [_ Q2]; apply (Q2 def RdR)).
    unfold step1 at 2. unfold step at 1. rewrite opI, RdI. cbn [has_effect]. rewrite (proj2 Lu). destruct rsI as [-> ->]. cbn [option_map].
    change (computes other ins init I (Some (value get in_memory s1 base)) (Some (value get in_memory s1 idx)) (snd s1)) with (sum s1).
    unfold step1, step2, step. unfold ins'. rewrite upd_same. cbn [i_op i_rd i_rs1 i_rs2 has_effect]. rewrite opN. cbn [has_effect].
    destruct RsN as [-> ->]. cbn [option_map snd].
    assert (V1 : value get in_memory (upd (fst s1) u (sum s1), snd s1) u = sum s1) by (unfold value; rewrite (proj2 Lu); cbn [fst]; apply upd_same).
    rewrite V1. destruct A as [Aw Av']. rewrite <- Aw.
    assert (V2 : value get in_memory s2 def = other N (Some (sum s1)) None (snd s1)).
    { unfold value. rewrite MR, <- (Av' def def_u), D. apply Alike. }
    rewrite V2. cbn [fst].
    assert (U : forall v, v <> u -> upd (fst s1) u (sum s1) v = fst s2 v) by (intros v Nv; rewrite upd_other by exact Nv; apply Av'; exact Nv).
    destruct (i_rd (ins N)) as [d|] eqn:RdN.
    - unfold computes. rewrite upd_same, opN. cbn [i_op i_rd]. destruct (in_memory d); (split; cbn [fst snd]; [reflexivity|]).
      + exact U.
      + intros v Nv. unfold upd at 1 3. destruct (Nat.eqb v d); [reflexivity|apply U; exact Nv].
    - split; cbn [fst snd]; [reflexivity|exact U].
  Qed.
  Lemma reads_not_u b k : live b -> In k (code b) -> k <> N -> forall v, reads (ins k) v -> v <> u.
  Proof. intros L Ik Nk v Rv ->. apply Nk. exact (Only b k L Ik Rv). Qed.
  Lemma block_agree b l s1 s2 : live b -> walk (succs (to_cfg g)) entry (l ++ [b]) b -> good (flat_map code l) s1 -> agree s1 s2 ->
    good (flat_map code (l ++ [b])) (steps get put effect (computes other ins init) in_memory ins (code b) s1) /\
    agree (steps get put effect (computes other ins init) in_memory ins (code b) s1) (steps get put effect (computes other ins' init) in_memory ins' (code' b) s2).
  Proof.
    intros L W G A. split.
    - rewrite flat_map_app. cbn [flat_map]. rewrite app_nil_r.
      pose proof (good_steps b (flat_map code l) L (code b) [] [] s1) as H. cbn [app] in H. apply H; rewrite ?app_nil_r; [reflexivity|exact G].
    - unfold steps, code'. change (fun st i => step get put effect (computes other ins init) in_memory ins i st) with (fun st i => step1 i st).
      change (fun st i => step get put effect (computes other ins' init) in_memory ins' i st) with (fun st i => step2 i st).
      destruct si_parts as (c & k1 & k2 & Lc & Ec). destruct (Nat.eq_dec b c) as [->|Nb].
      + pose proof (ND c) as Nd. rewrite Ec in Nd.
        assert (N1 : ~ In I k1 /\ ~ In N k1 /\ ~ In I k2 /\ ~ In N k2).
        { pose proof (NoDup_remove_2 _ _ _ Nd) as X1. change (k1 ++ I :: N :: k2) with (k1 ++ [I] ++ N :: k2) in Nd. rewrite app_assoc in Nd.
          pose proof (NoDup_remove_2 _ _ _ Nd) as X2. rewrite !in_app_iff in X1. rewrite !in_app_iff in X2. cbn [In] in X1, X2. tauto. }
        destruct N1 as (N1 & N2 & N3 & N4).
        assert (KI : keep I I = false) by (unfold keep; rewrite Nat.eqb_refl; reflexivity).
        assert (KN : keep I N = true) by (unfold keep; destruct (Nat.eqb_spec N I) as [Q|Q]; [destruct (NNI Q)|reflexivity]).
        rewrite Ec, filter_app. cbn [filter]. rewrite KI, KN, !fold_left_app. cbn [fold_left].
        apply agree_steps; [| exact N3|].
        * intros k J. assert (k <> N) by (intros ->; contradiction). split; [assumption|]. apply (reads_not_u c); try assumption.
          rewrite Ec. apply in_or_app. right. right. right. exact J.
        * apply (agree_pair (flat_map code l ++ k1)).
          -- exists c, k1, (N :: k2), l. auto.
          -- apply (good_steps c (flat_map code l) Lc k1 [] (I :: N :: k2) s1); [exact Ec|rewrite app_nil_r; exact G].
          -- apply agree_steps; [|exact N1|exact A]. intros k J. assert (k <> N) by (intros ->; contradiction). split; [assumption|].
             apply (reads_not_u c); try assumption. rewrite Ec. apply in_or_app. left. exact J.
      + assert (NIb : forall k, k = I \/ k = N -> ~ In k (code b)).
        { intros k Q J. apply Nb. apply (own_in own code (f_own _ _ _ _ _ _ _ _ F) b c k J). rewrite Ec. apply in_or_app. right. cbn. intuition. }
        apply agree_steps; [|apply NIb; auto|exact A]. intros k J. assert (k <> N) by (intros ->; apply (NIb N); auto). split; [assumption|].
        apply (reads_not_u b); assumption.
  Qed.
  Lemma next_agree b s1 s2 : live b -> agree s1 s2 -> next_block truth get in_memory ins g code b s1 = next_block truth get in_memory ins' g code' b s2.
  Proof.
    intros L A. unfold next_block. destruct (f_shape _ _ _ _ _ _ _ _ F b L) as [En Et Ee _|c En Et Ee _|t e l i v En Et Ee Ec B Rv _].
    - rewrite En, Et. reflexivity.
    - rewrite En. reflexivity.
    - rewrite En, Et, Ee. unfold final, code'. rewrite Ec, filter_app, !rev_app_distr. cbn [filter].
      assert (NiI : i <> I) by (intros ->; rewrite opI in B; discriminate). assert (NiN : i <> N) by (intros ->; rewrite opN in B; discriminate).
      unfold keep at 1. destruct (Nat.eqb_spec i I) as [Q|_]; [contradiction|]. cbn [negb rev app hd_error]. unfold ins'. rewrite (upd_other _ _ _ _ NiN), Rv.
      assert (Nv : v <> u); [|pose proof (agree_val s1 s2 v A Nv) as Q; unfold val in Q; rewrite Q; reflexivity]. apply (reads_not_u b i); [exact L| |exact NiN|left; exact Rv].
      rewrite Ec. apply in_or_app. right. left. reflexivity.
  Qed.
  Theorem cse_runs k : forall b l s1 s2 w, live b -> walk (succs (to_cfg g)) entry (l ++ [b]) b -> good (flat_map code l) s1 -> agree s1 s2 ->
    (runs truth get put effect (computes other ins init) in_memory ins g code k b s1 w <->
     runs truth get put effect (computes other ins' init) in_memory ins' g code' k b s2 w).
  Proof.
    assert (NX : forall b c st, next_block truth get in_memory ins g code b st = Some c -> In c (succs (to_cfg g) b)).
    { clear. intros b c st. unfold next_block, succs. cbn. rewrite !in_app_iff. destruct (e_next g b) as [n|]; [intros E; injection E as <-; cbn; tauto|].
      destruct (e_then g b) as [t|]; [|discriminate]. destruct (e_else g b) as [e|]; [|discriminate]. destruct (final (code b)) as [i|]; [|discriminate].
      destruct (i_rs1 (ins i)); [|discriminate]. destruct (truth _); intros E; injection E as <-; cbn; tauto. }
    induction k as [|k IH]; intros b l s1 s2 w Lb W G A; destruct (block_agree b l s1 s2 Lb W G A) as [G' A']; pose proof (next_agree b _ _ Lb A') as NA.
    - split; intros Q; inversion Q as [b' st' Nx|]; subst.
      + rewrite (proj1 A'). apply runs_end. rewrite <- NA. exact Nx.
      + rewrite <- (proj1 A'). apply runs_end. rewrite NA. exact Nx.
    - split; intros Q; inversion Q as [|k' b' c st' w' Nx Q']; subst.
      + pose proof (NX _ _ _ Nx) as Ic. eapply runs_step; [rewrite <- NA; exact Nx|]. apply (proj1 (IH c (l ++ [b]) _ _ w (reach_step _ _ _ _ Lb Ic) (walk_step _ _ _ _ _ W Ic) G' A') Q').
      + rewrite <- NA in Nx. pose proof (NX _ _ _ Nx) as Ic. eapply runs_step; [exact Nx|]. apply (proj2 (IH c (l ++ [b]) _ _ w (reach_step _ _ _ _ Lb Ic) (walk_step _ _ _ _ _ W Ic) G' A') Q').
  Qed.
End Step.
