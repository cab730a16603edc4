(** After a branch that nothing useful depends on, no useful block is met before the nearest useful post-dominator. *)
From Verif.Mid Require Import Insn Edges EdgesProofs Graph Dom Dce DceSpec CfgProofs DceProofs DceSweep.

Lemma walk_prefix S e l x : walk S e l x -> forall d, In d l -> exists l1, walk S e l1 d /\ incl l1 l.
Proof.
  intros W. induction W as [a|a l b c W IH E]; intros d I.
  - destruct I as [<-|[]]. exists [a]. split; [apply walk_one|apply incl_refl].
  - apply in_app_iff in I as [I|[<-|[]]].
    + destruct (IH d I) as (l1 & W1 & I1). exists l1. split; [exact W1|]. intros y Iy. apply in_or_app. auto.
    + exists (l ++ [c]). split; [eapply walk_step; eassumption|apply incl_refl].
Qed.
Lemma dominates_trans S e a b c : dominates S e a b -> dominates S e b c -> dominates S e a c.
Proof. intros A B l W. destruct (walk_prefix _ _ _ _ W b (B l W)) as (l1 & W1 & I1). apply I1, A, W1. Qed.
Lemma dominates_self S e a : dominates S e a a.
Proof. intros l W. apply walk_end in W. exact W. Qed.
Lemma dominates_stable S e a b : ~ ~ dominates S e a b -> dominates S e a b.
Proof. intros N l W. destruct (in_dec Nat.eq_dec a l) as [I|I]; [exact I|]. destruct N. intros D. exact (I (D l W)). Qed.
Lemma walk_avoid_gen S c d e l x : walk S e l x -> dominates S e c d -> c <> d -> (exists l', walk S e l' c /\ ~ In d l') \/ ~ In c l.
Proof.
  intros W. induction W as [a|a l b y W IH E]; intros D N.
  - destruct (Nat.eq_dec a c) as [->|Ne]; [left; exists [c]; split; [apply walk_one|intros [Q|[]]; congruence]|].
    right. intros [Q|[]]. congruence.
  - destruct (IH D N) as [Q|Q]; [left; exact Q|].
    assert (Nd : ~ In d l). { intros I. destruct (walk_prefix _ _ _ _ W d I) as (l1 & W1 & I1). apply Q, I1, D, W1. }
    destruct (Nat.eq_dec y c) as [->|Ny].
    + left. exists (l ++ [c]). split; [eapply walk_step; eassumption|]. rewrite in_app_iff. intros [I|[I|[]]]; [contradiction|congruence].
    + right. rewrite in_app_iff. intros [I|[I|[]]]; [contradiction|congruence].
Qed.
Lemma walk_avoid S e c d : dominates S e c d -> c <> d -> reach S e c -> exists l, walk S e l c /\ ~ In d l.
Proof.
  intros D N R. destruct (reach_walk _ _ _ R) as (l & W). destruct (walk_avoid_gen _ _ _ _ _ _ W D N) as [Q|Q]; [exact Q|].
  destruct Q. apply walk_end in W. exact W.
Qed.
Lemma never S e x z l y : walk S e l y -> x <> e -> (forall b, In x (S b) -> b = z) -> dominates S e x z -> ~ In x l.
Proof.
  intros W. induction W as [a|a l b y W IH E]; intros N O D; [intros [Q|[]]; congruence|].
  rewrite in_app_iff. intros [I|[->|[]]]; [exact (IH N O D I)|]. apply O in E. subst b. exact (IH N O D (D l W)).
Qed.

Section Region.
  Variable ins : nat -> insn.
  Variable own : nat -> nat.
  Variable code : nat -> list nat.
  Variable g : egraph.
  Variable exit : nat.
  Variable ridom : nat -> option nat.
  Variable rdf : nat -> list nat.
  Variable s : dce.
  Let Sc := succs (to_cfg g).
  Let Pr := preds (to_cfg g).
  Let pdom x y := dominates Pr exit x y.
  Hypothesis Hrev : forall a b, In a (Pr b) <-> In b (Sc a).
  Hypothesis Hidom : forall b, reach Pr exit b -> b <> exit ->
    exists d, ridom b = Some d /\ reach Pr exit d /\ immediate_dominator Pr exit d b.
  Hypothesis Hrdf : forall x b, In b (rdf x) <-> decides (to_cfg g) exit b x.
  Hypothesis Hexit : Sc exit = [].
  Hypothesis Hown : forall b i, In i (code b) -> own i = b.
  Hypothesis Hctrl : forall i, d_useful s i = true -> closedC ins code rdf (d_useful s) (own i).
  Hypothesis Hblock : forall i, d_useful s i = true -> d_block s (own i) = true.
  Hypothesis Hinsn : forall b, d_block s b = true -> exists i, d_useful s i = true /\ own i = b.

  Lemma last_step x l : walk Pr exit l x -> x = exit /\ l = [exit] \/ exists l' y, l = l' ++ [x] /\ walk Pr exit l' y /\ In y (Sc x).
  Proof.
    intros W. inversion W as [a|a l' b c W' E]; subst; [auto|]. right. exists l', b. split; [reflexivity|]. split; [exact W'|]. apply Hrev. exact E.
  Qed.
  Lemma single_not_decides x z c : e_next g x = Some z -> e_then g x = None -> e_else g x = None -> reach Pr exit z ->
    ~ decides (to_cfg g) exit x c.
  Proof.
    intros En Et Ee Rz [(y & Ry & Iy & D) ND].
    assert (Sx : Sc x = [z]) by (unfold Sc, succs; cbn; rewrite En, Et, Ee; reflexivity).
    change (succs (to_cfg g)) with Sc in Iy. rewrite Sx in Iy. destruct Iy as [<-|[]].
    assert (Nx : x <> exit) by (intros ->; rewrite Hexit in Sx; discriminate).
    assert (Dx : pdom c x).
    { intros l W. destruct (last_step x l W) as [[-> _]|(l' & y & -> & W' & Iy)]; [contradiction|].
      rewrite Sx in Iy. destruct Iy as [<-|[]]. apply in_or_app. left. apply D. exact W'. }
    destruct (Nat.eq_dec c x) as [->|N]; [|apply ND; auto].
    (* x post-dominates its only successor: impossible *)
    destruct (reach_walk _ _ _ Rz) as (l & W). refine (never Pr exit x z l z W Nx _ D (D l W)).
    intros b I. apply Hrev in I. rewrite Sx in I. destruct I as [I|[]]. auto.
  Qed.
  Lemma reach_succ x : reach Pr exit x -> x <> exit -> exists z, In z (Sc x) /\ reach Pr exit z.
  Proof. intros R N. inversion R as [|a b c R' E]; subst; [contradiction|]. exists b. split; [apply Hrev; exact E|exact R']. Qed.

  (** every block below has a successor-closed way to the exit *)
  Variable ok : nat -> Prop.
  Hypothesis Hok_succ : forall x c, ok x -> In c (Sc x) -> ok c.
  Hypothesis Hok_exit : forall x, ok x -> reach Pr exit x.
  Hypothesis Hok_shape : forall x, ok x -> shape ins code g x.

  Variables (b j d : nat).
  Hypothesis Hb : ok b.
  Hypothesis Hbranch : drops ins s code b.
  Hypothesis Hj : ridom b = Some j.
  Hypothesis Hd : nearest ridom exit s j d.

  Lemma b_not_exit : b <> exit.
  Proof.
    intros ->. destruct Hbranch as (i & F & B & _). destruct (Hok_shape exit Hb) as [_ _ _ N|c _ _ _ N|t e l i' v En Et Ee _ _ _ _];
      try (apply (N i (final_In _ _ F) B)).
    unfold Sc, succs in Hexit. cbn in Hexit. rewrite En, Et, Ee in Hexit. discriminate.
  Qed.
  Lemma near_dom x y : nearest ridom exit s x y -> reach Pr exit x -> pdom y x /\ reach Pr exit y.
  Proof.
    intros N. induction N as [|x Nx U|x k y Nx U E N IH]; intros R.
    - split; [apply dominates_self|exact R].
    - split; [apply dominates_self|exact R].
    - destruct (Hidom x R Nx) as (k' & E' & Rk & Nk & Dk & _). assert (k' = k) by congruence. subst k'.
      destruct (IH Rk) as [D1 R1]. split; [eapply dominates_trans; eassumption|exact R1].
  Qed.
  Lemma j_facts : reach Pr exit j /\ pdom j b /\ j <> b.
  Proof.
    destruct (Hidom b (Hok_exit b Hb) b_not_exit) as (j' & E & R & N & D & _). assert (j' = j) by congruence. subst j'. auto.
  Qed.
  Lemma d_dom : pdom d b /\ reach Pr exit d.
  Proof.
    destruct j_facts as (R & D & N). destruct (near_dom j d Hd R) as [D1 R1]. split; [eapply dominates_trans; eassumption|exact R1].
  Qed.
  Lemma d_not_b : d <> b.
  Proof.
    intros E. destruct j_facts as (R & D & N). destruct (near_dom j d Hd R) as [D1 _]. rewrite E in D1.
    destruct (walk_avoid Pr exit j b D N R) as (l & W & NI). exact (NI (D1 l W)).
  Qed.
  Lemma near_above c x y : nearest ridom exit s x y -> reach Pr exit x -> d_block s c = true -> pdom c x -> c <> y -> pdom c y /\ y <> exit.
  Proof.
    intros N. induction N as [|x Nx U|x k y Nx U E N IH]; intros R Uc D Ny.
    - destruct Ny. specialize (D [exit] (walk_one _ _)). destruct D as [D|[]]. auto.
    - auto.
    - destruct (Hidom x R Nx) as (k' & E' & Rk & Nk & Dk & Min). assert (k' = k) by congruence. subst k'.
      apply IH; [exact Rk|exact Uc| |exact Ny]. apply Min; [congruence|exact D].
  Qed.

  (** a trail from b that has not gone through d, newest block first *)
  Inductive trail : list nat -> nat -> Prop :=
  | trail_start : trail [b] b
  | trail_step l x c : trail l x -> x <> d -> In c (Sc x) -> trail (c :: l) c.
  Lemma trail_ok l x : trail l x -> ok x.
  Proof. induction 1; [exact Hb|]. eapply Hok_succ; eassumption. Qed.
  Lemma trail_back l x : trail l x -> forall m, walk Pr exit m x -> ~ In d m -> exists m', walk Pr exit m' b /\ ~ In d m'.
  Proof.
    induction 1 as [|l x c T IH N I]; intros m W Nd; [eauto|].
    apply (IH (m ++ [x])).
    - eapply walk_step; [exact W|]. apply Hrev. exact I.
    - rewrite in_app_iff. intros [Q|[Q|[]]]; [contradiction|congruence].
  Qed.
  Lemma trail_exit l : trail l exit -> d = exit.
  Proof.
    intros T. destruct (Nat.eq_dec d exit) as [E|N]; [exact E|]. destruct (trail_back l exit T [exit] (walk_one _ _)) as (m & W & Nd).
    - intros [Q|[]]. congruence.
    - destruct Nd. apply d_dom. exact W.
  Qed.
  Lemma trail_useful c l x : trail l x -> forall z, In z (Sc x) -> pdom c z -> reach Pr exit z -> d_block s c = true ->
    (forall y, In y l -> y = b \/ d_block s y = false) -> pdom c b /\ c <> b.
  Proof.
    assert (St : forall l x, trail l x -> forall z, In z (Sc x) -> pdom c z -> reach Pr exit z -> d_block s c = true ->
      (x = b \/ d_block s x = false) -> pdom c x /\ c <> x).
    { clear l x. intros l x T z Iz D Rz Uc Q. pose proof (trail_ok l x T) as Ox.
      destruct (in_dec Nat.eq_dec x (rdf c)) as [I|I].
      - exfalso. apply Hrdf in I as Dc. destruct (Hok_shape x Ox) as [En Et Ee _|c' En Et Ee _|t e l' i v En Et Ee Ec B _ _].
        + unfold Sc, succs in Iz. cbn in Iz. rewrite En, Et, Ee in Iz. destruct Iz.
        + assert (z = c'). { unfold Sc, succs in Iz. cbn in Iz. rewrite En, Et, Ee in Iz. destruct Iz as [Iz|[]]. auto. }
          subst c'. exact (single_not_decides x z c En Et Ee Rz Dc).
        + destruct (Hinsn c Uc) as (k & Uk & Ok).
          assert (Ui : d_useful s i = true). { apply (Hctrl k Uk x i); [rewrite Ok; exact I|rewrite Ec; apply tail_of_app|exact B]. }
          assert (Oi : own i = x) by (apply Hown; rewrite Ec; apply in_or_app; right; left; reflexivity).
          destruct Q as [->|Q]; [|rewrite <- Oi, (Hblock i Ui) in Q; discriminate].
          destruct Hbranch as (i' & F & B' & U'). rewrite Ec in F. unfold final in F. rewrite rev_app_distr in F. injection F as <-. congruence.
      - rewrite Hrdf in I. assert (NN : ~ ~ (pdom c x /\ c <> x)).
        { intros N. apply I. split; [exists z; split; [exact Rz|split; [exact Iz|exact D]]|exact N]. }
        split; [apply dominates_stable; tauto|]. intros ->. apply NN. tauto. }
    intros T. induction T as [|l x c' T IH N I]; intros z Iz D Rz Uc Q.
    - apply (St [b] b trail_start z); auto.
    - destruct (St (c' :: l) c' (trail_step l x c' T N I) z Iz D Rz Uc (Q c' (or_introl eq_refl))) as [D' _].
      apply (IH c' I D'); [|exact Uc|intros y Iy; apply Q; right; exact Iy]. apply Hok_exit. apply (Hok_succ x); [eapply trail_ok; exact T|exact I].
  Qed.
  Lemma trail_avoids l x : trail l x -> x <> d -> forall y, In y l -> y <> d.
  Proof.
    induction 1 as [|l x c T IH N I]; intros Nx y Iy; [destruct Iy as [<-|[]]; exact Nx|].
    destruct Iy as [<-|Iy]; [exact Nx|]. apply IH; assumption.
  Qed.
  Theorem trail_clean l x : trail l x ->
    (forall y, In y l -> y = b \/ y = d \/ d_block s y = false) /\
    (x <> d -> forall c, In c (Sc x) -> c <> d -> d_block s c = false).
  Proof.
    intros T. assert (A : (forall y, In y l -> y = b \/ y = d \/ d_block s y = false) -> x <> d -> forall c, In c (Sc x) -> c <> d -> d_block s c = false).
    { intros IH N c I Ncd. destruct (d_block s c) eqn:Uc; [exfalso|reflexivity].
      assert (Oc : ok c) by (apply (Hok_succ x); [eapply trail_ok; exact T|exact I]).
      destruct (trail_useful c l x T c I (dominates_self _ _ _) (Hok_exit c Oc) Uc) as [D Nb].
      { intros y Iy. destruct (IH y Iy) as [Q|[Q|Q]]; auto. destruct (trail_avoids l x T N y Iy Q). }
      destruct (Hidom b (Hok_exit b Hb) b_not_exit) as (j' & E & Rj & _ & _ & Min). assert (j' = j) by congruence. subst j'.
      destruct (near_above c j d Hd Rj Uc (Min c Nb D) Ncd) as [D2 _].
      destruct (walk_avoid Pr exit c d D2 Ncd (Hok_exit c Oc)) as (m & W & NI).
      destruct (trail_back (c :: l) c (trail_step l x c T N I) m W NI) as (m' & W' & NI'). apply NI'. apply d_dom. exact W'. }
    enough (B : forall y, In y l -> y = b \/ y = d \/ d_block s y = false) by (split; [exact B|exact (A B)]).
    clear A. induction T as [|l x c T IH N I]; [intros y [<-|[]]; auto|]. intros y [<-|Iy]; [|apply IH; exact Iy].
    destruct (Nat.eq_dec c d) as [E|Ncd]; [auto|]. right. right. destruct (d_block s c) eqn:Uc; [exfalso|reflexivity].
    assert (Oc : ok c) by (apply (Hok_succ x); [eapply trail_ok; exact T|exact I]).
    destruct (trail_useful c l x T c I (dominates_self _ _ _) (Hok_exit c Oc) Uc) as [D Nb].
    { intros y Iy. destruct (IH y Iy) as [Q|[Q|Q]]; auto. destruct (trail_avoids l x T N y Iy Q). }
    destruct (Hidom b (Hok_exit b Hb) b_not_exit) as (j' & E & Rj & _ & _ & Min). assert (j' = j) by congruence. subst j'.
    destruct (near_above c j d Hd Rj Uc (Min c Nb D) Ncd) as [D2 _].
    destruct (walk_avoid Pr exit c d D2 Ncd (Hok_exit c Oc)) as (m & W & NI).
    destruct (trail_back (c :: l) c (trail_step l x c T N I) m W NI) as (m' & W' & NI'). apply NI'. apply d_dom. exact W'.
  Qed.
End Region.
