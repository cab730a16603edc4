From Verif.Mid Require Import Cfg Graph CfgProofs Dom.

Section Tree.
  Variable succ : nat -> list nat.
  Variable entry : nat.
  Variable r : nat -> Z.
  Variable pl : nat -> list nat.
  Variable N : Z.
  Let R x := reach succ entry x.
  Hypothesis Hrange : forall x, R x -> 0 < r x <= N.
  Hypothesis Hinj : forall x y, R x -> R y -> r x = r y -> x = y.
  Hypothesis Hpl : forall a b, R a -> R b -> (In a (pl b) <-> In b (succ a)).
  Hypothesis Hpar : forall b, R b -> b <> entry -> exists u, R u /\ In b (succ u) /\ r u < r b.

  Lemma R_entry : R entry.
  Proof. apply reach_refl. Qed.

  Lemma entry_min : forall b, R b -> r entry <= r b.
  Proof.
    assert (H : forall n b, R b -> r b <= Z.of_nat n -> r entry <= r b).
    { induction n as [|n IH]; intros b Rb L; [pose proof (Hrange b Rb); lia|].
      destruct (Nat.eq_dec b entry) as [->|Nb]; [lia|]. destruct (Hpar b Rb Nb) as (u & Ru & _ & Lu).
      specialize (IH u Ru ltac:(lia)). lia. }
    intros b Rb. apply (H (Z.to_nat (r b)) b Rb). pose proof (Hrange b Rb). lia.
  Qed.
  Lemma entry_lt b : R b -> b <> entry -> r entry < r b.
  Proof. intros Rb Nb. destruct (Hpar b Rb Nb) as (u & Ru & _ & L). pose proof (entry_min u Ru). lia. Qed.

  (** increasing walks *)
  Inductive incp : nat -> nat -> Prop :=
  | incp_refl a : incp a a
  | incp_step a b c : incp a b -> R b -> In c (succ b) -> r b < r c -> incp a c.
  Lemma incp_le a b : incp a b -> r a <= r b.
  Proof. induction 1; lia. Qed.
  Lemma incp_trans a b c : incp a b -> incp b c -> incp a c.
  Proof. intros H1 H2. induction H2 as [b|b d e H2 IH Rd E L]; [exact H1|]. exact (incp_step a d e (IH H1) Rd E L). Qed.

  (** [anc T a x]: a is x or above it in the tree *)
  Inductive anc (T : tree) : nat -> nat -> Prop :=
  | anc_refl x : anc T x x
  | anc_up a x y : x <> entry -> T x = Some y -> anc T a y -> anc T a x.

  Record wf (T : tree) : Prop := {
    w_entry : T entry = Some entry;
    w_reach : forall x, T x <> None -> R x;
    w_up : forall x y, x <> entry -> T x = Some y -> T y <> None /\ r y < r x /\ incp y x }.

  Lemma anc_trans T a b c : anc T a b -> anc T b c -> anc T a c.
  Proof. intros H1 H2. induction H2; [exact H1|eapply anc_up; eauto]. Qed.
  Lemma anc_le T : wf T -> forall a x, anc T a x -> r a <= r x.
  Proof. intros W a x H. induction H as [|a x y Nx E H IH]; [lia|]. destruct (w_up T W _ _ Nx E). lia. Qed.
  Lemma anc_some T : wf T -> forall a x, anc T a x -> T x <> None -> T a <> None.
  Proof. intros W a x H. induction H as [|a x y Nx E H IH]; [auto|]. intros _. apply IH. apply (w_up T W _ _ Nx E). Qed.
  Lemma anc_incp T : wf T -> forall a x, anc T a x -> incp a x.
  Proof. intros W a x H. induction H as [|a x y Nx E H IH]; [apply incp_refl|]. eapply incp_trans; [exact IH|]. apply (w_up T W _ _ Nx E). Qed.
  Lemma anc_entry_inv T a : anc T a entry -> a = entry.
  Proof. inversion 1; subst; [reflexivity|congruence]. Qed.
  Lemma anc_up_inv T a x y : anc T a x -> a <> x -> T x = Some y -> anc T a y.
  Proof. inversion 1; subst; [congruence|]. intros _ E. congruence. Qed.

  (** induction along the tree *)
  Lemma tree_ind T (W : wf T) (P : nat -> Prop) :
    (T entry <> None -> P entry) -> (forall x y, x <> entry -> T x = Some y -> P y -> P x) -> forall x, T x <> None -> P x.
  Proof.
    intros H0 H1. assert (H : forall n x, T x <> None -> r x <= Z.of_nat n -> P x).
    { induction n as [|n IH]; intros x E L; [pose proof (Hrange x (w_reach T W x E)); lia|].
      destruct (Nat.eq_dec x entry) as [->|Nx]; [apply H0; exact E|].
      destruct (T x) as [y|] eqn:Q; [|congruence]. destruct (w_up T W _ _ Nx Q) as (Ey & Ly & _).
      apply (H1 x y Nx Q). apply IH; [exact Ey|lia]. }
    intros x E. apply (H (Z.to_nat (r x)) x E). pose proof (Hrange x (w_reach T W x E)). lia.
  Qed.
  Lemma anc_root T : wf T -> forall x, T x <> None -> anc T entry x.
  Proof. intros W. apply (tree_ind T W); [intros _; apply anc_refl|]. intros x y Nx E H. eapply anc_up; eauto. Qed.
  Lemma anc_linear T : wf T -> forall x a b, anc T a x -> anc T b x -> r a <= r b -> T x <> None -> anc T a b.
  Proof.
    intros W x a b Ha. induction Ha as [x|a x y Nx E Ha IH]; intros Hb L Ex.
    - destruct Hb as [x|b x y Nx E Hb]; [apply anc_refl|]. pose proof (anc_le T W _ _ Hb).
      destruct (w_up T W _ _ Nx E) as (_ & ? & _). lia.
    - inversion Hb; subst; [eapply anc_up; eauto|]. assert (y0 = y) by congruence. subst. apply IH; auto.
      apply (w_up T W _ _ Nx E).
  Qed.
  Lemma anc_eq T : wf T -> forall a x, anc T a x -> T x <> None -> r a = r x -> a = x.
  Proof. intros W a x H E L. apply Hinj; [|apply (w_reach T W x E)|exact L]. apply (w_reach T W). eapply anc_some; eauto. Qed.

  (** ** intersect *)
  Lemma climb_spec T : wf T -> forall n x lim, T x <> None -> r entry <= lim -> r x <= Z.of_nat n ->
    exists x', climb r n T x lim = Some x' /\ anc T x' x /\ r x' <= lim /\ forall a, anc T a x -> r a <= lim -> anc T a x'.
  Proof.
    intros W. induction n as [|n IH]; intros x lim Ex L F.
    { pose proof (Hrange x (w_reach T W x Ex)). lia. }
    cbn [climb]. destruct (Z.ltb_spec lim (r x)) as [Q|Q].
    - destruct (Nat.eq_dec x entry) as [->|Nx]; [lia|]. destruct (T x) as [y|] eqn:E; [|congruence].
      destruct (w_up T W _ _ Nx E) as (Ey & Ly & _). destruct (IH y lim Ey L ltac:(lia)) as (x' & E' & A & B & C).
      exists x'. split; [exact E'|]. split; [eapply anc_up; eauto|]. split; [exact B|].
      intros a Ha La. apply C; [|exact La]. eapply anc_up_inv; eauto. intros ->. lia.
    - exists x. split; [reflexivity|]. split; [apply anc_refl|]. split; [lia|auto].
  Qed.
  Lemma intersect_spec T fuel : wf T -> N <= Z.of_nat fuel -> forall n i j, T i <> None -> T j <> None ->
    r i + r j <= Z.of_nat n ->
    exists k, intersect r fuel n T i j = Some k /\ T k <> None /\ forall a, anc T a k <-> anc T a i /\ anc T a j.
  Proof.
    intros W F. induction n as [|n IH]; intros i j Ei Ej Fn.
    { pose proof (Hrange i (w_reach T W i Ei)). pose proof (Hrange j (w_reach T W j Ej)). lia. }
    pose proof (w_reach T W i Ei) as Ri. pose proof (w_reach T W j Ej) as Rj.
    cbn [intersect]. destruct (Nat.eqb_spec i j) as [->|Nij].
    { exists j. split; [reflexivity|]. split; [exact Ej|]. tauto. }
    pose proof (Hrange i Ri). pose proof (Hrange j Rj).
    destruct (climb_spec T W fuel i (r j) Ei (entry_min j Rj) ltac:(lia)) as (i' & E1 & A1 & B1 & C1). rewrite E1.
    assert (Ei' : T i' <> None) by (eapply anc_some; eauto).
    destruct (climb_spec T W fuel j (r i') Ej (entry_min i' (w_reach T W i' Ei')) ltac:(lia)) as (j' & E2 & A2 & B2 & C2). rewrite E2.
    assert (Ej' : T j' <> None) by (eapply anc_some; eauto).
    pose proof (anc_le T W _ _ A1). pose proof (anc_le T W _ _ A2).
    assert (r i <> r j) by (intros Q; apply Nij; apply Hinj; assumption).
    destruct (IH i' j' Ei' Ej' ltac:(lia)) as (k & E3 & Ek & Hk).
    exists k. split; [exact E3|]. split; [exact Ek|]. intros a. rewrite Hk. split.
    - intros [Q1 Q2]. split; [exact (anc_trans T _ _ _ Q1 A1)|exact (anc_trans T _ _ _ Q2 A2)].
    - intros [Q1 Q2]. assert (Q3 : anc T a i') by (apply C1; [exact Q1|apply (anc_le T W _ _ Q2)]).
      split; [exact Q3|]. apply C2; [exact Q2|apply (anc_le T W _ _ Q3)].
  Qed.

  (** ** the new parent *)
  Definition meets (T : tree) (b c : nat) : Prop := forall a, anc T a c <-> forall p, In p (pl b) -> T p <> None -> anc T a p.
  Lemma meet_all_spec T fuel : wf T -> 2 * N <= Z.of_nat fuel -> forall ps p0, T p0 <> None ->
    exists c, meet_all r fuel T ps p0 = Some c /\ T c <> None /\
      forall a, anc T a c <-> anc T a p0 /\ forall p, In p ps -> T p <> None -> anc T a p.
  Proof.
    intros W F. induction ps as [|p ps IH]; intros p0 E0; cbn [meet_all].
    - exists p0. split; [reflexivity|]. split; [exact E0|]. intros a. split; [intros H; split; [exact H|intros p []]|tauto].
    - destruct (Nat.eqb_spec p p0) as [->|Np].
      + destruct (IH p0 E0) as (c & E & Ec & H). exists c. split; [exact E|]. split; [exact Ec|]. intros a. rewrite H. split.
        * intros [Q1 Q2]. split; [exact Q1|]. intros q [<-|I] Eq; auto.
        * intros [Q1 Q2]. split; [exact Q1|]. intros q I Eq. apply Q2; [right; exact I|exact Eq].
      + destruct (T p) as [y|] eqn:Ep.
        * assert (Ep' : T p <> None) by congruence.
          pose proof (Hrange p (w_reach T W p Ep')). pose proof (Hrange p0 (w_reach T W p0 E0)).
          destruct (intersect_spec T fuel W ltac:(lia) fuel p p0 Ep' E0 ltac:(lia)) as (k & E & Ek & Hk). rewrite E.
          destruct (IH k Ek) as (c & E' & Ec & H'). exists c. split; [exact E'|]. split; [exact Ec|]. intros a. rewrite H', Hk. split.
          -- intros [[Q1 Q2] Q3]. split; [exact Q2|]. intros q [<-|I] Eq; auto.
          -- intros [Q1 Q2]. split; [split; [apply Q2; [left; reflexivity|exact Ep']|exact Q1]|].
             intros q I Eq. apply Q2; [right; exact I|exact Eq].
        * destruct (IH p0 E0) as (c & E & Ec & H). exists c. split; [exact E|]. split; [exact Ec|]. intros a. rewrite H. split.
          -- intros [Q1 Q2]. split; [exact Q1|]. intros q [<-|I] Eq; [congruence|auto].
          -- intros [Q1 Q2]. split; [exact Q1|]. intros q I Eq. apply Q2; [right; exact I|exact Eq].
  Qed.
  Lemma pick_spec T ps : (exists p, In p ps /\ T p <> None) -> exists p, pick T ps = Some p /\ In p ps /\ T p <> None.
  Proof.
    induction ps as [|p ps IH]; intros (q & I & E); [destruct I|]. cbn [pick].
    destruct (T p) as [y|] eqn:Ep; [exists p; repeat split; [left; reflexivity|congruence]|].
    destruct I as [->|I]; [congruence|]. destruct IH as (q' & E' & I' & Q'); [eauto|]. exists q'. repeat split; [exact E'|right; exact I'|exact Q'].
  Qed.
  Lemma new_idom_spec T fuel b : wf T -> 2 * N <= Z.of_nat fuel -> (exists p, In p (pl b) /\ T p <> None) ->
    exists c, new_idom r pl fuel T b = Some c /\ T c <> None /\ meets T b c.
  Proof.
    intros W F H. unfold new_idom. destruct (pick_spec T _ H) as (p & -> & I & E).
    destruct (meet_all_spec T fuel W F (pl b) p E) as (c & -> & Ec & Hc). exists c. split; [reflexivity|]. split; [exact Ec|].
    intros a. rewrite Hc. split; [intros [_ Q]; exact Q|]. intros Q. split; [apply Q; assumption|exact Q].
  Qed.

  (** ** one update *)
  Lemma anc_below T T' b : (forall x, r x < b -> T' x = T x) -> wf T -> forall a x, anc T a x -> r x < b -> anc T' a x.
  Proof.
    intros H W a x A. induction A as [|a x y Nx E A IH]; intros L; [apply anc_refl|].
    eapply anc_up; [exact Nx|rewrite H by exact L; exact E|]. apply IH. destruct (w_up T W _ _ Nx E) as (_ & ? & _). lia.
  Qed.

  Definition dominators_kept (T : tree) := forall x a, T x <> None -> dominates succ entry a x -> anc T a x.
  Definition moves_up (T : tree) := forall x y a, x <> entry -> T x = Some y ->
    (forall p, In p (pl x) -> T p <> None -> anc T a p) -> anc T a y.
  Definition forward_ok (T : tree) (x : nat) := forall y z, T x = Some y -> In z (pl x) -> R z -> r z < r x -> anc T y z.

  Lemma dominates_pred a b p : dominates succ entry a b -> a <> b -> R p -> In b (succ p) -> dominates succ entry a p.
  Proof.
    intros D Nab Rp E l Wl. pose proof (D _ (walk_step _ _ _ _ _ Wl E)) as I. apply in_app_or in I as [I|[I|[]]]; congruence.
  Qed.
  Lemma dominates_inc a y x : incp y x -> dominates succ entry a x -> a <> x -> r a <= r y -> dominates succ entry a y.
  Proof.
    intros P. induction P as [y|y b c P IH Rb E L]; intros D Na La; [exact D|].
    assert (D' := dominates_pred a c b D Na Rb E). pose proof (incp_le _ _ P).
    destruct (Nat.eq_dec a b) as [->|Nb]; [|apply IH; assumption].
    destruct (Nat.eq_dec y b) as [->|Ny]; [exact D'|]. exfalso.
    clear - P La Ny. revert La Ny. induction P as [y|y b c P IH Rb E L]; intros La Ny; [contradiction|].
    pose proof (incp_le _ _ P). lia.
  Qed.

  Section Update.
    Variables T : tree.
    Variables b c : nat.
    Hypothesis W : wf T.
    Hypothesis Rb : R b.
    Hypothesis Nb : b <> entry.
    Hypothesis Ec : T c <> None.
    Hypothesis Mc : meets T b c.
    Hypothesis Done : forall x, R x -> r x < r b -> T x <> None.
    Let T' := upd T b (Some c).

    Lemma up_parent : exists u, R u /\ In u (pl b) /\ In b (succ u) /\ r u < r b /\ T u <> None.
    Proof.
      destruct (Hpar b Rb Nb) as (u & Ru & E & L). exists u. split; [exact Ru|]. split; [apply Hpl; assumption|].
      split; [exact E|]. split; [exact L|]. apply Done; assumption.
    Qed.
    Lemma up_lt : r c < r b /\ incp c b.
    Proof.
      destruct up_parent as (u & Ru & I & E & L & Eu).
      assert (A : anc T c u) by (apply (proj1 (Mc c)); [apply anc_refl|exact I|exact Eu]).
      pose proof (anc_le T W _ _ A). split; [lia|]. eapply incp_step; [apply (anc_incp T W _ _ A)|exact Ru|exact E|exact L].
    Qed.
    Lemma up_wf : wf T'.
    Proof.
      destruct up_lt as [L P]. unfold T'. split.
      - rewrite upd_other by congruence. apply W.
      - intros x E. unfold upd in E. destruct (Nat.eqb_spec x b) as [Q|Q]; [rewrite Q; exact Rb|apply (w_reach T W x E)].
      - intros x y Nx E. unfold upd in E. destruct (Nat.eqb_spec x b) as [->|Nxb].
        + inversion E; subst. rewrite upd_other by (intros ->; lia). auto.
        + destruct (w_up T W _ _ Nx E) as (Ey & ? & ?). split; [|auto]. unfold upd. destruct (Nat.eqb_spec y b); [discriminate|exact Ey].
    Qed.
    Lemma up_below a x : r x < r b -> (anc T a x <-> anc T' a x).
    Proof.
      intros L. unfold T'. split; intros H; [eapply anc_below with (b := r b) in H; eauto|eapply anc_below with (b := r b) in H; [exact H| |exact up_wf|exact L]].
      - intros y Ly. apply upd_other. intros ->. lia.
      - intros y Ly. unfold T'. rewrite upd_other; [reflexivity|]. intros ->. lia.
    Qed.
    Lemma up_kept : dominators_kept T -> dominators_kept T'.
    Proof.
      intros K. pose proof up_wf as W'. intros x a E. revert x E a. apply (tree_ind T' W' (fun x => forall a, dominates succ entry a x -> anc T' a x)).
      - intros _ a D. pose proof (D _ (walk_one _ _)) as [<-|[]]. apply anc_refl.
      - intros x y Nx E IH a D. destruct (Nat.eq_dec a x) as [->|Na]; [apply anc_refl|].
        assert (Rx : R x) by (apply (w_reach T' W'); congruence).
        eapply anc_up; [exact Nx|exact E|]. unfold T', upd in E. destruct (Nat.eqb_spec x b) as [->|Nxb].
        + inversion E; subst y. apply up_below; [apply up_lt|]. apply Mc. intros p I Ep. apply K; [exact Ep|].
          apply (dominates_pred a b p D Na (w_reach T W p Ep)). apply Hpl; [apply (w_reach T W p Ep)|exact Rb|exact I].
        + apply IH. assert (A : anc T a x) by (apply K; [congruence|exact D]).
          pose proof (anc_up_inv T a x y A Na E) as Ay. destruct (w_up T W _ _ Nx E) as (_ & _ & P).
          apply (dominates_inc a y x P D Na (anc_le T W _ _ Ay)).
    Qed.
    (** the old parent, if any, was below or equal to the new one *)
    Lemma up_old : moves_up T -> forall y, T b = Some y -> anc T c y.
    Proof. intros J y E. apply (J b y c Nb E). apply Mc. apply anc_refl. Qed.
    Lemma up_shrinks : moves_up T -> forall a x, T x <> None -> anc T' a x -> anc T a x.
    Proof.
      intros J a x E A. revert E. induction A as [|a x y Nx Q A IH]; intros E; [apply anc_refl|].
      unfold T', upd in Q. destruct (Nat.eqb_spec x b) as [->|Nxb].
      - inversion Q; subst y. destruct (T b) as [y|] eqn:Eb; [|congruence]. eapply anc_up; [exact Nb|exact Eb|].
        eapply anc_trans; [apply IH; exact Ec|]. apply up_old; assumption.
      - eapply anc_up; [exact Nx|exact Q|]. apply IH. apply (w_up T W _ _ Nx Q).
    Qed.
    (** [T0]: the tree at the start of the sweep, still current from [b] on *)
    Lemma up_moves T0 : wf T0 -> (forall x, forward_ok T0 x) -> (forall x, r b <= r x -> T x = T0 x) -> moves_up T -> moves_up T'.
    Proof.
      intros W0 F0 St J x y a Nx E H. pose proof up_wf as W'. pose proof up_lt as [Lc _].
      assert (H' : forall p, In p (pl x) -> T p <> None -> anc T a p).
      { intros p I Ep. apply up_shrinks; [exact J|exact Ep|]. apply H; [exact I|]. unfold T', upd. destruct (Nat.eqb_spec p b); [discriminate|exact Ep]. }
      unfold T', upd in E. destruct (Nat.eqb_spec x b) as [->|Nxb].
      { inversion E; subst y. apply up_below; [exact Lc|]. apply Mc. exact H'. }
      pose proof (J x y a Nx E H') as A. destruct (w_up T W _ _ Nx E) as (Ey & Ly & _).
      destruct (Z.lt_ge_cases (r y) (r b)) as [Q|Q]; [apply up_below; assumption|].
      assert (Rx : R x) by (apply (w_reach T W); congruence).
      destruct (Hpar x Rx Nx) as (p & Rp & Ep & Lp).
      assert (Ip : In p (pl x)) by (apply Hpl; assumption).
      assert (E0 : T0 x = Some y) by (rewrite <- St by lia; exact E).
      assert (A0 : anc T0 y p) by (apply (F0 x y p E0 Ip Rp Lp)).
      (* the way from p up to y has not been touched *)
      assert (A1 : forall z, anc T0 y z -> r b <= r y -> anc T y z).
      { intros z Z1 Lz. clear - Z1 Lz St W0. induction Z1 as [|a x y Nx E A IH]; [apply anc_refl|].
        pose proof (anc_le T0 W0 _ _ A). destruct (w_up T0 W0 _ _ Nx E) as (_ & ? & _). eapply anc_up; [exact Nx|rewrite St by lia; exact E|]. apply IH. exact Lz. }
      assert (A2 : anc T' y p).
      { specialize (A1 p A0 Q). clear - A1 Q W. induction A1 as [|a x y Nx E A IH]; [apply anc_refl|].
        pose proof (anc_le T W _ _ A). destruct (w_up T W _ _ Nx E) as (_ & ? & _). eapply anc_up; [exact Nx| |apply IH; exact Q].
        unfold T'. rewrite upd_other; [exact E|]. intros ->. lia. }
      assert (Tp : T p <> None).
      { destruct A0 as [y|y p y' Np E' A0].
        - exact Ey.
        - assert (r b <= r p). { pose proof (anc_le T0 W0 _ _ A0). destruct (w_up T0 W0 _ _ Np E') as (_ & ? & _). lia. }
          rewrite St by assumption. congruence. }
      assert (Tp' : T' p <> None) by (unfold T', upd; destruct (Nat.eqb_spec p b); [discriminate|exact Tp]).
      apply (anc_linear T' W' p a y (H p Ip Tp') A2 (anc_le T W _ _ A) Tp').
    Qed.
    Lemma up_forward x : r x < r b -> forward_ok T x -> forward_ok T' x.
    Proof.
      intros L F y z E I Rz Lz. unfold T' in E. rewrite upd_other in E by (intros ->; lia). apply up_below; [lia|]. apply (F y z E I Rz Lz).
    Qed.
    Lemma up_forward_here : forward_ok T' b.
    Proof.
      intros y z E I Rz Lz. unfold T' in E. rewrite upd_same in E. inversion E; subst y. apply up_below; [exact Lz|].
      apply (proj1 (Mc c)); [apply anc_refl|exact I|]. apply Done; assumption.
    Qed.
  End Update.

  (** ** the measure *)
  Definition val (T : tree) (x : nat) : Z := match T x with None => N + 1 | Some y => r y end.
  Fixpoint total (T : tree) (l : list nat) : Z := match l with [] => 0 | x :: l => val T x + total T l end.
  Lemma total_upd_out T b c l : ~ In b l -> total (upd T b c) l = total T l.
  Proof.
    induction l as [|x l IH]; intros H; [reflexivity|]. cbn [total]. rewrite IH by (intros I; apply H; right; exact I).
    unfold val. rewrite upd_other; [reflexivity|]. intros ->. apply H. left. reflexivity.
  Qed.
  Lemma total_upd T b c l : NoDup l -> In b l -> r c < val T b -> total (upd T b (Some c)) l < total T l.
  Proof.
    induction l as [|x l IH]; intros Nd I H; [destruct I|]. inversion Nd; subst. cbn [total]. destruct I as [->|I].
    - rewrite total_upd_out by assumption. unfold val at 1. rewrite upd_same. lia.
    - specialize (IH H3 I H). unfold val at 1. rewrite upd_other by (intros ->; contradiction). fold (val T x). lia.
  Qed.
  Lemma total_range T l : wf T -> (forall x, In x l -> R x) -> 0 <= total T l <= Z.of_nat (length l) * (N + 1).
  Proof.
    intros W H. induction l as [|x l IH]; cbn [total length]; [lia|]. specialize (IH (fun y I => H y (or_intror I))).
    assert (0 <= val T x <= N + 1).
    { unfold val. pose proof (Hrange x (H x (or_introl eq_refl))). destruct (T x) as [y|] eqn:E; [|lia].
      assert (R y). { destruct (Nat.eq_dec x entry) as [->|Nx]; [rewrite (w_entry T W) in E; inversion E as [Q]; rewrite <- Q; apply R_entry|].
        destruct (w_up T W _ _ Nx E) as (Ey & _). apply (w_reach T W y Ey). }
      pose proof (Hrange y H1). lia. }
    lia.
  Qed.

  (** ** one sweep *)
  Variable next : nat -> option nat.
  Variable fuel : nat.
  Hypothesis Hfuel : 2 * N <= Z.of_nat fuel.
  Variable L : list nat.
  Hypothesis HL : forall x, In x L <-> R x.
  Hypothesis HNd : NoDup L.

  Record inv (T0 T : tree) (ch : bool) (l : list nat) : Prop := {
    i_wf : wf T;
    i_kept : dominators_kept T;
    i_moves : moves_up T;
    i_done : forall x, R x -> ~ In x l -> T x <> None;
    i_stale : forall x, ~ (R x /\ forall y, In y l -> r x < r y) -> T x = T0 x;
    i_fwd : forall x, R x -> ~ In x l -> forward_ok T x;
    i_same : ch = false -> T = T0 /\ forall x, R x -> x <> entry -> ~ In x l -> exists c, T x = Some c /\ meets T x c;
    i_less : ch = true -> total T L < total T0 L }.

  Fixpoint increasing (l : list nat) : Prop :=
    match l with [] => True | b :: l => (forall y, In y l -> r b < r y) /\ increasing l end.

  Lemma inv_step T0 T ch b l : wf T0 -> (forall x, forward_ok T0 x) ->
    R b -> b <> entry -> increasing (b :: l) -> (forall x, R x -> In x (b :: l) \/ forall y, In y (b :: l) -> r x < r y) ->
    inv T0 T ch (b :: l) ->
    exists c, new_idom r pl fuel T b = Some c /\
      let '(T', ch') := set_idom T ch b c in inv T0 T' ch' l.
  Proof.
    intros W0 F0 Rb Nb [Ib Il] Part [W K J D St F Sm Ls].
    assert (Done : forall x, R x -> r x < r b -> T x <> None).
    { intros x Rx Lx. apply D; [exact Rx|]. intros [->|I]; [lia|]. specialize (Ib x I). lia. }
    assert (Hex : exists p, In p (pl b) /\ T p <> None).
    { destruct (Hpar b Rb Nb) as (u & Ru & Eu & Lu). exists u. split; [apply Hpl; assumption|apply Done; assumption]. }
    destruct (new_idom_spec T fuel b W Hfuel Hex) as (c & E & Ec & Mc). exists c. split; [exact E|].
    assert (Stb : forall x, r b <= r x -> T x = T0 x).
    { intros x Lx. apply St. intros [_ Q]. specialize (Q b (or_introl eq_refl)). lia. }
    assert (Nbl : ~ In b l) by (intros I; specialize (Ib b I); lia).
    assert (Out : forall x, ~ In x l -> x <> b -> ~ In x (b :: l)) by (intros x N1 N2 [->|I]; congruence).
    assert (Low : forall x, R x -> ~ In x l -> x <> b -> r x < r b).
    { intros x Rx N1 N2. destruct (Part x Rx) as [I|Q]; [destruct (Out x N1 N2 I)|apply Q; left; reflexivity]. }
    assert (Upd : (T b = None \/ exists y, T b = Some y /\ y <> c) -> inv T0 (upd T b (Some c)) true l).
    { intros Ch. assert (W' := up_wf T b c W Rb Nb Ec Mc Done). split.
      - exact W'.
      - apply up_kept; assumption.
      - apply (up_moves T b c W Rb Nb Ec Mc Done T0 W0 F0 Stb J).
      - intros x Rx Nx. unfold upd. destruct (Nat.eqb_spec x b); [discriminate|]. apply D; auto.
      - intros x Q. rewrite upd_other.
        + apply St. intros [Rx Q2]. apply Q. split; [exact Rx|]. intros y Iy. apply Q2. right. exact Iy.
        + intros ->. apply Q. split; assumption.
      - intros x Rx Nx. destruct (Nat.eq_dec x b) as [->|Nxb]; [apply up_forward_here; assumption|].
        apply up_forward; try assumption; [apply Low; assumption|]. apply F; auto.
      - discriminate.
      - intros _.
        assert (Lt : total (upd T b (Some c)) L < total T L).
        { apply total_upd; [exact HNd|apply HL; exact Rb|]. unfold val. destruct Ch as [->|(y & Ey & Ny)].
          - pose proof (Hrange c (w_reach T W c Ec)). lia.
          - rewrite Ey. pose proof (up_old T b c Nb Mc J y Ey) as A.
            destruct (w_up T W _ _ Nb Ey) as (Ey' & _ & _). pose proof (anc_le T W _ _ A).
            assert (r c <> r y) by (intros Q; apply Ny; symmetry; apply (anc_eq T W c y A Ey' Q)). lia. }
        destruct ch; [specialize (Ls eq_refl); lia|]. destruct (Sm eq_refl) as [-> _]. exact Lt. }
    unfold set_idom. destruct (T b) as [q|] eqn:Eb.
    - destruct (Nat.eqb_spec q c) as [->|Nq]; [|apply Upd; right; eauto].
      assert (Tb : upd T b (Some c) b = T b) by (rewrite upd_same; congruence).
      split; try assumption.
      + intros x Rx Nx. destruct (Nat.eq_dec x b) as [->|Nxb]; [congruence|apply D; auto].
      + intros x Q. apply St. intros [Rx Q2]. apply Q. split; [exact Rx|]. intros y Iy. apply Q2. right. exact Iy.
      + intros x Rx Nx. destruct (Nat.eq_dec x b) as [->|Nxb]; [|apply F; auto].
        intros y z Ey Iz Rz Lz. assert (y = c) by congruence. subst y. apply (proj1 (Mc c)); [apply anc_refl|exact Iz|]. apply Done; assumption.
      + intros Q. destruct (Sm Q) as [-> Sp]. split; [reflexivity|]. intros x Rx Nx Il'.
        destruct (Nat.eq_dec x b) as [->|Nxb]; [exists c; auto|]. apply Sp; auto.
    - apply Upd. left. reflexivity.
  Qed.

  Lemma sweep_spec T0 : wf T0 -> (forall x, forward_ok T0 x) -> forall l n s T ch,
    chain next s l -> (length l < n)%nat -> (forall b, In b l -> R b /\ b <> entry) -> increasing l ->
    (forall x, R x -> In x l \/ forall y, In y l -> r x < r y) -> inv T0 T ch l ->
    exists T' ch', sweep r next pl fuel n s T ch = Some (T', ch') /\ inv T0 T' ch' [].
  Proof.
    intros W0 F0. induction l as [|b l IH]; intros n s T ch C Fn HR Inc Part I; inversion C; subst; destruct n as [|n]; try (cbn in Fn; lia); cbn [sweep].
    - exists T, ch. auto.
    - destruct (HR b (or_introl eq_refl)) as [Rb Nb].
      destruct (inv_step T0 T ch b l W0 F0 Rb Nb Inc Part I) as (c & E & H). rewrite E.
      destruct (set_idom T ch b c) as [T1 ch1]. apply IH.
      + assumption.
      + cbn in Fn. lia.
      + intros x Ix. apply HR. right. exact Ix.
      + apply Inc.
      + intros x Rx. destruct (Part x Rx) as [[->|Q]|Q]; [right; apply Inc|left; exact Q|right]. intros y Iy. apply Q. right. exact Iy.
      + exact H.
  Qed.

  (** ** the loop *)
  Record base (T : tree) : Prop := { b_wf : wf T; b_kept : dominators_kept T; b_moves : moves_up T; b_fwd : forall x, forward_ok T x }.
  Definition solved (T : tree) := base T /\ (forall x, R x -> T x <> None) /\ (forall x, R x -> x <> entry -> exists c, T x = Some c /\ meets T x c).

  Variable rest : list nat.
  Hypothesis Hrest : L = entry :: rest.
  Hypothesis Hchain : chain next (next entry) rest.
  Hypothesis Hinc : increasing L.
  Hypothesis Hlen : (length L <= fuel)%nat.

  Lemma iterate_spec n : forall T, base T -> total T L < Z.of_nat n -> exists T', iterate r next pl fuel n entry T = Some T' /\ solved T'.
  Proof.
    induction n as [|n IH]; intros T B Ln.
    { assert (H : forall x, In x L -> R x) by (intros x; apply HL). pose proof (total_range T L (b_wf T B) H). lia. }
    cbn [iterate].
    assert (Nin : ~ In entry rest) by (pose proof HNd as Q; rewrite Hrest in Q; inversion Q; assumption).
    destruct (sweep_spec T (b_wf T B) (b_fwd T B) rest fuel (next entry) T false Hchain) as (T1 & ch & E & I).
    - rewrite Hrest in Hlen. cbn in Hlen. lia.
    - intros b Ib. split; [apply HL; rewrite Hrest; right; exact Ib|]. intros ->. contradiction.
    - rewrite Hrest in Hinc. apply Hinc.
    - intros x Rx. apply HL in Rx. rewrite Hrest in Rx, Hinc. destruct Rx as [<-|Ix]; [right; apply Hinc|left; exact Ix].
    - assert (Only : forall x, R x -> ~ In x rest -> x = entry).
      { intros x Rx Nx. apply HL in Rx. rewrite Hrest in Rx. destruct Rx as [<-|Ix]; [reflexivity|contradiction]. }
      destruct B as [W K J F]. split; try assumption; try reflexivity.
      + intros x Rx Nx. rewrite (Only x Rx Nx), (w_entry T W). discriminate.
      + intros x Rx _. apply F.
      + intros _. split; [reflexivity|]. intros x Rx Ne Nx. destruct (Ne (Only x Rx Nx)).
      + discriminate.
    - rewrite E. destruct I as [W K J D St F Sm Ls].
      assert (B1 : base T1).
      { split; try assumption. intros x y z Ex. apply F; [apply (w_reach T1 W); congruence|intros []|exact Ex]. }
      destruct ch.
      + apply IH; [exact B1|]. specialize (Ls eq_refl). lia.
      + exists T1. split; [reflexivity|]. split; [exact B1|]. destruct (Sm eq_refl) as [_ Sp]. split.
        * intros x Rx. apply D; [exact Rx|intros []].
        * intros x Rx Nx. apply Sp; [exact Rx|exact Nx|intros []].
  Qed.

  Lemma solved_dominates T : solved T -> forall a x, R x -> (anc T a x <-> dominates succ entry a x).
  Proof.
    intros (B & D & M) a x Rx. split; [|intros H; apply (b_kept T B); [apply D; exact Rx|exact H]].
    intros A l Wl. revert Rx a A. assert (Gen : forall e l x, walk succ e l x -> e = entry -> R x -> forall a, anc T a x -> In a l).
    { clear - B D M Hpl. intros e l x Wl. induction Wl as [e|e l p x Wl IH E]; intros Ee Rx a A; subst e.
      - apply anc_entry_inv in A. left. symmetry. exact A.
      - destruct (Nat.eq_dec a x) as [->|Na]; [apply in_or_app; right; left; reflexivity|].
        apply in_or_app. left. destruct (Nat.eq_dec x entry) as [->|Nx]; [destruct Na; exact (anc_entry_inv T a A)|].
        assert (Rp : R p) by (apply walk_reach in Wl; exact Wl).
        apply IH; [reflexivity|exact Rp|]. destruct (M x Rx Nx) as (c & Ec & Mc).
        apply (proj1 (Mc a)); [apply (anc_up_inv T a x c A Na Ec)|apply Hpl; assumption|apply D; exact Rp]. }
    intros Rx a A. exact (Gen entry l x Wl eq_refl Rx a A).
  Qed.

  Lemma base_start T : (forall x, T x = None) -> base (upd T entry (Some entry)).
  Proof.
    intros H. assert (E : forall x y, upd T entry (Some entry) x = Some y -> x = entry).
    { intros x y. unfold upd. destruct (Nat.eqb_spec x entry); [auto|rewrite H; discriminate]. }
    split.
    - split; [apply upd_same| |].
      + intros x Q. destruct (upd T entry (Some entry) x) eqn:Ex; [|congruence]. rewrite (E _ _ Ex). apply R_entry.
      + intros x y Nx Q. destruct (Nx (E _ _ Q)).
    - intros x a Q D. destruct (upd T entry (Some entry) x) eqn:Ex; [|congruence]. rewrite (E _ _ Ex) in D |- *.
      pose proof (D _ (walk_one _ _)) as [<-|[]]. apply anc_refl.
    - intros x y a Nx Q. destruct (Nx (E _ _ Q)).
    - intros x y z Q I Rz Lz. rewrite (E _ _ Q) in Lz. pose proof (entry_min z Rz). lia.
  Qed.

  Theorem dominators_spec n T : (forall x, T x = None) -> Z.of_nat (length L) * (N + 1) < Z.of_nat n ->
    exists T', dominators r next pl fuel n entry T = Some T' /\ solved T'.
  Proof.
    intros H Hn. apply iterate_spec; [apply base_start; exact H|].
    assert (Q : forall x, In x L -> R x) by (intros x; apply HL).
    pose proof (total_range _ L (b_wf _ (base_start T H)) Q). lia.
  Qed.
End Tree.
