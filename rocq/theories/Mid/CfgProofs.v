From Verif.Mid Require Import Cfg Graph.

Section Equations.
  Context {St : Type}.
  Variable succ : nat -> list nat.
  Variables pre post : nat -> St -> St.
  Variable V : Z.
  Fixpoint each (fuel : nat) (l : list nat) (s : tstate) : option (@tstate St) :=
    match l with
    | [] => Some s
    | n :: r => if fst s n <? V then match traverse succ pre post V fuel n s with Some s => each fuel r s | None => None end
                else each fuel r s
    end.
  Lemma traverse_eq fuel bb vis st :
    traverse succ pre post V (S fuel) bb (vis, st) =
    match each fuel (succ bb) (upd vis bb (vis bb + 1), pre bb st) with
    | None => None
    | Some (vis, st) => Some (vis, post bb st)
    end.
  Proof.
    cbn [traverse].
    match goal with |- match ?f (succ bb) ?s with _ => _ end = _ =>
      assert (E : forall l s0, f l s0 = each fuel l s0) end.
    { induction l as [|c l IH]; intros s0; [reflexivity|]. cbn [each].
      destruct (fst s0 c <? V); [|apply IH]. destruct (traverse succ pre post V fuel c s0); [apply IH|reflexivity]. }
    rewrite E. reflexivity.
  Qed.
End Equations.

Lemma upd_same {A} (f : nat -> A) i v : upd f i v i = v.
Proof. unfold upd. rewrite Nat.eqb_refl. reflexivity. Qed.
Lemma upd_other {A} (f : nat -> A) i j v : j <> i -> upd f i v j = f j.
Proof. unfold upd. destruct (Nat.eqb_spec j i); congruence. Qed.

(** the search without callbacks, returning the finished blocks in order *)
Section Search.
  Variable succ : nat -> list nat.
  Variable V : Z.
  Definition snoc (b : nat) (l : list nat) := l ++ [b].
  Definition search := traverse succ nop snoc V.
  Definition search_each := each succ nop snoc V.
  (** the same for the discovery order *)
End Search.

(** a callback in postorder is a fold over the list of finished blocks *)
Section Fold.
  Context {St : Type}.
  Variable succ : nat -> list nat.
  Variable post : nat -> St -> St.
  Variable V : Z.
  Definition fold (l : list nat) (st : St) := fold_left (fun s b => post b s) l st.
  Lemma fold_app l1 l2 st : fold (l1 ++ l2) st = fold l2 (fold l1 st).
  Proof. apply fold_left_app. Qed.

  Lemma traverse_fold fuel : forall b vis vis' l0 l st,
    search succ V fuel b (vis, l0) = Some (vis', l) ->
    exists l1, l = l0 ++ l1 /\ traverse succ nop post V fuel b (vis, st) = Some (vis', fold l1 st).
  Proof.
    induction fuel as [|fuel IH]; intros b vis vis' l0 l st H; [discriminate|].
    unfold search in H. rewrite traverse_eq in H. rewrite traverse_eq. unfold nop in *.
    assert (E : forall cs v1 v2 m0 m s0, each succ (fun _ s => s) snoc V fuel cs (v1, m0) = Some (v2, m) ->
              exists m1, m = m0 ++ m1 /\ each succ (fun _ s => s) post V fuel cs (v1, s0) = Some (v2, fold m1 s0)).
    { induction cs as [|c cs IHc]; intros v1 v2 m0 m s0 E; cbn [each fst] in *.
      - inversion E; subst. exists []. rewrite app_nil_r. split; reflexivity.
      - destruct (v1 c <? V).
        + destruct (traverse succ (fun _ s => s) snoc V fuel c (v1, m0)) as [[v3 m3]|] eqn:T; [|discriminate].
          destruct (IH _ _ _ _ _ s0 T) as (k & -> & T'). unfold nop in T'. rewrite T'.
          destruct (IHc _ _ _ _ (fold k s0) E) as (k' & -> & ->). exists (k ++ k'). rewrite app_assoc, fold_app. split; reflexivity.
        + destruct (IHc _ _ _ _ s0 E) as (k' & -> & ->). exists k'. split; reflexivity. }
    destruct (each succ _ snoc V fuel (succ b) _) as [[v2 m]|] eqn:Q; [|discriminate].
    inversion H; subst. destruct (E _ _ _ _ _ st Q) as (k & -> & ->).
    exists (k ++ [b]). unfold snoc. rewrite <- app_assoc, fold_app. split; reflexivity.
  Qed.
End Fold.

(** x comes before y in l *)
Definition before (l : list nat) (x y : nat) : Prop := exists l1 l2, l = l1 ++ l2 /\ In x l1 /\ In y l2.
Lemma before_l l m x y : before l x y -> before (l ++ m) x y.
Proof. intros (a & b & -> & H1 & H2). exists a, (b ++ m). rewrite app_assoc. repeat split; auto using in_or_app. Qed.
Lemma before_r l m x y : before m x y -> before (l ++ m) x y.
Proof. intros (a & b & -> & H1 & H2). exists (l ++ a), b. rewrite app_assoc. repeat split; auto using in_or_app. Qed.
Lemma before_app l m x y : In x l -> In y m -> before (l ++ m) x y.
Proof. intros H1 H2. exists l, m. auto. Qed.

Lemma filter_le (p q : nat -> bool) l : (forall x, In x l -> q x = true -> p x = true) ->
  (length (filter q l) <= length (filter p l))%nat.
Proof.
  induction l as [|u l IH]; intros H; [apply le_n|]. cbn [filter].
  assert (IH' := IH (fun x I => H x (or_intror I))).
  destruct (q u) eqn:E; [rewrite (H u (or_introl eq_refl) E); cbn; lia|destruct (p u); cbn; lia].
Qed.
Lemma filter_lt (p q : nat -> bool) b l : In b l -> p b = true -> q b = false ->
  (forall x, In x l -> q x = true -> p x = true) -> (length (filter q l) < length (filter p l))%nat.
Proof.
  intros I W B. induction l as [|u l IH]; intros H; [destruct I|]. cbn [filter].
  pose proof (filter_le p q l (fun x I => H x (or_intror I))).
  destruct I as [->|I]; [rewrite W, B; cbn; lia|].
  specialize (IH I (fun x J => H x (or_intror J))).
  destruct (q u) eqn:E; [rewrite (H u (or_introl eq_refl) E); cbn; lia|destruct (p u); cbn; lia].
Qed.

Section Dfs.
  Variable succ : nat -> list nat.
  Variable V : Z.
  Variable root : nat.
  Variable U : list nat.
  Hypothesis HU : forall x, reach succ root x -> In x U.

  Definition white (vis : nat -> Z) (x : nat) := vis x <? V.
  Definition wcount (vis : nat -> Z) : nat := length (filter (white vis) U).
  Definition okvis (vis : nat -> Z) := forall x, reach succ root x -> vis x = V - 1 \/ vis x = V.

  (** what one call contributes: the list L of newly finished blocks *)
  Record contrib (vis vis' : nat -> Z) (from : list nat) (L : list nat) : Prop := {
    k_nodup : NoDup L;
    k_white : forall x, In x L -> white vis x = true;
    k_vis : forall x, vis' x = if in_dec Nat.eq_dec x L then vis x + 1 else vis x;
    k_reach : forall x, In x L -> exists c, In c from /\ reach succ c x;
    k_closed : forall x y, In x L -> In y (succ x) -> In y L \/ white vis y = false;
    k_order : forall x y, In x L -> In y (succ x) -> In y L -> before L y x \/ reach succ y x;
    k_parent : forall x, In x L -> In x from \/ exists y, In y L /\ In x (succ y) /\ before L x y }.


  Definition vis_plus (vis : nat -> Z) (L : list nat) (vis' : nat -> Z) :=
    forall x, vis' x = if in_dec Nat.eq_dec x L then vis x + 1 else vis x.

  Lemma white_mono vis vis' from L : contrib vis vis' from L -> forall x, white vis' x = true -> white vis x = true.
  Proof. intros K x H. unfold white in *. rewrite (k_vis _ _ _ _ K x) in H. destruct (in_dec Nat.eq_dec x L); lia. Qed.

  Lemma contrib_nil vis from : contrib vis vis from [].
  Proof.
    split; try (intros x []; fail); try (intros x y []; fail).
    - constructor.
    - intros x. destruct (in_dec Nat.eq_dec x []) as [[]|]; reflexivity.
  Qed.

  Lemma contrib_app vis vis1 vis2 f1 f2 L1 L2 : okvis vis -> (forall c, In c f1 -> reach succ root c) ->
    contrib vis vis1 f1 L1 -> contrib vis1 vis2 f2 L2 -> contrib vis vis2 (f1 ++ f2) (L1 ++ L2).
  Proof.
    intros OK R K1 K2. pose proof (white_mono _ _ _ _ K1) as WM.
    assert (D : forall x, In x L1 -> In x L2 -> False).
    { intros x I1 I2. pose proof (k_white _ _ _ _ K2 x I2) as W2. pose proof (k_white _ _ _ _ K1 x I1) as W1.
      destruct (k_reach _ _ _ _ K1 x I1) as (c & Ic & Rc). pose proof (OK x (reach_trans _ _ _ _ (R c Ic) Rc)) as O.
      unfold white in *. rewrite (k_vis _ _ _ _ K1 x) in W2. destruct (in_dec Nat.eq_dec x L1); [lia|contradiction]. }
    split.
    - pose proof (k_nodup _ _ _ _ K1) as N1. pose proof (k_nodup _ _ _ _ K2) as N2. clear - D N1 N2.
      induction L1 as [|a L IH]; [exact N2|]. inversion N1; subst. cbn. constructor.
      + intros I. apply in_app_or in I as [I|I]; [contradiction|]. exact (D a (or_introl eq_refl) I).
      + apply IH; auto. intros x I1 I2. exact (D x (or_intror I1) I2).
    - intros x I. apply in_app_or in I as [I|I]; [exact (k_white _ _ _ _ K1 x I)|]. apply WM. exact (k_white _ _ _ _ K2 x I).
    - intros x. rewrite (k_vis _ _ _ _ K2 x), (k_vis _ _ _ _ K1 x).
      destruct (in_dec Nat.eq_dec x (L1 ++ L2)) as [I|I].
      + apply in_app_or in I as [I|I]; destruct (in_dec Nat.eq_dec x L1), (in_dec Nat.eq_dec x L2); try contradiction; try reflexivity; exfalso; eauto.
      + destruct (in_dec Nat.eq_dec x L1); [destruct I; auto using in_or_app|].
        destruct (in_dec Nat.eq_dec x L2); [destruct I; auto using in_or_app|]. reflexivity.
    - intros x I. apply in_app_or in I as [I|I]; [destruct (k_reach _ _ _ _ K1 x I) as (c & ? & ?)|destruct (k_reach _ _ _ _ K2 x I) as (c & ? & ?)];
        exists c; auto using in_or_app.
    - intros x y I E. apply in_app_or in I as [I|I].
      + destruct (k_closed _ _ _ _ K1 x y I E) as [J|J]; auto using in_or_app.
      + destruct (k_closed _ _ _ _ K2 x y I E) as [J|J]; [auto using in_or_app|].
        destruct (white vis y) eqn:W; [|auto]. left. apply in_or_app. left.
        unfold white in *. rewrite (k_vis _ _ _ _ K1 y) in J. destruct (in_dec Nat.eq_dec y L1); [assumption|lia].
    - intros x y I E J. apply in_app_or in I as [I|I]; apply in_app_or in J as [J|J].
      + destruct (k_order _ _ _ _ K1 x y I E J); auto using before_l.
      + exfalso. destruct (k_closed _ _ _ _ K1 x y I E) as [Q|Q]; [eauto|].
        pose proof (WM y (k_white _ _ _ _ K2 y J)). congruence.
      + left. apply before_app; assumption.
      + destruct (k_order _ _ _ _ K2 x y I E J); auto using before_r.
    - intros x I. apply in_app_or in I as [I|I].
      + destruct (k_parent _ _ _ _ K1 x I) as [J|(y & A & B & C)]; [auto using in_or_app|].
        right. exists y. auto using in_or_app, before_l.
      + destruct (k_parent _ _ _ _ K2 x I) as [J|(y & A & B & C)]; [auto using in_or_app|].
        right. exists y. auto using in_or_app, before_r.
  Qed.

  Lemma contrib_okvis vis vis' from L : okvis vis -> contrib vis vis' from L -> okvis vis'.
  Proof.
    intros OK K x R. rewrite (k_vis _ _ _ _ K x). destruct (in_dec Nat.eq_dec x L) as [I|I]; [|exact (OK x R)].
    pose proof (k_white _ _ _ _ K x I) as W. unfold white in W. destruct (OK x R); lia.
  Qed.

  Lemma dfs fuel : forall b vis l0, reach succ root b -> okvis vis -> white vis b = true -> (wcount vis <= fuel)%nat ->
    exists vis' L, search succ V fuel b (vis, l0) = Some (vis', l0 ++ L ++ [b]) /\ contrib vis vis' [b] (L ++ [b]).
  Proof.
    induction fuel as [|fuel IH]; intros b vis l0 R OK W F.
    { exfalso. unfold wcount in F. assert (I : In b (filter (white vis) U)) by (apply filter_In; auto).
      destruct (filter (white vis) U); [destruct I|cbn in F; lia]. }
    unfold search. rewrite traverse_eq. unfold nop at 2.
    set (vis1 := upd vis b (vis b + 1)).
    assert (Vb : vis b = V - 1) by (destruct (OK b R) as [H|H]; [exact H|unfold white in W; lia]).
    assert (OK1 : okvis vis1).
    { intros x Rx. unfold vis1, upd. destruct (Nat.eqb_spec x b) as [->|]; [right; lia|exact (OK x Rx)]. }
    assert (W1 : forall x, white vis1 x = true -> white vis x = true).
    { intros x. unfold white, vis1, upd. destruct (Nat.eqb_spec x b) as [->|]; [lia|auto]. }
    assert (B1 : white vis1 b = false) by (unfold white, vis1; rewrite upd_same; lia).
    assert (F1 : (wcount vis1 <= fuel)%nat).
    { pose proof (filter_lt (white vis) (white vis1) b U (HU b R) W B1 (fun x _ => W1 x)). unfold wcount in *. lia. }
    assert (E : forall cs v m, (forall c, In c cs -> reach succ root c) -> okvis v -> (wcount v <= fuel)%nat ->
       exists v' M, search_each succ V fuel cs (v, m) = Some (v', m ++ M) /\ contrib v v' cs M /\ forall c, In c cs -> white v' c = false).
    { induction cs as [|c cs IHc]; intros v m Rc OKv Fv.
      - exists v, []. rewrite app_nil_r. split; [reflexivity|]. split; [apply contrib_nil|intros c []].
      - unfold search_each. cbn [each fst]. destruct (v c <? V) eqn:Wc.
        + destruct (IH c v m (Rc c (or_introl eq_refl)) OKv Wc Fv) as (v2 & L & T & K).
          unfold search in T. rewrite T.
          assert (OK2 := contrib_okvis _ _ _ _ OKv K).
          assert (F2 : (wcount v2 <= fuel)%nat).
          { pose proof (filter_le (white v) (white v2) U (fun x _ => white_mono _ _ _ _ K x)). unfold wcount in *. lia. }
          destruct (IHc v2 (m ++ L ++ [c]) (fun x I => Rc x (or_intror I)) OK2 F2) as (v3 & M & T3 & K3 & A3).
          exists v3, ((L ++ [c]) ++ M). unfold search_each in T3. rewrite T3, !app_assoc. split; [reflexivity|].
          split.
          * rewrite <- app_assoc. change (c :: cs) with ([c] ++ cs). rewrite app_assoc.
            eapply contrib_app; try eassumption. intros x [<-|[]]. apply Rc. left. reflexivity.
          * intros x [<-|I]; [|exact (A3 x I)].
            destruct (white v3 c) eqn:Q; [|reflexivity]. pose proof (white_mono _ _ _ _ K3 c Q) as Q2.
            unfold white in Q2. rewrite (k_vis _ _ _ _ K c) in Q2.
            destruct (in_dec Nat.eq_dec c (L ++ [c])) as [I|I]; [|destruct I; apply in_or_app; right; left; reflexivity].
            destruct (OKv c (Rc c (or_introl eq_refl))); lia.
        + destruct (IHc v m (fun x I => Rc x (or_intror I)) OKv Fv) as (v3 & M & T3 & K3 & A3).
          exists v3, M. split; [exact T3|]. split.
          * destruct K3 as [A B C D G H P]. split; try assumption.
            -- intros x I. destruct (D x I) as (d & ? & ?). exists d. split; [right|]; assumption.
            -- intros x I. destruct (P x I) as [J|J]; [left; right; exact J|right; exact J].
          * intros x [<-|I]; [|exact (A3 x I)]. destruct (white v3 c) eqn:Q; [|reflexivity].
            pose proof (white_mono _ _ _ _ K3 c Q). unfold white in *. congruence. }
    destruct (E (succ b) vis1 l0 (fun c I => reach_step _ _ _ _ R I) OK1 F1) as (v' & M & T & K & A).
    exists v', M. unfold search_each, nop in T. unfold nop. rewrite T. unfold snoc. rewrite app_assoc. split; [reflexivity|].
    assert (NB : ~ In b M) by (intros I; pose proof (k_white _ _ _ _ K b I); congruence).
    assert (RM : forall x, In x M -> reach succ b x).
    { intros x I. destruct (k_reach _ _ _ _ K x I) as (c & Ic & Rc). exact (reach_front _ _ _ _ Ic Rc). }
    split.
    - clear - NB K. pose proof (k_nodup _ _ _ _ K) as N. clear K. induction M as [|a M IH]; cbn; [repeat constructor; intros []|].
      inversion N; subst. constructor.
      + intros I. apply in_app_or in I as [I|[->|[]]]; [contradiction|]. apply NB. left. reflexivity.
      + apply IH; [intros I; apply NB; right; exact I|assumption].
    - intros x I. apply in_app_or in I as [I|[<-|[]]]; [apply W1; exact (k_white _ _ _ _ K x I)|exact W].
    - intros x. rewrite (k_vis _ _ _ _ K x). unfold vis1, upd.
      destruct (Nat.eqb_spec x b) as [->|Nb].
      + destruct (in_dec Nat.eq_dec b M); [contradiction|]. destruct (in_dec Nat.eq_dec b (M ++ [b])) as [|Q]; [reflexivity|].
        destruct Q. apply in_or_app. right. left. reflexivity.
      + destruct (in_dec Nat.eq_dec x M), (in_dec Nat.eq_dec x (M ++ [b])) as [I|I]; try reflexivity.
        * destruct I. auto using in_or_app.
        * apply in_app_or in I as [I|[I|[]]]; congruence.
    - intros x I. exists b. split; [left; reflexivity|]. apply in_app_or in I as [I|[<-|[]]]; [exact (RM x I)|apply reach_refl].
    - intros x y I E'. apply in_app_or in I as [I|[<-|[]]].
      + destruct (k_closed _ _ _ _ K x y I E') as [J|J]; [auto using in_or_app|].
        unfold white, vis1, upd in J. destruct (Nat.eqb_spec y b) as [->|]; [left; apply in_or_app; right; left; reflexivity|right; exact J].
      + pose proof (A y E') as J. unfold white in J. rewrite (k_vis _ _ _ _ K y) in J.
        destruct (in_dec Nat.eq_dec y M); [auto using in_or_app|]. unfold vis1, upd in J.
        destruct (Nat.eqb_spec y b) as [->|]; [left; apply in_or_app; right; left; reflexivity|right; exact J].
    - intros x y I E' J. apply in_app_or in I as [I|[<-|[]]]; apply in_app_or in J as [J|[<-|[]]].
      + destruct (k_order _ _ _ _ K x y I E' J); auto using before_l.
      + right. exact (RM x I).
      + left. apply before_app; [exact J|left; reflexivity].
      + right. apply reach_refl.
    - intros x I. apply in_app_or in I as [I|[<-|[]]]; [|left; left; reflexivity]. right.
      destruct (k_parent _ _ _ _ K x I) as [J|(y & Y1 & Y2 & Y3)].
      + exists b. split; [apply in_or_app; right; left; reflexivity|]. split; [exact J|].
        apply before_app; [exact I|left; reflexivity].
      + exists y. auto using in_or_app, before_l.
  Qed.
End Dfs.

(** the same for a callback in preorder: a fold over the blocks in order of discovery *)
From Coq Require Import Permutation.
Lemma traverse_pre {St} succ V (pre : nat -> St -> St) fuel : forall b vis vis' l0 l st,
  search succ V fuel b (vis, l0) = Some (vis', l) ->
  exists l1 d, l = l0 ++ l1 /\ Permutation d l1 /\ traverse succ pre nop V fuel b (vis, st) = Some (vis', fold pre d st).
Proof.
  induction fuel as [|fuel IH]; intros b vis vis' l0 l st H; [discriminate|].
  unfold search in H. rewrite traverse_eq in H. rewrite traverse_eq. unfold nop in *.
  assert (E : forall cs v1 v2 m0 m s0, each succ (fun _ s => s) snoc V fuel cs (v1, m0) = Some (v2, m) ->
            exists m1 d, m = m0 ++ m1 /\ Permutation d m1 /\ each succ pre (fun _ s => s) V fuel cs (v1, s0) = Some (v2, fold pre d s0)).
  { induction cs as [|c cs IHc]; intros v1 v2 m0 m s0 E; cbn [each fst] in *.
    - inversion E; subst. exists [], []. rewrite app_nil_r. repeat split. constructor.
    - destruct (v1 c <? V).
      + destruct (traverse succ (fun _ s => s) snoc V fuel c (v1, m0)) as [[v3 m3]|] eqn:T; [|discriminate].
        destruct (IH _ _ _ _ _ s0 T) as (k & d & -> & P & T'). unfold nop in T'. rewrite T'.
        destruct (IHc _ _ _ _ (fold pre d s0) E) as (k' & d' & -> & P' & ->). exists (k ++ k'), (d ++ d').
        rewrite app_assoc, fold_app. repeat split. apply Permutation_app; assumption.
      + destruct (IHc _ _ _ _ s0 E) as (k' & d' & -> & P' & ->). exists k', d'. repeat split. exact P'. }
  destruct (each succ _ snoc V fuel (succ b) _) as [[v2 m]|] eqn:Q; [|discriminate].
  inversion H; subst. destruct (E _ _ _ _ _ (pre b st) Q) as (k & d & -> & P & ->).
  exists (k ++ [b]), (b :: d). unfold snoc. rewrite <- app_assoc. repeat split.
  rewrite Permutation_app_comm. cbn. constructor. exact P.
Qed.

(** a complete search from the root meets every reachable block once *)
Lemma search_all succ head U vis V fuel :
  (forall x, reach succ head x -> In x U) -> (forall x, reach succ head x -> vis x = V) -> (length U <= fuel)%nat ->
  exists vis' P, search succ (V + 1) fuel head (vis, []) = Some (vis', P) /\ NoDup P /\
    (forall b, In b P <-> reach succ head b) /\ (forall x, reach succ head x -> vis' x = V + 1).
Proof.
  intros HU Hv F.
  destruct (dfs succ (V + 1) head U HU fuel head vis []) as (v1 & P & T1 & K1).
  - apply reach_refl.
  - intros x Rx. left. rewrite (Hv x Rx). lia.
  - unfold white. rewrite (Hv head (reach_refl _ _)). lia.
  - unfold wcount. transitivity (length U); [|lia].
    pose proof (filter_le (fun _ => true) (white (V + 1) vis) U (fun _ _ _ => eq_refl)) as Q.
    replace (filter (fun _ => true) U) with U in Q; [exact Q|]. clear. induction U; cbn; congruence.
  - cbn [app] in T1. exists v1, (P ++ [head]). split; [exact T1|]. split; [apply (k_nodup _ _ _ _ _ _ K1)|].
    assert (AllP : forall b, In b (P ++ [head]) <-> reach succ head b).
    { intros b. split.
      - intros I. destruct (k_reach _ _ _ _ _ _ K1 b I) as (c & [<-|[]] & Rc). exact Rc.
      - intros Rc. induction Rc as [a|a b c Rc IH E]; [apply in_or_app; right; left; reflexivity|].
        assert (Ib : In b (P ++ [a])) by (apply IH; auto).
        destruct (k_closed _ _ _ _ _ _ K1 b c Ib E) as [I|W]; [exact I|].
        unfold white in W. rewrite (Hv c (reach_step _ _ _ _ Rc E)) in W. lia. }
    split; [exact AllP|]. intros x Rx. rewrite (k_vis _ _ _ _ _ _ K1 x), (Hv x Rx).
    destruct (in_dec Nat.eq_dec x (P ++ [head])) as [|NQ]; [reflexivity|]. destruct NQ. apply AllP, Rx.
Qed.
Lemma traverse_pre_all {St} succ head U vis V fuel (pre : nat -> St -> St) st :
  (forall x, reach succ head x -> In x U) -> (forall x, reach succ head x -> vis x = V) -> (length U <= fuel)%nat ->
  exists vis' D, traverse succ pre nop (V + 1) fuel head (vis, st) = Some (vis', fold pre D st) /\ NoDup D /\
    (forall b, In b D <-> reach succ head b) /\ (forall x, reach succ head x -> vis' x = V + 1).
Proof.
  intros HU Hv F. destruct (search_all succ head U vis V fuel HU Hv F) as (v & P & E & Nd & A & Hv').
  destruct (traverse_pre succ (V + 1) pre fuel head vis v [] P st E) as (P1 & D & EP & Pm & T). cbn [app] in EP. subst P1.
  exists v, D. split; [exact T|]. split; [apply (Permutation_NoDup (Permutation_sym Pm) Nd)|]. split; [|exact Hv'].
  intros b. rewrite <- A. split; apply Permutation_in; [|apply Permutation_sym]; exact Pm.
Qed.
Lemma traverse_post_all {St} succ head U vis V fuel (post : nat -> St -> St) st :
  (forall x, reach succ head x -> In x U) -> (forall x, reach succ head x -> vis x = V) -> (length U <= fuel)%nat ->
  exists vis' D, traverse succ nop post (V + 1) fuel head (vis, st) = Some (vis', fold post D st) /\ NoDup D /\
    (forall b, In b D <-> reach succ head b) /\ (forall x, reach succ head x -> vis' x = V + 1).
Proof.
  intros HU Hv F. destruct (search_all succ head U vis V fuel HU Hv F) as (v & P & E & Nd & A & Hv').
  destruct (traverse_fold succ post (V + 1) fuel head vis v [] P st E) as (P1 & EP & T). cbn [app] in EP. subst P1.
  exists v, P. auto.
Qed.
