(** How statements run: what reading a piece may change, environments against variables, expressions inside statements. *)
From Verif.Front Require Export ExprEval StmtPred StmtParse StmtSpec.
Open Scope Z_scope.

(** reading from st to st' may change the blocks X and make new ones *)
Record chg (X : nat -> Prop) (st st' : pst) : Prop := mkchg {
  ch_var : (p_var st <= p_var st')%nat;
  ch_blk : (p_blk st <= p_blk st')%nat;
  ch_init : forall v, (v < p_var st)%nat -> p_init st' v = p_init st v;
  ch_same : forall c, (c < p_blk st)%nat -> ~ X c -> same c st st';
  ch_pre : forall c, (c < p_blk st)%nat -> exists l, p_code st' c = p_code st c ++ l;
  ch_empty : (forall c, (p_blk st <= c)%nat -> empty st c) -> forall c, (p_blk st' <= c)%nat -> empty st' c;
  ch_pred : pl st st' }.
Lemma chg_refl X st : chg X st st.
Proof. constructor; auto; [intros; apply same_refl|intros c _; exists []; rewrite app_nil_r; reflexivity|apply pl_refl]. Qed.
Lemma chg_trans (X Y W : nat -> Prop) st st1 st2 : chg X st st1 -> chg Y st1 st2 -> (forall c, (c < p_blk st)%nat -> X c \/ Y c -> W c) -> chg W st st2.
Proof.
  intros [a1 b1 c1 d1 e1 f1 g1] [a2 b2 c2 d2 e2 f2 g2] H. constructor; try lia.
  - intros v Hv. rewrite c2 by lia. auto.
  - intros c Hc N. eapply same_trans; [apply d1; auto|apply d2; [lia|]]; intros Q; apply N, H; auto.
  - intros c Hc. destruct (e1 c Hc) as [l E]. destruct (e2 c ltac:(lia)) as [l' E']. exists (l ++ l'). rewrite E', E, app_assoc. reflexivity.
  - auto.
  - eapply pl_trans; eauto.
Qed.
Lemma chg_weaken (X W : nat -> Prop) st st' : chg X st st' -> (forall c, (c < p_blk st)%nat -> X c -> W c) -> chg W st st'.
Proof. intros [a b c d e f g] H. constructor; auto. Qed.
Lemma chg_frame st b st' b' : frame [b] st b st' b' -> pl st st' -> chg (eq b) st st'.
Proof. intros [a c d e f g h i j k] P. constructor; auto. intros q Hq N. apply e; [exact Hq|]. cbn. intros [Q|[]]. auto. Qed.
Lemma chg_adds st b l st' : (b < p_blk st)%nat -> adds st b l st' -> pl st st' -> chg (eq b) st st'.
Proof. intros L A P. eapply chg_frame; [eapply adds_frame; eauto|exact P]. Qed.
Lemma chg_insn b o d x y sz str st : (b < p_blk st)%nat -> chg (eq b) st (add_insn b o d x y sz str st).
Proof.
  intros L. apply (chg_adds st b [mkr (mkinsn o d x y) sz str]); [exact L| |apply pl_insn]. constructor; cbn; auto.
Qed.
Lemma chg_connect p d t st st' : (p < p_blk st)%nat -> bb_connect p d t st = Some st' -> chg (eq p) st st' /\ (0 < p_pred st' d)%nat.
Proof.
  intros L H. pose proof (pl_connect _ _ _ _ _ H) as [P Q]. split; [|exact Q]. unfold bb_connect in H. destruct (_ <? _)%nat; [|discriminate]. apply some_inj in H. subst st'.
  constructor; cbn; auto.
  - intros c Hc N. unfold same. cbn. assert (c <> p) by congruence. destruct t; unfold upd; rewrite ?(proj2 (Nat.eqb_neq c p)) by assumption; auto.
  - intros c _. exists []. rewrite app_nil_r. reflexivity.
  - intros E c Hc. specialize (E c Hc). unfold empty in *. cbn in *. assert (c <> p) by lia. destruct t; unfold upd; rewrite ?(proj2 (Nat.eqb_neq c p)) by assumption; exact E.
Qed.
Lemma connect_next p d st st' : bb_connect p d NEXT st = Some st' -> p_next st' p = Some d /\ p_code st' = p_code st /\ p_then st' = p_then st /\ p_else st' = p_else st /\ p_blk st' = p_blk st /\ p_var st' = p_var st /\ p_stack st' = p_stack st.
Proof. unfold bb_connect. destruct (_ <? _)%nat; [|discriminate]. intros H. apply some_inj in H. subst st'. cbn. unfold upd. rewrite Nat.eqb_refl. repeat split. Qed.
Lemma connect_then p d st st' : bb_connect p d THEN st = Some st' -> p_then st' p = Some d /\ p_code st' = p_code st /\ p_next st' = p_next st /\ p_else st' = p_else st /\ p_blk st' = p_blk st /\ p_var st' = p_var st /\ p_stack st' = p_stack st.
Proof. unfold bb_connect. destruct (_ <? _)%nat; [|discriminate]. intros H. apply some_inj in H. subst st'. cbn. unfold upd. rewrite Nat.eqb_refl. repeat split. Qed.
Lemma connect_else p d st st' : bb_connect p d ELSE st = Some st' -> p_else st' p = Some d /\ p_code st' = p_code st /\ p_next st' = p_next st /\ p_then st' = p_then st /\ p_blk st' = p_blk st /\ p_var st' = p_var st /\ p_stack st' = p_stack st.
Proof. unfold bb_connect. destruct (_ <? _)%nat; [|discriminate]. intros H. apply some_inj in H. subst st'. cbn. unfold upd. rewrite Nat.eqb_refl. repeat split. Qed.
Lemma chg_create X k st st' : bb_create st = (k, st') -> chg X st st' /\ k = p_blk st /\ p_blk st' = S (p_blk st) /\ p_var st' = p_var st /\ p_code st' = p_code st /\ p_stack st' = p_stack st.
Proof.
  unfold bb_create. intros H. injection H as <- <-. split; [|repeat split].
  constructor; cbn; auto; [intros; repeat split|intros c _; exists []; rewrite app_nil_r; reflexivity|intros E c Hc; apply E; lia|intros c; cbn; lia].
Qed.
Lemma chg_stack X l st : chg X st (set_stack l st).
Proof. constructor; cbn; auto; [intros; repeat split|intros c _; exists []; rewrite app_nil_r; reflexivity|intros c; cbn; lia]. Qed.
Lemma chg_pop X v st st' : opstack_pop st = Some (v, st') -> chg X st st' /\ p_stack st = v :: p_stack st' /\ p_blk st' = p_blk st /\ p_var st' = p_var st /\ p_code st' = p_code st.
Proof. unfold opstack_pop. destruct (p_stack st) as [|x l] eqn:E; [discriminate|]. intros H. injection H as -> <-. split; [apply chg_stack|]. cbn. repeat split. Qed.
Lemma chg_push X v st st' : opstack_push v st = Some st' -> chg X st st' /\ p_stack st' = v :: p_stack st /\ p_blk st' = p_blk st /\ p_var st' = p_var st /\ p_code st' = p_code st.
Proof. unfold opstack_push. destruct (_ <? _)%nat; [|discriminate]. intros H. apply some_inj in H. subst st'. split; [apply chg_stack|]. cbn. repeat split. Qed.
Lemma chg_require lim X v st st' : require_var lim st = Some (v, st') -> chg X st st' /\ v = p_var st /\ p_var st' = S (p_var st) /\ p_blk st' = p_blk st /\ p_code st' = p_code st /\ p_stack st' = p_stack st.
Proof.
  unfold require_var. destruct (_ <? _)%nat; [|discriminate]. intros H. injection H as <- <-. split; [|repeat split].
  constructor; cbn; auto; [intros; repeat split|intros c _; exists []; rewrite app_nil_r; reflexivity|intros c; cbn; lia].
Qed.
Lemma chg_label lim X st st' : label lim st = Some st' -> chg X st st' /\ p_blk st' = p_blk st /\ p_code st' = p_code st /\ p_stack st' = p_stack st.
Proof. unfold label. destruct (require_var lim st) as [[v s]|] eqn:E; [|discriminate]. intros H. apply some_inj in H. subst s. destruct (chg_require lim X _ _ _ E) as (A & _ & _ & B & C & D). auto. Qed.

(** the blocks a later piece changes are not among those of the piece from (st, b) to (st', o), except its current block *)
Definition closed (O : nat -> Prop) (st : pst) (b : nat) (st' : pst) (o : option nat) : Prop :=
  forall c, O c -> (c < p_blk st')%nat -> o = Some c \/ ((c < p_blk st)%nat /\ c <> b).

(** ** Environments. *)
Definition vt (v : vinfo) : vtype := mkt (vi_ptr v) (vi_array v) (vi_size v).
Definition rel (cs : list (list (text * vinfo))) (E : env) (s : nat -> option Z) : Prop :=
  Forall2 (Forall2 (fun p q => fst p = fst q /\ vt (snd p) = fst (snd q) /\ s (vi_id (snd p)) = snd (snd q))) cs E.
Definition ctypes (cs : list (list (text * vinfo))) : tenv := map (map (fun p => (fst p, vt (snd p)))) cs.
Lemma rel_find cs E s : rel cs E s -> forall x, find_scopes x E = match find_scopes x cs with Some v => Some (vt v, s (vi_id v)) | None => None end.
Proof.
  induction 1 as [|l m cs E H _ IH]; intros x; [reflexivity|]. cbn [find_scopes].
  assert (Q : find_in x m = match find_in x l with Some v => Some (vt v, s (vi_id v)) | None => None end).
  { induction H as [|[y v] [y' [t o]] l m (A & B & C) _ IHl]; [reflexivity|]. cbn in A, B, C. cbn [find_in]. subst. destruct (list_eq_dec Z.eq_dec x y'); [reflexivity|exact IHl]. }
  rewrite Q. destruct (find_in x l); [reflexivity|apply IH].
Qed.
Lemma find_map {A B} (g : A -> B) x (E : list (list (text * A))) : find_scopes x (map (map (fun p => (fst p, g (snd p)))) E) = match find_scopes x E with Some a => Some (g a) | None => None end.
Proof.
  induction E as [|l E IH]; [reflexivity|]. cbn [map find_scopes].
  assert (Q : find_in x (map (fun p => (fst p, g (snd p))) l) = match find_in x l with Some a => Some (g a) | None => None end).
  { induction l as [|[y a] l IHl]; [reflexivity|]. cbn [map find_in fst snd]. destruct (list_eq_dec Z.eq_dec x y); [reflexivity|exact IHl]. }
  rewrite Q. destruct (find_in x l); [reflexivity|exact IH].
Qed.
Lemma find_ctypes x cs : find_scopes x (ctypes cs) = match find_scopes x cs with Some v => Some (vt v) | None => None end.
Proof. apply find_map. Qed.
Lemma rel_types cs E s : rel cs E s -> types E = ctypes cs.
Proof.
  induction 1 as [|l m cs E H _ IH]; [reflexivity|]. unfold types, ctypes in *. cbn [map]. f_equal; [|exact IH].
  induction H as [|[y v] [y' [t o]] l m (A & B & C) _ IHl]; [reflexivity|]. cbn in A, B, C. cbn [map fst snd]. subst. f_equal. exact IHl.
Qed.
Definition ids (cs : list (list (text * vinfo))) : list nat := map (fun p => vi_id (snd p)) (concat cs).
Lemma find_in_In {A} x (l : list (text * A)) a : find_in x l = Some a -> In (x, a) l.
Proof. induction l as [|[y b] l IH]; [discriminate|]. cbn [find_in]. destruct (list_eq_dec Z.eq_dec x y) as [->|]; [intros H; injection H as ->; left; reflexivity|]. intros H. right. auto. Qed.
Lemma find_scopes_In {A} x (E : list (list (text * A))) a : find_scopes x E = Some a -> In (x, a) (concat E).
Proof.
  induction E as [|l E IH]; [discriminate|]. cbn [find_scopes concat]. destruct (find_in x l) eqn:Q; intros H; apply in_or_app; [left; apply find_in_In; congruence|right; auto].
Qed.
Lemma rel_ext cs E s s' : rel cs E s -> (forall u, In u (ids cs) -> s' u = s u) -> rel cs E s'.
Proof.
  intros H. induction H as [|l m cs E H _ IH]; intros X; constructor.
  - assert (Y : forall u, In u (map (fun p => vi_id (snd p)) l) -> s' u = s u).
    { intros u Hu. apply X. unfold ids. cbn [concat]. rewrite map_app. apply in_or_app. left. exact Hu. }
    clear X IH. induction H as [|p q l m (A & B & C) _ IHl]; constructor.
    + repeat split; auto. rewrite Y by (left; reflexivity). exact C.
    + apply IHl. intros u Hu. apply Y. right. exact Hu.
  - apply IH. intros u Hu. apply X. unfold ids in *. cbn [concat]. rewrite map_app. apply in_or_app. right. exact Hu.
Qed.
(** giving a variable a value *)
Lemma rel_change cs E s x v z : rel cs E s -> NoDup (ids cs) -> find_scopes x cs = Some v ->
  rel cs (change x (fun p => (fst p, Some z)) E) (upd s (vi_id v) (Some z)).
Proof.
  intros H. induction H as [|l m cs E H R IH]; intros ND Fi; [discriminate|]. cbn [find_scopes] in Fi. cbn [change].
  unfold ids in ND. cbn [concat] in ND. rewrite map_app in ND.
  assert (Q : find_in x m = match find_in x l with Some v => Some (vt v, s (vi_id v)) | None => None end).
  { clear -H. induction H as [|[y v] [y' [t o]] l m (A & B & C) _ IHl]; [reflexivity|]. cbn in A, B, C. cbn [find_in]. subst. destruct (list_eq_dec Z.eq_dec x y'); [reflexivity|exact IHl]. }
  assert (Dis : forall u, In u (map (fun p => vi_id (snd p)) l) -> In u (map (fun p => vi_id (snd p)) (concat cs)) -> False).
  { intros u A B. clear -ND A B. induction l as [|p l IHl]; [destruct A|]. cbn [map List.app] in ND. inversion ND as [|? ? N ND']; subst. destruct A as [<-|A]; [apply N, in_or_app; right; exact B|auto]. }
  rewrite Q. destruct (find_in x l) as [v'|] eqn:Fl.
  - injection Fi as ->. constructor.
    + assert (NDl : NoDup (map (fun p => vi_id (snd p)) l)) by (clear -ND; induction l as [|p l IHl]; [constructor|]; inversion ND as [|? ? N ND']; subst; constructor; [intros I; apply N, in_or_app; left; exact I|auto]).
      clear -H NDl Fl. induction H as [|[y w] [y' [t o]] l m (A & B & C) R IHl]; [discriminate|]. cbn in A, B, C, Fl. cbn [change_in]. subst y'. inversion NDl as [|? ? N ND']; subst.
      destruct (list_eq_dec Z.eq_dec x y) as [->|Nx].
      * injection Fl as ->. constructor; [cbn; unfold upd; rewrite Nat.eqb_refl; auto|]. clear -R N. induction R as [|p q l m (A & B & C) R IHl]; constructor.
        -- repeat split; auto. unfold upd. destruct (Nat.eqb_spec (vi_id (snd p)) (vi_id v)) as [E|]; [exfalso; apply N; left; exact E|exact C].
        -- apply IHl. intros I. apply N. right. exact I.
      * constructor; [|apply IHl; assumption]. cbn. repeat split; auto. unfold upd. destruct (Nat.eqb_spec (vi_id w) (vi_id v)) as [E|]; [|reflexivity].
        exfalso. apply N. cbn [snd]. rewrite E. apply find_in_In in Fl. apply (in_map (fun p => vi_id (snd p)) l (x, v)). exact Fl.
    + eapply rel_ext; [exact R|]. intros u Hu. unfold upd. destruct (Nat.eqb_spec u (vi_id v)) as [->|]; [|reflexivity].
      exfalso. eapply (Dis (vi_id v)); [|exact Hu]. apply find_in_In in Fl. apply (in_map (fun p => vi_id (snd p)) l (x, v)). exact Fl.
  - constructor.
    + assert (N : ~ In (vi_id v) (map (fun p => vi_id (snd p)) l)).
      { intros I. apply (Dis _ I). apply find_scopes_In in Fi. apply (in_map (fun p => vi_id (snd p)) (concat cs) (x, v)). exact Fi. }
      clear -H N. induction H as [|p q l m (A & B & C) R IHl]; constructor.
      * repeat split; auto. unfold upd. destruct (Nat.eqb_spec (vi_id (snd p)) (vi_id v)) as [E|]; [exfalso; apply N; left; exact E|exact C].
      * apply IHl. intros I. apply N. right. exact I.
    + apply IH; [|exact Fi]. clear -ND. induction l as [|p l IHl]; [exact ND|]. inversion ND; auto.
Qed.

(** ** The specification's parameters, pointwise. *)
Scheme ceval_mut := Minimality for ceval Sort Prop with cevals_mut := Minimality for cevals Sort Prop.
Lemma ceval_ext {world : Type} (rho rho' : text -> world -> option Z) es es' load calls e w v w' :
  (forall x w, rho x w = rho' x w) -> (forall x, es x = es' x) -> ceval rho es load calls e w v w' -> ceval rho' es' load calls e w v w'.
Proof.
  intros Hr He H. revert e w v w' H. apply (ceval_mut world rho es load calls (ceval rho' es' load calls) (cevals rho' es' load calls)); intros; try (econstructor; eauto; fail).
  - apply E_var. rewrite <- Hr. assumption.
  - eapply E_idx; [rewrite <- Hr; eassumption|eassumption|rewrite <- He; assumption].
Qed.
Lemma cevals_ext {world : Type} (rho rho' : text -> world -> option Z) es es' load calls e w v w' :
  (forall x w, rho x w = rho' x w) -> (forall x, es x = es' x) -> cevals rho es load calls e w v w' -> cevals rho' es' load calls e w v w'.
Proof.
  intros Hr He H. induction H; econstructor; eauto. eapply ceval_ext; eauto.
Qed.
Lemma fine_ext c p p' v v' sp : (forall x, p x = p' x) -> (forall x, v x = v' x) -> forall e, fine c p v sp e = fine c p' v' sp e.
Proof.
  intros Hp Hv.
  assert (En : forall e, ends_pointer c p e = ends_pointer c p' e).
  { induction e; cbn [ends_pointer]; auto. rewrite Hp. reflexivity. }
  fix IH 1. intros [l|ch|x|x i|u e1|o a b|d a b|e1|f args]; cbn [fine]; rewrite ?Hv; try reflexivity.
  - rewrite (IH i). reflexivity.
  - rewrite (IH e1). reflexivity.
  - rewrite (IH a), (IH b), En. reflexivity.
  - rewrite (IH d), (IH a), (IH b). reflexivity.
  - apply IH.
  - f_equal. induction args as [|a args IHa]; [reflexivity|]. cbn [forallb]. rewrite (IH a), IHa. reflexivity.
Qed.
Lemma settled_ext c g g' : (forall x, g x = g' x) -> forall e, no_globals c g e = no_globals c g' e.
Proof.
  intros Hg. fix IH 1. intros [l|ch|x|x i|u e1|o a b|d a b|e1|f args]; cbn [no_globals]; rewrite ?Hg; try reflexivity; try apply IH.
  - rewrite (IH i). reflexivity.
  - rewrite (IH a), (IH b). reflexivity.
  - rewrite (IH d), (IH a), (IH b). reflexivity.
  - induction args as [|a args IHa]; [reflexivity|]. cbn [forallb]. rewrite (IH a), IHa. reflexivity.
Qed.
