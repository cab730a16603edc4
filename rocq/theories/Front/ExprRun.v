(** How the code the expression reader produces runs: positions in blocks, what a piece of the reader may change, and how
    pieces compose. *)
From Verif.Mid Require Export AllocSpec.
From Verif.Front Require Export ExprParse ExprUnfold ExprSpec.
Open Scope Z_scope.

Definition len (st : pst) (b : nat) : nat := length (p_code st b).
Definition same (c : nat) (s t : pst) : Prop :=
  p_code t c = p_code s c /\ p_next t c = p_next s c /\ p_then t c = p_then s c /\ p_else t c = p_else s c.
Definition edges (c : nat) (s t : pst) : Prop := p_next t c = p_next s c /\ p_then t c = p_then s c /\ p_else t c = p_else s c.
Definition empty (st : pst) (c : nat) : Prop := p_code st c = [] /\ p_next st c = None /\ p_then st c = None /\ p_else st c = None.

(** the piece of the reader from (st, b) to (st', b') may change the blocks X and make new ones *)
Record frame (X : list nat) (st : pst) (b : nat) (st' : pst) (b' : nat) : Prop := mkframe {
  fr_var : (p_var st <= p_var st')%nat;
  fr_blk : (p_blk st <= p_blk st')%nat;
  fr_init : forall v, (v < p_var st)%nat -> p_init st' v = p_init st v;
  fr_same : forall c, (c < p_blk st)%nat -> ~ In c X -> same c st st';
  fr_pre : forall c, (c < p_blk st)%nat -> exists l, p_code st' c = p_code st c ++ l;
  fr_cur : b' = b \/ (p_blk st <= b')%nat;
  fr_lt : (b < p_blk st)%nat -> (b' < p_blk st')%nat;
  fr_in : In b X;
  fr_edges : b' = b -> edges b st st';
  fr_empty : (forall c, (p_blk st <= c)%nat -> empty st c) -> forall c, (p_blk st' <= c)%nat -> empty st' c }.
(** in the final function F, the blocks of this piece are as they were left in st'; b' may have been extended, and the blocks
    K are still open *)
Record owns (F : pst) (K X : list nat) (st st' : pst) (b' : nat) : Prop := mkowns {
  ow_init : forall v, (p_var st <= v < p_var st')%nat -> p_init F v = p_init st' v;
  ow_same : forall c, ~ In c K -> c <> b' -> In c X \/ (p_blk st <= c < p_blk st')%nat -> same c st' F;
  ow_pre : exists l, p_code F b' = p_code st' b' ++ l }.

Lemma same_refl c st : same c st st.
Proof. repeat split. Qed.
Lemma same_trans c s t u : same c s t -> same c t u -> same c s u.
Proof. intros (A & B & C & D) (A' & B' & C' & D'). repeat split; congruence. Qed.
Lemma same_sym c s t : same c s t -> same c t s.
Proof. intros (A & B & C & D). repeat split; congruence. Qed.
Lemma frame_refl X st b : In b X -> frame X st b st b.
Proof.
  intros I. constructor; auto.
  - intros. apply same_refl.
  - intros c _. exists []. rewrite app_nil_r. reflexivity.
  - intros _. repeat split.
Qed.
Lemma frame_weaken X Y st b st' b' : frame X st b st' b' -> incl X Y -> frame Y st b st' b'.
Proof. intros H I. destruct H. constructor; auto. Qed.
Lemma frame_trans X Y st b st1 b1 st2 b2 :
  (b < p_blk st)%nat -> frame X st b st1 b1 -> frame Y st1 b1 st2 b2 -> (forall c, In c Y -> In c X \/ (p_blk st <= c)%nat) -> frame X st b st2 b2.
Proof.
  intros L H1 H2 HY.
  destruct H1 as [v1 k1 i1 s1 p1 c1 l1 n1 e1 m1], H2 as [v2 k2 i2 s2 p2 c2 l2 n2 e2 m2]. constructor; auto; try lia.
  - intros v Hv. rewrite i2 by lia. apply i1. exact Hv.
  - intros c Hc HX. eapply same_trans; [apply s1; auto|]. apply s2; [lia|]. intros I. destruct (HY c I); [auto|lia].
  - intros c Hc. destruct (p1 c Hc) as [l E]. destruct (p2 c ltac:(lia)) as [l' E']. exists (l ++ l'). rewrite E', E, app_assoc. reflexivity.
  - intros ->.
    assert (b = b1) as <- by lia. destruct (e1 eq_refl) as (A & B & C), (e2 eq_refl) as (A' & B' & C'). repeat split; congruence.
Qed.
(** what the pieces of a piece own *)
Lemma owns_first F K K1 X X1 Y st b st1 b1 st2 b2 :
  owns F K X st st2 b2 -> (b < p_blk st)%nat -> frame X1 st b st1 b1 -> frame Y st1 b1 st2 b2 -> incl X1 X -> ~ In b1 K ->
  (forall c, In c X -> (c < p_blk st)%nat) ->
  (forall c, In c Y -> c = b1 \/ In c K1 \/ ((c < p_blk st)%nat /\ ~ In c X1) \/ (p_blk st1 <= c)%nat) ->
  (forall c, In c K -> In c K1 \/ (p_blk st1 <= c)%nat \/ ((c < p_blk st)%nat /\ ~ In c X1)) -> owns F K1 X1 st st1 b1.
Proof.
  intros [oi os op] L H1 H2 I NK1 XL HY HK.
  destruct H1 as [v1 k1 i1 s1 p1 c1 l1 n1 e1 m1], H2 as [v2 k2 i2 s2 p2 c2 l2 n2 e2 m2]. specialize (l1 L). constructor.
  - intros v Hv. rewrite oi by lia. apply i2. lia.
  - intros c NK Hc Hin. assert (c < p_blk st1)%nat by (destruct Hin as [Hin|]; [apply I, XL in Hin; lia|lia]).
    assert (same c st1 st2). { apply s2; [lia|]. intros HI. destruct (HY c HI) as [|[|[[]|]]]; try contradiction; try lia. destruct Hin; [contradiction|lia]. }
    eapply same_trans; [eassumption|]. apply os.
    + intros HI. destruct (HK c HI) as [|[|[]]]; try contradiction; try lia. destruct Hin; [contradiction|lia].
    + lia.
    + destruct Hin as [Hin|]; [left; auto|right; lia].
  - destruct (p2 b1 l1) as [l E]. destruct (Nat.eq_dec b1 b2) as [->|N].
    + destruct op as [l' E']. exists (l ++ l'). rewrite E', E, app_assoc. reflexivity.
    + destruct (os b1 NK1 N) as (Ec & _).
      { destruct c1 as [->|]; [left; auto|right; lia]. }
      exists l. rewrite Ec, E. reflexivity.
Qed.
Lemma owns_second F K X X1 Y st b st1 b1 st2 b2 :
  owns F K X st st2 b2 -> frame X1 st b st1 b1 -> In b X ->
  (forall c, In c Y -> c = b1 \/ In c X \/ (p_blk st <= c < p_blk st2)%nat) -> (b1 < p_blk st2)%nat -> owns F K Y st1 st2 b2.
Proof.
  intros [oi os op] [v1 k1 i1 s1 p1 c1 l1 n1 e1 m1] Ib HY L. constructor.
  - intros v Hv. apply oi. lia.
  - intros c NK Hc [Hin|Hin]; apply os; auto; [|right; lia].
    destruct (HY c Hin) as [->|[|]]; auto. destruct c1 as [->|]; [auto|right; lia].
  - exact op.
Qed.
Lemma owns_weaken F K X Y st st' b' : owns F K X st st' b' -> incl Y X -> owns F K Y st st' b'.
Proof. intros [oi os op] I. constructor; auto. intros c NK Hc [Hin|Hin]; apply os; auto. Qed.

(** ** Running. *)
Section Run.
  Context {world : Type}.
  Variable M : meaning Z world.
  Variable V : vars.
  Variable goff : nat -> Z.
  Variable place : nat -> Z.
  Variable exit : nat.
  Variable void : bool.
  Variable F : pst.
  Notation state := (@senv Z world).
  Definition frun : nat -> state -> world -> option Z -> Prop := sruns M V goff place (p_code F) (p_next F) (p_then F) (p_else F) exit void.
  Definition reset (s : state) : state := mks (s_env s) (s_world s) [] None.
  Definition finish (b : nat) (e : send Z world) (w : world) (r : option Z) : Prop :=
    match e with
    | SRet r' w' => w' = w /\ r' = r
    | SFall s => (p_next F b = Some exit /\ void = true /\ s_world s = w /\ r = None) \/
                 exists c, p_next F b = Some c /\ c <> exit /\ frun c (reset s) w r
    | SBranch x s => exists t e, p_then F b = Some t /\ p_else F b = Some e /\ frun (if m_truth M x then t else e) (reset s) w r
    end.
  (** the function, continued at instruction k of block b, ends leaving w and returning r *)
  Definition tail (b k : nat) (s : state) (w : world) (r : option Z) : Prop :=
    exists e, sblock M V goff place (skipn k (p_code F b)) s e /\ finish b e w r.
  Definition leads (b k : nat) (s : state) (b' k' : nat) (s' : state) : Prop := forall w r, tail b' k' s' w r -> tail b k s w r.

  Lemma tail_run b s w r : tail b 0 s w r <-> frun b s w r.
  Proof.
    unfold tail. cbn [skipn]. split.
    - intros (e & B & E). destruct e as [s'|x s'|r' w']; cbn [finish] in E.
      + destruct E as [(N & Hv & <- & ->)|(c & N & Hc & R)]; [eapply sr_end; eauto|eapply sr_next; eauto].
      + destruct E as (t & e & Ht & He & R). eapply sr_branch; eauto.
      + destruct E as [<- <-]. apply sr_return. exact B.
    - intros R. inversion R; subst.
      + eexists. split; [eassumption|]. cbn. auto.
      + eexists. split; [eassumption|]. cbn. auto.
      + eexists. split; [eassumption|]. cbn. right. eauto.
      + eexists. split; [eassumption|]. cbn. eauto.
  Qed.
  Lemma leads_refl b k s : leads b k s b k s.
  Proof. intros w r H. exact H. Qed.
  Lemma leads_trans b k s b1 k1 s1 b2 k2 s2 : leads b k s b1 k1 s1 -> leads b1 k1 s1 b2 k2 s2 -> leads b k s b2 k2 s2.
  Proof. intros H1 H2 w r T. auto. Qed.

  Inductive steps : list rinsn -> state -> state -> Prop :=
  | st_nil s : steps [] s s
  | st_cons i l s s1 s2 : sstep M V goff place i s s1 -> steps l s1 s2 -> steps (i :: l) s s2.
  Lemma steps_app l l' s s1 s2 : steps l s s1 -> steps l' s1 s2 -> steps (l ++ l') s s2.
  Proof. induction 1; intros H'; cbn; [exact H'|]. econstructor; eauto. Qed.
  Lemma steps_block l l' s s' e : steps l s s' -> sblock M V goff place l' s' e -> sblock M V goff place (l ++ l') s e.
  Proof. induction 1; intros H'; cbn; [exact H'|]. eapply sb_cons; eauto. Qed.
  Lemma leads_steps b l0 l l' s s' : p_code F b = (l0 ++ l) ++ l' -> steps l s s' ->
    leads b (length l0) s b (length (l0 ++ l)) s'.
  Proof.
    intros E H w r (e & B & Fi). exists e. split; [|exact Fi]. rewrite E in *.
    rewrite skipn_app, skipn_all, Nat.sub_diag in B. cbn in B.
    rewrite <- app_assoc, skipn_app, skipn_all, Nat.sub_diag. cbn. eapply steps_block; eauto.
  Qed.
  Lemma leads_branch b l0 l' s x d y sz str a t e : p_code F b = l0 ++ mkr (mkinsn OP_branch d (Some x) y) sz str :: l' ->
    get M V goff s x = Some a -> s_args s = [] -> p_then F b = Some t -> p_else F b = Some e ->
    leads b (length l0) s (if m_truth M a then t else e) 0 (reset s).
  Proof.
    intros E G A T L w r H. apply tail_run in H. exists (SBranch a s). rewrite E, skipn_app, skipn_all, Nat.sub_diag. cbn [app skipn].
    split; [constructor; assumption|]. cbn. exists t, e. auto.
  Qed.
  Lemma leads_next b s c : p_next F b = Some c -> c <> exit -> leads b (length (p_code F b)) s c 0 (reset s).
  Proof.
    intros N H w r R. apply tail_run in R. exists (SFall s). rewrite skipn_all. split; [constructor|]. cbn. right. eauto.
  Qed.
End Run.
