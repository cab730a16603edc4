(** The pieces of the expression reader compute what they should. *)
From Verif.Front Require Export ExprGroups.
From Verif.Properties Require NumericProps.
Open Scope Z_scope.

Section Setting.
  Variable find_constant : text -> option Z.
  Variable find_var : text -> option vinfo.
  Variable find_func : text -> option Z.
  Variable lim : nat.
  Context {world : Type}.
  Variable M : meaning Z world.
  Variable V : vars.
  Variable goff : nat -> Z.
  Variable place : nat -> Z.
  Variable exit : nat.
  Variable void : bool.
  Variable F : pst.
  Variable p0 : nat.                               (* the variables below p0 are the source's *)
  Variable e0 : nat -> option Z.
  Notation state := (@senv Z world).
  Notation get := (get M V goff).
  Notation leads := (leads M V goff place exit void F).
  Notation steps := (steps M V goff place).
  Notation ceval := (ceval (lookup find_constant find_var V M goff e0) (element_size find_var) (m_read M) (do_call find_func M)).
  Notation no_globals := (no_globals (is_constant find_constant) (is_global find_var V)).

  Hypothesis Hinit : forall v, (p0 <= v)%nat -> v_init V v = p_init F v.
  Hypothesis Hglob : forall v, (p0 <= v)%nat -> v_global V v = false.
  Hypothesis HM : c_like M.
  Hypothesis Hptr : forall x v, find_var x = Some v -> 0 <= vi_ptr v.
  Hypothesis Hvar : forall x v, find_var x = Some v -> v_global V (vi_id v) = false -> (vi_id v < p0)%nat.

  Record wf (st : pst) (b : nat) : Prop := mkwf {
    wf_b : (b < p_blk st)%nat; wf_exit : (exit < p_blk st)%nat; wf_var : (p0 <= p_var st)%nat;
    wf_empty : forall c, (p_blk st <= c)%nat -> empty st c }.
  Lemma wf_frame X st b st' b' : wf st b -> frame X st b st' b' -> wf st' b'.
  Proof. intros [A B C D] [v1 k1 i1 s1 p1 c1 l1 n1 e1 m1]. constructor; auto; lia. Qed.

  Definition agree (s : state) : Prop := forall u, (u < p0)%nat -> s_env s u = e0 u.
  (** s' comes after s, with the world w'; the variables that existed in st are as before *)
  Definition after (st : pst) (s s' : state) (w' : world) : Prop :=
    s_args s' = [] /\ s_world s' = w' /\ forall u, (u < p_var st)%nat -> s_env s' u = s_env s u.
  Definition good (st : pst) (v : nat) : Prop := v_global V v = true \/ (v < p_var st)%nat.
  Lemma after_agree st s s' w' : (p0 <= p_var st)%nat -> after st s s' w' -> agree s -> agree s'.
  Proof. intros L (_ & _ & H) A u Hu. rewrite H by lia. auto. Qed.
  Lemma after_trans st st1 s s1 w1 s2 w2 : (p_var st <= p_var st1)%nat -> after st s s1 w1 -> after st1 s1 s2 w2 -> after st s s2 w2.
  Proof. intros L (A & B & C) (A' & B' & C'). repeat split; auto. intros u Hu. rewrite C' by lia. auto. Qed.
  Lemma after_get st s s' w' v : good st v -> after st s s' w' -> (v_global V v = true -> w' = s_world s) -> get s' v = get s v.
  Proof.
    intros G (A & B & C) H. unfold AllocSpec.get. destruct (v_global V v) eqn:Q.
    - rewrite B, H by reflexivity. reflexivity.
    - destruct G as [G|G]; [congruence|]. auto.
  Qed.
  Lemma after_refl st s : s_args s = [] -> after st s s (s_world s).
  Proof. repeat split; auto. Qed.
  Lemma get_temp s v : (p0 <= v)%nat -> get s v = s_env s v.
  Proof. intros H. unfold AllocSpec.get. rewrite Hglob by exact H. reflexivity. Qed.
  (** giving the new variable a value *)
  Definition put (s : state) (v : nat) (x : Z) : state := mks (upd (s_env s) v (Some x)) (s_world s) [] None.
  Lemma set_temp s v x : (p0 <= v)%nat -> set M V goff s v (Some x) = Some (put s v x).
  Proof. intros H. unfold AllocSpec.set. rewrite Hglob by exact H. reflexivity. Qed.
  Lemma put_after st s v x : (p_var st <= v)%nat -> after st s (put s v x) (s_world s).
  Proof. intros H. repeat split. intros u Hu. cbn. unfold upd. destruct (Nat.eqb_spec u v); [lia|reflexivity]. Qed.
  Lemma put_get s v x : (p0 <= v)%nat -> get (put s v x) v = Some x.
  Proof. intros H. rewrite get_temp by exact H. cbn. unfold upd. rewrite Nat.eqb_refl. reflexivity. Qed.

  (** (st, b) to (st', b') evaluates e, and leaves a variable with its value on the operand stack *)
  Definition evaluates (e : rexpr) (K X : list nat) (st : pst) (b : nat) (st' : pst) (b' v : nat) : Prop :=
    owns F K X st st' b' -> forall s x w', s_args s = [] -> agree s -> ceval e (s_world s) x w' ->
    exists s', leads b (len st b) s b' (len st' b') s' /\ after st s s' w' /\ get s' v = Some x.
  Definition result (e : rexpr) (st' : pst) (v : nat) : Prop := good st' v /\ (v_global V v = true -> no_globals e = false).
  Definition did (e : rexpr) (X : list nat) (st : pst) (b : nat) (st' : pst) (b' : nat) : Prop :=
    frame X st b st' b' /\ (flat e = true -> b' = b) /\
    exists v, p_stack st' = v :: p_stack st /\ result e st' v /\ evaluates e [] X st b st' b' v.
  (** (st, b) to (st', b') evaluates e and tests it: control is at the start of T if its truth is pol, else at the end of b' *)
  Definition tested (pol : bool) (e : rexpr) (T : nat) (K X : list nat) (st : pst) (b : nat) (st' : pst) (b' : nat) : Prop :=
    frame X st b st' b' /\ p_stack st' = p_stack st /\ p_code st' b' = [] /\ (p_blk st <= b')%nat /\
    (owns F K X st st' b' -> forall s x w', s_args s = [] -> agree s -> ceval e (s_world s) x w' ->
     exists s', after st s s' w' /\
       if Bool.eqb (negb (x =? 0)) pol then leads b (len st b) s T 0 s' else leads b (len st b) s b' 0 s').

  Lemma owns_code K X st st' b' : owns F K X st st' b' -> exists l, p_code F b' = p_code st' b' ++ l.
  Proof. apply ow_pre. Qed.
  (** a block that only gets instructions runs them *)
  Lemma adds_leads K X st b l st' s s' : adds st b l st' -> owns F K X st st' b -> steps l s s' -> leads b (len st b) s b (len st' b) s'.
  Proof.
    intros A O S. destruct (ow_pre _ _ _ _ _ _ O) as [l' E]. unfold len. rewrite (adds_len _ _ _ _ A) in *. eapply leads_steps; eauto.
  Qed.
  Lemma no_calls_world e w v w' : ceval e w v w' -> no_calls e = true -> w' = w.
  Proof.
    induction 1; cbn [no_calls]; intros N; repeat (apply andb_true_iff in N; destruct N as [N ?]); try discriminate; auto;
      repeat match goal with H : ?a = true -> _, H' : ?a = true |- _ => specialize (H H') end; congruence.
  Qed.
  Lemma owns_init K X st st' b' v : owns F K X st st' b' -> (p0 <= p_var st)%nat -> (p_var st <= v < p_var st')%nat -> v_init V v = p_init st' v.
  Proof. intros O L H. rewrite Hinit by lia. apply (ow_init _ _ _ _ _ _ O). exact H. Qed.

  Lemma split K X st b st1 b1 st2 b2 : owns F K X st st2 b2 -> wf st b -> frame X st b st1 b1 -> frame [b1] st1 b1 st2 b2 ->
    (forall c, In c X -> (c < p_blk st)%nat) -> ~ In b1 K -> owns F K X st st1 b1 /\ owns F K [b1] st1 st2 b2.
  Proof.
    intros O W H1 H2 L N. split.
    - eapply owns_first; [exact O|apply W|exact H1|exact H2|apply incl_refl|exact N|exact L| |]; cbn; intuition.
    - eapply owns_second; [exact O|exact H1|apply H1| |].
      + cbn; intuition.
      + pose proof (fr_lt _ _ _ _ _ H1 (wf_b _ _ W)). pose proof (fr_blk _ _ _ _ _ H2). lia.
  Qed.
  Lemma good_mono st st' v : (p_var st <= p_var st')%nat -> good st v -> good st' v.
  Proof. intros L [G|G]; [left; exact G|right; lia]. Qed.
  Lemma in_one (b : nat) st : (b < p_blk st)%nat -> forall c, In c [b] -> (c < p_blk st)%nat.
  Proof. intros L c [<-|[]]. exact L. Qed.
  Lemma step_const v s : (p0 <= v)%nat -> s_args s = [] ->
    sstep M V goff place (mkr (mkinsn OP_load_constant (Some v) None None) 0 0) s (put s v (v_init V v)).
  Proof. intros L A. eapply s_const; [exact A|]. rewrite (c_const _ HM). apply set_temp. exact L. Qed.

  Lemma did_const e c b st st' : wf st b -> (forall w x w', ceval e w x w' -> x = c /\ w' = w) -> load_constant lim c b st = Some st' ->
    did e [b] st b st' b.
  Proof.
    intros W He E. destruct (load_constant_adds _ _ _ _ _ E) as (A & S & N & I). split; [apply (adds_frame _ _ _ _ (wf_b _ _ W) A)|].
    split; [reflexivity|]. pose proof (wf_var _ _ W) as P.
    exists (p_var st). split; [exact S|]. split.
    { split; [right; lia|]. rewrite Hglob by exact P. discriminate. }
    intros O s x w' Hs _ Ev. destruct (He _ _ _ Ev) as [-> ->]. exists (put s (p_var st) c). split; [|split].
    - eapply adds_leads; [exact A|exact O|]. econstructor; [|constructor].
      rewrite <- I. rewrite <- (owns_init _ _ _ _ _ (p_var st) O P) by lia. apply step_const; assumption.
    - apply put_after. lia.
    - apply put_get. exact P.
  Qed.
  Lemma did_var x v b st st' : wf st b -> find_constant x = None -> find_var x = Some v -> opstack_push (vi_id v) st = Some st' ->
    did (RVar x) [b] st b st' b.
  Proof.
    intros W Hc Hv E. unfold opstack_push in E. destruct (_ <? _)%nat; [|discriminate]. apply some_inj in E. subst st'.
    assert (A : adds st b [] (set_stack (vi_id v :: p_stack st) st)) by (apply adds_nil; reflexivity).
    split; [apply (adds_frame _ _ _ _ (wf_b _ _ W) A)|]. split; [reflexivity|]. exists (vi_id v). split; [reflexivity|]. pose proof (wf_var _ _ W) as P.
    split.
    { split.
      - destruct (v_global V (vi_id v)) eqn:Q; [left; exact Q|right]. pose proof (Hvar _ _ Hv Q). cbn. lia.
      - intros G. cbn. unfold is_constant, is_global. rewrite Hc, Hv, G. reflexivity. }
    intros O s y w' Hs Ag Ev. exists s. inversion Ev as [| |? ? ? L| | | | | | | | | | |]; subst.
    split; [apply leads_refl|]. split; [apply after_refl; exact Hs|].
    unfold lookup in L. rewrite Hc, Hv in L. unfold AllocSpec.get. destruct (v_global V (vi_id v)) eqn:Q; [exact L|].
    rewrite Ag by (eapply Hvar; eauto). exact L.
  Qed.
  Lemma did_unary u o e b st st1 b1 st2 : wf st b -> unary o = true -> (forall a, m_alu1 M o a = Some (cun u a)) ->
    did e [b] st b st1 b1 -> unary_op lim o b1 st1 = Some st2 -> did (RUn u e) [b] st b st2 b1.
  Proof.
    intros W Hu Ho (Fr & Fl & v & S & [G1 G2] & Ev) E. pose proof (wf_frame _ _ _ _ _ W Fr) as W1.
    destruct (unary_op_adds _ _ _ _ _ E) as (x & l & S1 & A & S2 & N). rewrite S in S1. injection S1 as <- <-.
    pose proof (adds_frame _ _ _ _ (wf_b _ _ W1) A) as Fr2. pose proof (wf_var _ _ W1) as P.
    split; [apply (frame_trans _ _ _ _ _ _ _ _ (wf_b _ _ W) Fr Fr2)|].
    { intros c [<-|[]]. destruct (fr_cur _ _ _ _ _ Fr) as [->|]; [left; left; reflexivity|right; assumption]. }
    split; [exact Fl|]. exists (p_var st1). split; [exact S2|]. split.
    { split; [right; lia|]. rewrite Hglob by exact P. discriminate. }
    intros O s y w' Hs Ag Ec. destruct (split _ _ _ _ _ _ _ _ O W Fr Fr2 (in_one _ _ (wf_b _ _ W)) (fun f => f)) as [O1 O2].
    inversion Ec as [| | | |u' e' w v' w1 Ec'| | | | | | | | |]; subst. destruct (Ev O1 _ _ _ Hs Ag Ec') as (s1 & L1 & A1 & Gx).
    exists (put s1 (p_var st1) (cun u v')). pose proof (put_after st1 s1 (p_var st1) (cun u v') (Nat.le_refl _)) as PA. split; [|split].
    - eapply leads_trans; [exact L1|]. eapply adds_leads; [exact A|exact O2|]. econstructor; [|constructor].
      eapply s_unary; [exact Hu|apply A1|exact Gx|apply Ho|apply set_temp; exact P].
    - destruct A1 as (? & <- & ?). eapply after_trans; [apply Fr| |exact PA]. repeat split; assumption.
    - apply put_get. exact P.
  Qed.
  (** what the two operands of an operator share *)
  Lemma two_operands a c b st st1 b1 st2 b2 : wf st b -> did a [b] st b st1 b1 -> did c [b1] st1 b1 st2 b2 -> frame [b] st b st2 b2.
  Proof.
    intros W (Fr & _) (Fr2 & _). apply (frame_trans _ _ _ _ _ _ _ _ (wf_b _ _ W) Fr Fr2).
    intros d [<-|[]]. destruct (fr_cur _ _ _ _ _ Fr) as [->|]; [left; left; reflexivity|right; assumption].
  Qed.
  Lemma settled_mix a c (G : bool) : no_calls a && no_calls c || no_globals a && no_globals c = true -> (G = true -> no_globals a = false) -> G = true -> no_calls c = true.
  Proof. intros H HG Q. rewrite (HG Q) in H. rewrite andb_false_l, orb_false_r in H. apply andb_true_iff in H. apply H. Qed.
  Lemma did_binary o a c b st st1 b1 st2 b2 st3 : wf st b -> o <> LAnd -> o <> LOr ->
    settled (is_constant find_constant) (is_global find_var V) (RBin o a c) = true ->
    did a [b] st b st1 b1 -> did c [b1] st1 b1 st2 b2 -> binary_op lim (opc o) b2 st2 = Some st3 -> did (RBin o a c) [b] st b st3 b2.
  Proof.
    intros W No1 No2 Hset D1 D2 E. pose proof (two_operands _ _ _ _ _ _ _ _ W D1 D2) as Fr12.
    destruct D1 as (Fr & Fl & v & S & [G1 G2] & Ev), D2 as (Fr2 & Fl2 & v2 & S2 & [G3 G4] & Ev2).
    pose proof (wf_frame _ _ _ _ _ W Fr) as W1. pose proof (wf_frame _ _ _ _ _ W1 Fr2) as W2.
    destruct (binary_op_adds _ _ _ _ _ E) as (y & x & l & S3 & A & S4 & N). rewrite S2, S in S3. injection S3 as <- <- <-.
    pose proof (adds_frame _ _ _ _ (wf_b _ _ W2) A) as Fr3. pose proof (wf_var _ _ W2) as P.
    assert (Fr13 : frame [b] st b st3 b2).
    { apply (frame_trans _ _ _ _ _ _ _ _ (wf_b _ _ W) Fr12 Fr3).
      intros d [<-|[]]. destruct (fr_cur _ _ _ _ _ Fr12) as [->|]; [left; left; reflexivity|right; assumption]. }
    split; [exact Fr13|]. split.
    { intros H. cbn [flat] in H. repeat (apply andb_true_iff in H; destruct H as [H ?]). rewrite Fl2 by assumption. auto. }
    exists (p_var st2). split; [exact S4|]. split.
    { split; [right; lia|]. rewrite Hglob by exact P. discriminate. }
    intros O s r w' Hs Ag Ec.
    destruct (split _ _ _ _ _ _ _ _ O W Fr12 Fr3 (in_one _ _ (wf_b _ _ W)) (fun f => f)) as [O12 O3].
    destruct (split _ _ _ _ _ _ _ _ O12 W Fr Fr2 (in_one _ _ (wf_b _ _ W)) (fun f => f)) as [O1 O2].
    inversion Ec as [| | | | | | | | |o' a' c' w x w1 y w2 v' _ _ Ea Eb Ev'| | | |]; subst; try congruence.
    destruct (Ev O1 _ _ _ Hs Ag Ea) as (s1 & L1 & A1 & Gx).
    assert (Ag1 : agree s1) by (eapply after_agree; [apply (wf_var _ _ W)|exact A1|exact Ag]).
    destruct (Ev2 O2 s1 y w' (proj1 A1) Ag1) as (s2 & L2 & A2 & Gy). { rewrite (proj1 (proj2 A1)). exact Eb. }
    exists (put s2 (p_var st2) r). pose proof (put_after st2 s2 (p_var st2) r (Nat.le_refl _)) as PA. split; [|split].
    - eapply leads_trans; [exact L1|]. eapply leads_trans; [exact L2|]. eapply adds_leads; [exact A|exact O3|]. econstructor; [|constructor].
      eapply s_binary; [destruct o; try reflexivity; congruence|apply A2| |exact Gy|apply (c_bin _ HM); eassumption|apply set_temp; exact P].
      rewrite <- Gx. eapply after_get; [exact G1|exact A2|]. intros Q. rewrite (proj1 (proj2 A1)).
      eapply no_calls_world; [exact Eb|]. unfold settled in Hset. cbn [no_calls ExprSpec.no_globals] in Hset. eapply settled_mix; eauto.
    - destruct A2 as (? & <- & ?). eapply after_trans; [apply Fr|exact A1|]. eapply after_trans; [apply Fr2| |exact PA]. repeat split; assumption.
    - apply put_get. exact P.
  Qed.
  Lemma did_par e b st st' b' : did e [b] st b st' b' -> did (RPar e) [b] st b st' b'.
  Proof.
    intros (Fr & Fl & v & S & G & Ev). split; [exact Fr|]. split; [exact Fl|]. exists v. split; [exact S|]. split; [exact G|].
    intros O s x w' Hs Ag Ec. inversion Ec; subst. eapply Ev; eauto.
  Qed.

  Definition more_blocks (m : nat) (st : pst) : pst :=
    mkp (p_var st) (m + p_blk st) (p_code st) (p_next st) (p_then st) (p_else st) (p_pred st) (p_init st) (p_stack st).

  (** a test: src/parser.c:1056-1063, 1091-1102, 1124-1155 *)
  Lemma did_test o e T K X m st b st1 b1 st2 st3 n : wf st b -> (forall c, In c X -> (c < p_blk st)%nat) -> is_logical o = true ->
    did e X st b st1 b1 -> ~ In b1 K -> (forall c, In c K -> (p_blk st1 <= c)%nat \/ ((c < p_blk st)%nat /\ ~ In c X)) ->
    bb_connect b1 T (if is_and o then ELSE else THEN) (more_blocks m st1) = Some st2 -> read_logical lim o st2 b1 = Some (st3, n) ->
    tested (negb (is_and o)) e T K X st b st3 n /\ n = (m + p_blk st1)%nat /\ p_blk st3 = S n /\ (forall c, c <> b1 -> p_code st3 c = p_code st1 c).
  Proof.
    intros W XL Lo (Fr & _ & v & Sk & [G1 G2] & Ev) NK HK E1 E2. pose proof (wf_frame _ _ _ _ _ W Fr) as W1.
    pose proof (wf_b _ _ W) as Lb. pose proof (wf_b _ _ W1) as Lb1.
    destruct st1 as [v1 k1 c1 n1 t1 f1 r1 i1 s1]. unfold more_blocks in E1. cbn [p_var p_blk p_code p_next p_then p_else p_pred p_init p_stack] in *.
    apply bb_connect_eq in E1. destruct E1 as [pr ->]. apply read_logical_eq in E2. destruct E2 as (x & l & pr' & -> & -> & ->).
    injection Sk as -> ->. pose proof (fr_lt _ _ _ _ _ Fr Lb) as Lb'. pose proof (fr_blk _ _ _ _ _ Fr) as Lk. cbn [p_blk] in *.
    assert (Fr' : frame X st b (mkp (3 + v1) (S (m + k1)) (upd c1 b1 (c1 b1 ++ [br v])) n1
       (if is_and o then upd (if is_and o then t1 else upd t1 b1 (Some T)) b1 (Some (m + k1)%nat) else (if is_and o then t1 else upd t1 b1 (Some T)))
       (if is_and o then (if is_and o then upd f1 b1 (Some T) else f1) else upd (if is_and o then upd f1 b1 (Some T) else f1) b1 (Some (m + k1)%nat)) pr' i1 (p_stack st)) (m + k1)%nat).
    { eapply frame_trans with (Y := [b1]); [exact Lb|exact Fr| |].
      - constructor; cbn [p_var p_blk p_code p_next p_then p_else p_init]; try lia; auto.
        + intros c Hc N. unfold same; cbn [p_code p_next p_then p_else]. unfold upd. assert (Q : Nat.eqb c b1 = false) by (apply Nat.eqb_neq; cbn in N; lia).
          destruct (is_and o); rewrite ?Q; auto.
        + intros c _. unfold upd. destruct (Nat.eqb_spec c b1) as [->|]; eexists; [reflexivity|rewrite app_nil_r; reflexivity].
        + left; reflexivity.
        + intros H c Hc. pose proof (H c ltac:(lia)) as (A & B & C & D). unfold empty in *; cbn [p_code p_next p_then p_else] in *.
          unfold upd. assert (Q : Nat.eqb c b1 = false) by (apply Nat.eqb_neq; lia). destruct (is_and o); rewrite ?Q; auto.
      - intros c [<-|[]]. destruct (fr_cur _ _ _ _ _ Fr) as [->|]; [left; apply Fr|right; assumption]. }
    split; [|split; [reflexivity|split; [reflexivity|]]].
    2: { intros c N. cbn [p_code]. unfold upd. destruct (Nat.eqb_spec c b1); [contradiction|reflexivity]. }
    split; [destruct (is_and o); exact Fr'|]. split; [destruct (is_and o); reflexivity|]. split.
    { destruct (wf_empty _ _ W1 (m + k1)%nat ltac:(cbn; lia)) as (A & _). cbn [p_code] in *. unfold upd. destruct (Nat.eqb_spec (m + k1) b1); [lia|]. exact A. }
    split; [lia|].
    intros O s y w' Hs Ag Ec.
    assert (O1 : owns F [] X st (mkp v1 k1 c1 n1 t1 f1 r1 i1 (v :: p_stack st)) b1).
    { constructor; cbn [p_var p_blk p_init].
      - intros u Hu. apply (ow_init _ _ _ _ _ _ O). cbn [p_var]. lia.
      - intros c _ Hc Hin. assert (c < k1)%nat by (destruct Hin as [Hin|]; [apply XL in Hin; lia|lia]).
        assert (S1 : same c (mkp (3 + v1) (S (m + k1)) (upd c1 b1 (c1 b1 ++ [br v])) n1
          (if is_and o then upd (if is_and o then t1 else upd t1 b1 (Some T)) b1 (Some (m + k1)%nat) else (if is_and o then t1 else upd t1 b1 (Some T)))
          (if is_and o then (if is_and o then upd f1 b1 (Some T) else f1) else upd (if is_and o then upd f1 b1 (Some T) else f1) b1 (Some (m + k1)%nat)) pr' i1 (p_stack st)) F).
        { destruct (is_and o); apply (ow_same _ _ _ _ _ _ O); try lia; try (destruct Hin as [Hin|]; [left; exact Hin|right; cbn [p_blk]; lia]);
            intros HI; (destruct (HK c HI) as [|[? NX]]; [lia|destruct Hin; [contradiction|lia]]). }
        revert S1. unfold same; cbn [p_code p_next p_then p_else]. unfold upd. assert (Q : Nat.eqb c b1 = false) by (apply Nat.eqb_neq; lia).
        destruct (is_and o); rewrite ?Q; auto.
      - assert (S1 : exists e, p_code F b1 = (c1 b1 ++ [br v]) ++ e).
        { destruct (ow_same _ _ _ _ _ _ O b1 NK ltac:(lia)) as (A & _).
          - destruct (fr_cur _ _ _ _ _ Fr) as [->|]; [left; apply Fr|right]. cbn [p_blk]. destruct (is_and o); cbn [p_blk]; lia.
          - exists []. rewrite app_nil_r. revert A. destruct (is_and o); cbn [p_code]; unfold upd; rewrite Nat.eqb_refl; auto. }
        destruct S1 as [e' S1]. exists ([br v] ++ e'). rewrite S1. cbn [p_code]. rewrite <- app_assoc. reflexivity. }
    destruct (Ev O1 s y w' Hs Ag Ec) as (s' & L1 & A1 & Gv).
    assert (Sb : p_code F b1 = c1 b1 ++ [br v] /\ p_then F b1 = Some (if is_and o then (m + k1)%nat else T) /\ p_else F b1 = Some (if is_and o then T else (m + k1)%nat)).
    { destruct (ow_same _ _ _ _ _ _ O b1 NK ltac:(lia)) as (A & B & C & D).
      - destruct (fr_cur _ _ _ _ _ Fr) as [->|]; [left; apply Fr|right]. cbn [p_blk]. destruct (is_and o); cbn [p_blk]; lia.
      - revert A B C D. destruct (is_and o); cbn [p_code p_next p_then p_else]; unfold upd; rewrite !Nat.eqb_refl; auto. }
    destruct Sb as (Sc & St & Se).
    exists (reset s'). split; [destruct A1 as (? & ? & ?); repeat split; assumption|].
    assert (L2 : leads b (len st b) s (if m_truth M y then (if is_and o then (m + k1)%nat else T) else (if is_and o then T else (m + k1)%nat)) 0 (reset s')).
    { eapply leads_trans; [exact L1|]. eapply leads_branch; [exact Sc|exact Gv|apply A1|exact St|exact Se]. }
    rewrite (c_truth _ HM) in L2. destruct (is_and o), (y =? 0); cbn [negb Bool.eqb] in *; exact L2.
  Qed.

  (** a block that loads a constant and copies it *)
  Lemma lands q c r e s : (p0 <= c)%nat -> (p0 <= r)%nat -> p_code F q = [ldc c; asg r c] -> p_next F q = Some e -> e <> exit -> s_args s = [] ->
    leads q 0 s e 0 (reset (put (put s c (v_init V c)) r (v_init V c))).
  Proof.
    intros Hc Hr Co Ne Ex Hs.
    eapply leads_trans; [|eapply leads_next; [exact Ne|exact Ex]]. rewrite Co.
    apply (leads_steps M V goff place exit void F q [] [ldc c; asg r c] [] s); [rewrite app_nil_r; exact Co|].
    econstructor; [apply step_const; assumption|]. econstructor; [|constructor].
    eapply s_assign; [reflexivity|]. rewrite put_get by exact Hc. apply set_temp. exact Hr.
  Qed.
  (** the end of a chain: src/parser.c:1601-1778 *)
  Lemma did_finalize o lo a c sh K1 X0 Y st b st1 b1 st2 b2 st3 e : wf st b -> (forall q, In q X0 -> (q < p_blk st)%nat) ->
    (o = OP_log_and /\ lo = LAnd \/ o = OP_log_or /\ lo = LOr) ->
    tested (negb (is_and o)) a sh K1 X0 st b st1 b1 -> did c (b1 :: Y) st1 b1 st2 b2 ->
    (sh < p_blk st)%nat -> ~ In sh X0 -> ~ In sh Y -> p_code st sh = [] -> incl Y K1 -> ~ In b1 K1 ->
    (forall q, In q Y -> In q X0 \/ (p_blk st <= q < p_blk st1)%nat) ->
    finalize_logical lim o st2 b2 sh = Some (st3, e) -> did (RBin lo a c) (sh :: X0) st b st3 e.
  Proof.
    intros W XL Lo (Fr1 & Sk1 & Co1 & Hb1 & Ev1) (Fr2 & _ & v & Sk2 & [G1 G2] & Ev2) Hsh NX NY Csh YK NK HY E.
    pose proof (wf_frame _ _ _ _ _ W Fr1) as W1. pose proof (wf_frame _ _ _ _ _ W1 Fr2) as W2.
    pose proof (wf_b _ _ W) as Lb. pose proof (wf_b _ _ W1) as Lb1. pose proof (wf_b _ _ W2) as Lb2.
    assert (Fr12 : frame X0 st b st2 b2).
    { eapply frame_trans; [exact Lb|exact Fr1|exact Fr2|]. intros q [<-|Hq]; [right; exact Hb1|]. destruct (HY q Hq) as [|[]]; auto. }
    pose proof (fr_blk _ _ _ _ _ Fr1) as K01. pose proof (fr_blk _ _ _ _ _ Fr2) as K12. pose proof (fr_var _ _ _ _ _ Fr12) as V12.
    assert (Cs2 : p_code st2 sh = []). { destruct (fr_same _ _ _ _ _ Fr12 sh Hsh NX) as [-> _]. exact Csh. }
    assert (Nb2 : b2 <> sh). { destruct (fr_cur _ _ _ _ _ Fr2); lia. }
    pose proof (wf_var _ _ W2) as P. pose proof (wf_exit _ _ W2) as PX.
    assert (Co2 : p_code st2 (S (p_blk st2)) = []) by (apply (wf_empty _ _ W2); lia).
    pose proof (wf_empty _ _ W2) as We.
    destruct st2 as [v2 k2 c2 n2 t2 f2 r2 i2 s2]. cbn [p_var p_blk p_code p_next p_then p_else p_pred p_init p_stack] in *.
    apply finalize_logical_eq in E; try lia; [|exact Co2]. destruct E as (x & l & pr & c' & -> & -> & -> & Eb & En & Es & Eo).
    injection Sk2 as -> ->. rewrite Cs2 in Es. cbn [List.app] in Es.
    set (lk := if is_and o then S k2 else sh) in *. set (rk := if is_and o then sh else S k2) in *.
    assert (LR : (lk = sh \/ lk = S k2) /\ (rk = sh \/ rk = S k2)) by (unfold lk, rk; destruct (is_and o); auto).
    set (st3 := mkp (9 + v2) (2 + k2) c' _ _ _ _ _ _).
    assert (Fr3 : frame [b2; sh] (mkp v2 k2 c2 n2 t2 f2 r2 i2 (v :: p_stack st1)) b2 st3 k2).
    { constructor; unfold st3; cbn [p_var p_blk p_code p_next p_then p_else p_init]; try lia; auto.
      - intros u Hu. unfold upd. destruct (Nat.eqb_spec u (7 + v2)); [lia|]. destruct (Nat.eqb_spec u (3 + v2)); [lia|]. reflexivity.
      - intros q Hq Nq. unfold same; cbn [p_code p_next p_then p_else]. cbn in Nq. rewrite Eo by lia. unfold upd.
        rewrite (proj2 (Nat.eqb_neq q rk)), (proj2 (Nat.eqb_neq q lk)), (proj2 (Nat.eqb_neq q b2)) by lia. auto.
      - intros q Hq. destruct (Nat.eq_dec q b2) as [->|]; [eexists; exact Eb|]. destruct (Nat.eq_dec q sh) as [->|]; [rewrite Cs2; eexists; exact Es|].
        rewrite Eo by lia. exists []. rewrite app_nil_r. reflexivity.
      - left. reflexivity.
      - intros H q Hq. pose proof (H q ltac:(lia)) as (Q1 & Q2 & Q3 & Q4). unfold empty; cbn [p_code p_next p_then p_else] in *. rewrite Eo by lia. unfold upd.
        rewrite (proj2 (Nat.eqb_neq q rk)), (proj2 (Nat.eqb_neq q lk)), (proj2 (Nat.eqb_neq q b2)) by lia. auto. }
    assert (Fr : frame (sh :: X0) st b st3 k2).
    { eapply frame_trans; [exact Lb|apply frame_weaken with (Y := sh :: X0) in Fr12; [exact Fr12|intros q; right; assumption]|exact Fr3|].
      intros q [<-|[<-|[]]]; [|left; left; reflexivity]. destruct (fr_cur _ _ _ _ _ Fr12) as [->|]; [left; right; apply Fr12|right; assumption]. }
    split; [exact Fr|]. split; [destruct Lo as [[-> ->]|[-> ->]]; discriminate|].
    exists (4 + v2)%nat. split; [unfold st3; cbn [p_stack]; f_equal; exact Sk1|]. split.
    { split; [right; unfold st3; cbn [p_var]; lia|]. rewrite Hglob by lia. discriminate. }
    intros O s y w' Hs Ag Ec.
    assert (XL' : forall q, In q (sh :: X0) -> (q < p_blk st)%nat) by (intros q [<-|]; auto).
    assert (O2 : owns F [] X0 st (mkp v2 k2 c2 n2 t2 f2 r2 i2 (v :: p_stack st1)) b2).
    { eapply owns_first; [exact O|exact Lb|exact Fr12|exact Fr3|intros q; right; assumption|auto|exact XL'| |intros ? []].
      intros q [<-|[<-|[]]]; [left; reflexivity|]. right; right; left. auto. }
    assert (O11 : owns F K1 X0 st st1 b1).
    { eapply owns_first; [exact O2|exact Lb|exact Fr1|exact Fr2|apply incl_refl|auto|exact XL| |intros ? []].
      intros q [<-|Hq]; [left; reflexivity|]. right; left. auto. }
    assert (O12 : owns F [] (b1 :: Y) st1 (mkp v2 k2 c2 n2 t2 f2 r2 i2 (v :: p_stack st1)) b2).
    { eapply owns_second; [exact O2|exact Fr1|apply Fr1| |cbn [p_blk]; lia].
      intros q [<-|Hq]; [left; reflexivity|]. right. cbn [p_blk]. destruct (HY q Hq); [left; assumption|right; lia]. }
    assert (Fb : same b2 st3 F).
    { apply (ow_same _ _ _ _ _ _ O); [auto|lia|]. destruct (fr_cur _ _ _ _ _ Fr12) as [->|]; [left; right; apply Fr12|right; unfold st3; cbn [p_blk]; lia]. }
    assert (Fs : same sh st3 F) by (apply (ow_same _ _ _ _ _ _ O); [auto|lia|left; left; reflexivity]).
    assert (Fn : same (S k2) st3 F) by (apply (ow_same _ _ _ _ _ _ O); [auto|lia|right; unfold st3; cbn [p_blk]; lia]).
    assert (I3 : v_init V (3 + v2)%nat = if is_and o then 1 else 0).
    { rewrite Hinit by lia. rewrite (ow_init _ _ _ _ _ _ O) by (unfold st3; cbn [p_var]; lia). unfold st3; cbn [p_init]. unfold upd.
      destruct (Nat.eqb_spec (3 + v2) (7 + v2)); [lia|]. rewrite Nat.eqb_refl. reflexivity. }
    assert (I7 : v_init V (7 + v2)%nat = if is_and o then 0 else 1).
    { rewrite Hinit by lia. rewrite (ow_init _ _ _ _ _ _ O) by (unfold st3; cbn [p_var]; lia). unfold st3; cbn [p_init]. unfold upd. rewrite Nat.eqb_refl. reflexivity. }
    assert (Lk : len st3 k2 = 0%nat). { unfold len, st3; cbn [p_code]. rewrite Eo by lia. pose proof (proj1 (We k2 (Nat.le_refl _))) as Q. cbn [p_code] in Q. rewrite Q. reflexivity. }
    (* the two places where the result is set *)
    assert (Lsh : forall s', s_args s' = [] -> leads sh 0 s' k2 0 (reset (put (put s' (7 + v2) (v_init V (7 + v2)%nat)) (4 + v2) (v_init V (7 + v2)%nat)))).
    { intros s' Hs'. destruct Fs as (A & B & _). apply lands; try lia; auto.
      - rewrite A. exact Es.
      - rewrite B. unfold st3; cbn [p_next]. unfold upd. destruct (is_and o); subst lk rk; rewrite Nat.eqb_refl; [reflexivity|]. destruct (Nat.eqb sh (S k2)); reflexivity. }
    assert (Lnn : forall s', s_args s' = [] -> leads (S k2) 0 s' k2 0 (reset (put (put s' (3 + v2) (v_init V (3 + v2)%nat)) (4 + v2) (v_init V (3 + v2)%nat)))).
    { intros s' Hs'. destruct Fn as (A & B & _). apply lands; try lia; auto.
      - rewrite A. exact En.
      - rewrite B. unfold st3; cbn [p_next]. unfold upd. destruct (is_and o); subst lk rk; rewrite Nat.eqb_refl; [|reflexivity]. destruct (Nat.eqb (S k2) sh); reflexivity. }
    assert (Pa : forall s' w1 u x, after st s s' w1 -> (v2 <= u)%nat -> after st s (reset (put (put s' u x) (4 + v2) x)) w1 /\ get (reset (put (put s' u x) (4 + v2) x)) (4 + v2)%nat = Some x).
    { intros s' w1 u z (A1 & A2 & A3) Hu. split.
      - unfold reset, put, after; cbn [s_env s_world s_args]. split; [reflexivity|]. split; [exact A2|]. intros q Hq. unfold upd. destruct (Nat.eqb_spec q (4 + v2)); [lia|]. destruct (Nat.eqb_spec q u); [lia|]. auto.
      - rewrite get_temp by lia. unfold reset, put; cbn [s_env s_world s_args]. unfold upd. rewrite Nat.eqb_refl. reflexivity. }
    assert (Done : forall s' w1 u q z, after st s s' w1 -> (v2 <= u)%nat -> leads b (len st b) s q 0 s' -> leads q 0 s' k2 0 (reset (put (put s' u z) (4 + v2) z)) -> w1 = w' -> z = y ->
      exists s', leads b (len st b) s k2 (len st3 k2) s' /\ after st s s' w' /\ get s' (4 + v2)%nat = Some y).
    { intros s' w1 u q z A1 Hu L1 L2 -> ->. exists (reset (put (put s' u y) (4 + v2) y)). rewrite Lk. split; [eapply leads_trans; eauto|]. apply (Pa s' w' u y A1 Hu). }
    (* the run of the second operand, and its test *)
    assert (Second : forall s1 w1 z w2, after st s s1 w1 -> leads b (len st b) s b1 0 s1 -> ceval c w1 z w2 -> exists s2, after st s s2 w2 /\
              leads b (len st b) s (if negb (z =? 0) then lk else rk) 0 s2).
    { intros s1 w1 z w2 A1 L1 Ec2. assert (Ag1 : agree s1) by (eapply after_agree; [apply (wf_var _ _ W)|exact A1|exact Ag]).
      destruct (Ev2 O12 s1 z w2 (proj1 A1) Ag1) as (s2 & L2 & A2 & Gv). { rewrite (proj1 (proj2 A1)). exact Ec2. }
      exists (reset s2). split.
      - destruct (after_trans st st1 s s1 w1 s2 w2 (fr_var _ _ _ _ _ Fr1) A1 A2) as (? & ? & ?). repeat split; assumption.
      - eapply leads_trans; [exact L1|]. unfold len in L2 at 1. rewrite Co1 in L2. eapply leads_trans; [exact L2|]. destruct Fb as (A & _ & B & C).
        rewrite <- (c_truth _ HM). eapply leads_branch; [unfold st3 in A; cbn [p_code] in A; rewrite A, Eb; reflexivity|exact Gv|apply A2| |].
        + rewrite B. unfold st3; cbn [p_then]. unfold upd. rewrite Nat.eqb_refl. reflexivity.
        + rewrite C. unfold st3; cbn [p_else]. unfold upd. rewrite Nat.eqb_refl. reflexivity. }
    destruct Lo as [[-> ->]|[-> ->]]; cbn [is_and op_eqb opcode_beq negb] in *; subst lk rk; cbn beta iota in *.
    - inversion Ec as [| | | | |? ? ? ? Ea|? ? ? z w1 u w2 Ea Nz Eb'| | |o' ? ? ? ? ? ? ? ? Q|? ? ? ? ? ? ? ? Q| | |]; subst; try congruence.
      + destruct (Ev1 O11 s 0 w' Hs Ag Ea) as (s1 & A1 & L1). cbn in L1. eapply Done; [exact A1| |exact L1|apply Lsh; apply A1|reflexivity|exact I7]. lia.
      + destruct (Ev1 O11 s z w1 Hs Ag Ea) as (s1 & A1 & L1). rewrite (proj2 (Z.eqb_neq z 0) Nz) in L1. cbn in L1.
        destruct (Second s1 w1 u w' A1 L1 Eb') as (s2 & A2 & L2). destruct (u =? 0) eqn:Qu; cbn [negb] in L2.
        * eapply Done; [exact A2| |exact L2|apply Lsh; apply A2|reflexivity|exact I7]. lia.
        * eapply Done; [exact A2| |exact L2|apply Lnn; apply A2|reflexivity|exact I3]. lia.
    - inversion Ec as [| | | | | | |? ? ? z ? Ea Nz|? ? ? w1 u w2 Ea Eb'|o' ? ? ? ? ? ? ? ? Q1 Q2| | | |]; subst; try congruence.
      + destruct (Ev1 O11 s z w' Hs Ag Ea) as (s1 & A1 & L1). rewrite (proj2 (Z.eqb_neq z 0) Nz) in L1. cbn in L1.
        eapply Done; [exact A1| |exact L1|apply Lsh; apply A1|reflexivity|exact I7]. lia.
      + destruct (Ev1 O11 s 0 w1 Hs Ag Ea) as (s1 & A1 & L1). cbn in L1.
        destruct (Second s1 w1 u w' A1 L1 Eb') as (s2 & A2 & L2). destruct (u =? 0) eqn:Qu; cbn [negb] in L2.
        * eapply Done; [exact A2| |exact L2|apply Lnn; apply A2|reflexivity|exact I3]. lia.
        * eapply Done; [exact A2| |exact L2|apply Lsh; apply A2|reflexivity|exact I7]. lia.
  Qed.

  (** x[i]: src/parser.c:1256-1320, 1432-1554 *)
  Definition read_top (b : nat) (size : Z) (st : pst) : option pst :=
    do (a, st) <- opstack_pop st;
    do (t, st) <- require_var lim st;
    do st <- opstack_push t st;
    Some (add_insn b OP_read (Some t) (Some a) None size 0 st).
  Lemma read_top_adds size b st st' : read_top b size st = Some st' ->
    exists a l, p_stack st = a :: l /\ adds st b [rdm (p_var st) a size] st' /\ p_stack st' = p_var st :: l /\ p_var st' = S (p_var st).
  Proof.
    unfold read_top. intros H. destruct st as [v k c n t e pr i s]. repeat step H. apply some_inj in H. subst st'.
    exists n0, l. cbn [p_stack p_var]. split; [reflexivity|]. split; [constructor; cbn; auto|auto].
  Qed.
  Lemma wrap_add_r a x : wrap (a + wrap x) = wrap (a + x).
  Proof. unfold wrap. destruct (s32_mod x) as [k ->]. apply w32_eq_s32. unfold w32. rewrite Z.add_assoc. apply Z_mod_plus_full. Qed.
  Definition scale (b : nat) (size : Z) (st : pst) : option pst :=
    if size =? 1 then Some st else do st <- load_constant lim size b st; binary_op lim OP_mul b st.
  Lemma scale_adds size b st st' v l : wf st b -> scale b size st = Some st' -> p_stack st = v :: l -> good st v -> exists is v',
    adds st b is st' /\ p_stack st' = v' :: l /\ good st' v' /\
    forall K X s k, owns F K X st st' b -> s_args s = [] -> get s v = Some k ->
      exists s' z, steps is s s' /\ after st s s' (s_world s) /\ get s' v' = Some z /\ forall a, wrap (a + z) = wrap (a + k * size).
  Proof.
    intros W E S G. unfold scale in E. pose proof (wf_var _ _ W) as P. destruct (Z.eqb_spec size 1) as [->|N].
    - apply some_inj in E. subst st'. exists [], v. split; [apply adds_nil; reflexivity|]. split; [exact S|]. split; [exact G|].
      intros K X s k _ Hs Hk. exists s, k. split; [constructor|]. split; [apply after_refl; exact Hs|]. split; [exact Hk|]. intros a. f_equal. lia.
    - destruct (load_constant lim size b st) as [st1|] eqn:E1; [|discriminate]. destruct (load_constant_adds _ _ _ _ _ E1) as (A1 & S1 & N1 & I1).
      destruct (binary_op_adds _ _ _ _ _ E) as (y & x & l' & S2 & A2 & S3 & N2). rewrite S1, S in S2. injection S2 as <- <- <-.
      do 2 eexists. split; [exact (adds_trans _ _ _ _ _ _ A1 A2)|]. split; [exact S3|]. split; [right; lia|].
      intros K X s k O Hs Hk. set (s1 := put s (p_var st) size). exists (put s1 (p_var st1) (wrap (k * size))), (wrap (k * size)). split; [|split; [|split]].
      + apply st_cons with (s1 := s1); [|econstructor; [|constructor]].
        * assert (v_init V (p_var st) = size) as Q.
          { rewrite (owns_init _ _ _ _ _ _ O P) by lia. rewrite (ad_init _ _ _ _ A2) by lia. exact I1. }
          unfold s1. rewrite <- Q. apply step_const; assumption.
        * eapply s_binary with (o := OP_mul); [reflexivity|reflexivity| | | |apply set_temp; lia].
          -- rewrite <- Hk. apply (after_get st s s1 (s_world s)); [exact G|apply put_after; lia|reflexivity].
          -- apply put_get. exact P.
          -- apply (c_bin _ HM BMul); try discriminate. reflexivity.
      + apply (after_trans st st1 s s1 (s_world s) _ (s_world s)); [lia|apply put_after; lia|]. apply (put_after st1 s1). lia.
      + apply put_get. lia.
      + intros a. apply wrap_add_r.
  Qed.
  Lemma did_idx x v i size b st st0 st1 b1 st2 st3 st4 : wf st b -> find_constant x = None -> find_var x = Some v -> element_size find_var x = size ->
    settled (is_constant find_constant) (is_global find_var V) (RIdx x i) = true ->
    opstack_push (vi_id v) st = Some st0 -> did i [b] st0 b st1 b1 -> scale b1 size st1 = Some st2 -> binary_op lim OP_add b1 st2 = Some st3 ->
    read_top b1 size st3 = Some st4 -> did (RIdx x i) [b] st b st4 b1.
  Proof.
    intros W Hc Hv Hsz Hset E0 D E2 E3 E4.
    unfold opstack_push in E0. destruct (_ <? _)%nat; [|discriminate]. apply some_inj in E0.
    assert (A0 : adds st b [] st0) by (subst st0; apply adds_nil; reflexivity).
    assert (V0 : p_var st0 = p_var st) by (subst st0; reflexivity). assert (S0 : p_stack st0 = vi_id v :: p_stack st) by (subst st0; reflexivity). clear E0.
    pose proof (adds_frame _ _ _ _ (wf_b _ _ W) A0) as Fr0. pose proof (wf_frame _ _ _ _ _ W Fr0) as W0.
    destruct D as (Fr & Fl & vi & S1 & [G1 G2] & Ev). pose proof (wf_frame _ _ _ _ _ W0 Fr) as W1.
    destruct (scale_adds _ _ _ _ _ _ W1 E2 S1 G1) as (is & v' & A2 & S2 & G3 & Run2).
    destruct (binary_op_adds _ _ _ _ _ E3) as (y' & x' & l' & Q & A3 & S3 & N3). rewrite S2, S0 in Q. injection Q as <- <- <-.
    destruct (read_top_adds _ _ _ _ E4) as (a' & l'' & Q & A4 & S4 & N4). rewrite S3 in Q. injection Q as <- <-.
    pose proof (adds_trans _ _ _ _ _ _ A2 (adds_trans _ _ _ _ _ _ A3 A4)) as A.
    pose proof (adds_frame _ _ _ _ (wf_b _ _ W1) A) as Fr4.
    assert (Fr01 : frame [b] st b st1 b1).
    { apply (frame_trans _ _ _ _ _ _ _ _ (wf_b _ _ W) Fr0 Fr). intros d [<-|[]]. left; left; reflexivity. }
    pose proof (wf_var _ _ W) as P. pose proof (wf_var _ _ W1) as P1. pose proof (ad_var _ _ _ _ A2) as L2.
    split.
    { apply (frame_trans _ _ _ _ _ _ _ _ (wf_b _ _ W) Fr01 Fr4). intros d [<-|[]].
      destruct (fr_cur _ _ _ _ _ Fr01) as [->|]; [left; left; reflexivity|right; assumption]. }
    split; [exact Fl|]. exists (p_var st3). split; [exact S4|]. split.
    { split; [right; lia|]. rewrite Hglob by lia. discriminate. }
    assert (Gb : good st0 (vi_id v)).
    { destruct (v_global V (vi_id v)) eqn:Q; [left; exact Q|right]. pose proof (Hvar _ _ Hv Q). lia. }
    intros O s r w' Hs Ag Ec.
    destruct (split _ _ _ _ _ _ _ _ O W Fr01 Fr4 (in_one _ _ (wf_b _ _ W)) (fun f => f)) as [O01 O4].
    destruct (split _ _ _ _ _ _ _ _ O01 W Fr0 Fr (in_one _ _ (wf_b _ _ W)) (fun f => f)) as [O0 O1].
    inversion Ec as [| | |x0 i0 w a k w1 r0 La Ei Ld| | | | | | | | | |]; subst.
    destruct (Ev O1 s k w' Hs Ag Ei) as (s1 & L1 & A1 & Gk).
    assert (Ga : get s1 (vi_id v) = Some a).
    { rewrite (after_get st0 s s1 w' (vi_id v) Gb A1).
      - unfold lookup in La. rewrite Hc, Hv in La. unfold AllocSpec.get. destruct (v_global V (vi_id v)) eqn:Q; [exact La|]. rewrite Ag by (eapply Hvar; eauto). exact La.
      - intros Q. eapply no_calls_world; [exact Ei|]. unfold settled in Hset. cbn [no_calls ExprSpec.no_globals] in Hset.
        unfold is_global in Hset at 1. rewrite Hv, Q in Hset. cbn in Hset. rewrite orb_false_r in Hset. exact Hset. }
    assert (O2 : owns F [] [b1] st1 st2 b1).
    { eapply owns_first; [exact O4|apply (wf_b _ _ W1)|apply (adds_frame _ _ _ _ (wf_b _ _ W1) A2)| |apply incl_refl|auto|apply in_one; apply (wf_b _ _ W1)| |intros ? []].
      - eapply adds_frame; [|exact (adds_trans _ _ _ _ _ _ A3 A4)]. rewrite (ad_blk _ _ _ _ A2). apply (wf_b _ _ W1).
      - intros c [<-|[]]. left; reflexivity. }
    destruct (Run2 _ _ s1 k O2 (proj1 A1) Gk) as (s2 & z & St2 & Af2 & Gz & Hz).
    set (ad := wrap (a + k * element_size find_var x)) in *.
    set (s3 := put s2 (p_var st2) ad). exists (put s3 (p_var st3) r).
    assert (Wd : s_world s2 = w') by (rewrite (proj1 (proj2 Af2)); apply A1).
    split; [|split].
    - replace (len st b) with (len st0 b) by (unfold len; rewrite (ad_code _ _ _ _ A0), Nat.eqb_refl, app_nil_r; reflexivity).
      eapply leads_trans; [exact L1|]. eapply adds_leads; [exact A|exact O4|]. eapply steps_app; [exact St2|].
      apply st_cons with (s1 := s3); [|econstructor; [|constructor]].
      + eapply s_binary with (o := OP_add); [reflexivity|apply Af2| |exact Gz|apply (c_bin _ HM BAdd); try discriminate; reflexivity|].
        * rewrite <- Ga. eapply after_get; [eapply good_mono; [|exact Gb]; apply Fr|exact Af2|reflexivity].
        * rewrite Hz. fold ad. apply set_temp. lia.
      + eapply s_read; [reflexivity|apply put_get; lia| |apply set_temp; lia]. cbn. rewrite Wd. exact Ld.
    - assert (B1 : after st0 s s2 w') by (rewrite <- Wd; eapply after_trans; [apply Fr|rewrite <- (proj1 (proj2 A1)) in A1; exact A1|]; rewrite (proj1 (proj2 Af2)) in *; exact Af2).
      destruct B1 as (B1 & B2 & B3). repeat split; cbn; [exact Wd|]. intros u Hu. unfold upd.
      destruct (Nat.eqb_spec u (p_var st3)); [pose proof (fr_var _ _ _ _ _ Fr); lia|]. destruct (Nat.eqb_spec u (p_var st2)); [pose proof (fr_var _ _ _ _ _ Fr); lia|]. apply B3. lia.
    - apply put_get. lia.
  Qed.

  (** ** Calls. *)
  Notation cevals := (cevals (lookup find_constant find_var V M goff e0) (element_size find_var) (m_read M) (do_call find_func M)).
  Definition did_args (es : list rexpr) (st : pst) (b : nat) (st' : pst) (b' : nat) (vs : list nat) : Prop :=
    frame [b] st b st' b' /\ (forallb flat es = true -> b' = b) /\ p_stack st' = p_stack st /\
    Forall (fun v => v_global V v = false /\ (v < p_var st')%nat) vs /\
    (owns F [] [b] st st' b' -> forall s xs w', s_args s = [] -> agree s -> cevals es (s_world s) xs w' ->
     exists s', leads b (len st b) s b' (len st' b') s' /\ after st s s' w' /\ Forall2 (fun v x => get s' v = Some x) vs xs).
  Lemma did_args_nil st b : did_args [] st b st b [].
  Proof.
    split; [apply frame_refl; left; reflexivity|]. split; [reflexivity|]. split; [reflexivity|]. split; [constructor|].
    intros O s xs w' Hs Ag Ec. inversion Ec; subst. exists s. split; [apply leads_refl|]. split; [apply after_refl; exact Hs|constructor].
  Qed.
  Lemma did_args_cons e es b st st1 b1 v st1' st2 b2 vs : wf st b -> no_globals e = true -> did e [b] st b st1 b1 -> opstack_pop st1 = Some (v, st1') ->
    did_args es st1' b1 st2 b2 vs -> did_args (e :: es) st b st2 b2 (v :: vs).
  Proof.
    intros W NG (Fr & Fl & v0 & S & [G1 G2] & Ev) Ep (Fr2 & Fl2 & S2 & Gs & Ev2). pose proof (wf_frame _ _ _ _ _ W Fr) as W1.
    unfold opstack_pop in Ep. rewrite S in Ep. injection Ep as -> Est.
    assert (A1 : adds st1 b1 [] st1') by (subst st1'; apply adds_nil; reflexivity).
    assert (V1 : p_var st1' = p_var st1) by (subst st1'; reflexivity). assert (S1 : p_stack st1' = p_stack st) by (subst st1'; reflexivity).
    assert (C1 : p_code st1' = p_code st1) by (subst st1'; reflexivity). clear Est.
    pose proof (adds_frame _ _ _ _ (wf_b _ _ W1) A1) as Fr1. pose proof (wf_frame _ _ _ _ _ W1 Fr1) as W1'.
    assert (Fr12 : frame [b1] st1 b1 st2 b2). { apply (frame_trans _ _ _ _ _ _ _ _ (wf_b _ _ W1) Fr1 Fr2). intros d [<-|[]]. left; left; reflexivity. }
    assert (NGv : v_global V v = false). { destruct (v_global V v); [|reflexivity]. rewrite G2 in NG by reflexivity. discriminate. }
    split. { apply (frame_trans _ _ _ _ _ _ _ _ (wf_b _ _ W) Fr Fr12). intros d [<-|[]]. destruct (fr_cur _ _ _ _ _ Fr) as [->|]; [left; left; reflexivity|right; assumption]. }
    split. { cbn [forallb]. intros H. apply andb_true_iff in H. destruct H as [H1 H2]. rewrite Fl2 by exact H2. auto. }
    split; [congruence|]. split.
    { constructor; [|exact Gs]. split; [exact NGv|]. destruct G1 as [G1|G1]; [congruence|]. pose proof (fr_var _ _ _ _ _ Fr2). lia. }
    intros O s xs w' Hs Ag Ec.
    destruct (split _ _ _ _ _ _ _ _ O W Fr Fr12 (in_one _ _ (wf_b _ _ W)) (fun f => f)) as [O1 O2].
    destruct (split _ _ _ _ _ _ _ _ O2 W1 Fr1 Fr2 (in_one _ _ (wf_b _ _ W1)) (fun f => f)) as [_ O3].
    inversion Ec as [|e' l' w x w1 xs' w2 Ee Es]; subst. destruct (Ev O1 s x w1 Hs Ag Ee) as (s1 & L1 & A2 & Gx).
    assert (Ag1 : agree s1) by (eapply after_agree; [apply (wf_var _ _ W)|exact A2|exact Ag]).
    destruct (Ev2 O3 s1 xs' w' (proj1 A2) Ag1) as (s2 & L2 & A3 & Gy). { rewrite (proj1 (proj2 A2)). exact Es. }
    exists s2. split; [|split].
    - eapply leads_trans; [exact L1|]. unfold len in *. rewrite C1 in L2. exact L2.
    - eapply after_trans; [apply Fr|exact A2|]. destruct A3 as (? & ? & H3). repeat split; auto. rewrite V1 in H3. exact H3.
    - constructor; [|exact Gy]. rewrite <- Gx. eapply after_get; [|exact A3|congruence]. right. destruct G1; [congruence|lia].
  Qed.
  Fixpoint pushes (l : list nat) : list rinsn :=
    match l with [] => [] | v :: r => mkr (mkinsn OP_push None (Some v) None) (Z.of_nat (length l)) 0 :: pushes r end.
  Lemma push_args_adds b l : forall st, adds st b (pushes l) (push_args b l st) /\ p_stack (push_args b l st) = p_stack st /\ p_var (push_args b l st) = p_var st.
  Proof.
    induction l as [|v l IH]; intros st; cbn [push_args pushes].
    - split; [apply adds_nil; reflexivity|]. auto.
    - match goal with |- context [push_args b l ?s] => set (st1 := s) end. destruct (IH st1) as (A & S & N). split.
      + apply (adds_trans _ _ [_] st1 (pushes l)); [|exact A]. constructor; unfold st1, add_insn; cbn; auto.
      + rewrite S, N. split; reflexivity.
  Qed.
  Lemma pushes_steps l : forall xs s, Forall2 (fun v x => get s v = Some x) l xs ->
    exists s', steps (pushes l) s s' /\ s_args s' = s_args s ++ xs /\ s_world s' = s_world s /\ s_env s' = s_env s.
  Proof.
    induction l as [|v l IH]; intros xs s H; inversion H as [|? x ? xs' Hx H']; subst; cbn [pushes].
    - exists s. rewrite app_nil_r. repeat split. constructor.
    - destruct (IH xs' (mks (s_env s) (s_world s) (s_args s ++ [x]) None)) as (s' & S & A & B & C).
      { exact H'. }
      exists s'. split; [econstructor; [apply s_push; exact Hx|exact S]|]. rewrite A. cbn. rewrite <- app_assoc. auto.
  Qed.
  Lemma did_call f k es vs b st st1 b1 v st2 st3 st4 : wf st b -> find_func f = Some k -> did_args es st b st1 b1 vs ->
    require_var lim (add_insn b1 OP_call None None None 0 k (push_args b1 vs st1)) = Some (v, st2) -> opstack_push v st2 = Some st3 ->
    st4 = add_insn b1 OP_func_ret (Some v) None None 0 0 st3 -> did (RCall f es) [b] st b st4 b1.
  Proof.
    intros W Hf (Fr & Fl & S & Gs & Ev) E1 E2 ->. pose proof (wf_frame _ _ _ _ _ W Fr) as W1.
    destruct (push_args_adds b1 vs st1) as (A1 & S1 & N1). remember (push_args b1 vs st1) as sp eqn:Esp. clear Esp.
    unfold require_var in E1. destruct (_ <? _)%nat; [|discriminate]. injection E1 as <- <-. unfold opstack_push in E2. destruct (_ <? _)%nat; [|discriminate].
    apply some_inj in E2. subst st3. match goal with |- did _ _ _ _ ?s _ => set (st4 := s) end.
    assert (A2 : adds sp b1 [mkr (mkinsn OP_call None None None) 0 k; mkr (mkinsn OP_func_ret (Some (p_var st1)) None None) 0 0] st4).
    { unfold st4, add_insn, set_stack. constructor; cbn; auto.
      intros q. unfold upd. rewrite Nat.eqb_refl, N1. destruct (Nat.eqb_spec q b1) as [->|]; [rewrite <- app_assoc|]; reflexivity. }
    pose proof (adds_trans _ _ _ _ _ _ A1 A2) as A. pose proof (adds_frame _ _ _ _ (wf_b _ _ W1) A) as Fr2. pose proof (wf_var _ _ W1) as P.
    split. { apply (frame_trans _ _ _ _ _ _ _ _ (wf_b _ _ W) Fr Fr2). intros d [<-|[]]. destruct (fr_cur _ _ _ _ _ Fr) as [->|]; [left; left; reflexivity|right; assumption]. }
    split; [exact Fl|]. exists (p_var st1). split. { unfold st4, add_insn, set_stack; cbn. rewrite N1, S1, S. reflexivity. }
    split. { split; [right; unfold st4, add_insn, set_stack; cbn; lia|]. rewrite Hglob by exact P. discriminate. }
    intros O s r w' Hs Ag Ec. destruct (split _ _ _ _ _ _ _ _ O W Fr Fr2 (in_one _ _ (wf_b _ _ W)) (fun f => f)) as [O1 O2].
    inversion Ec as [| | | | | | | | | | | | |f' es' w xs w1 r' w2 Es (k' & Hk & Hcall)]; subst.
    assert (k' = k) by congruence. subst k'.
    destruct (Ev O1 s xs w1 Hs Ag Es) as (s1 & L1 & A3 & Gx). destruct (pushes_steps vs xs s1 Gx) as (s2 & St & B1 & B2 & B3).
    rewrite (proj1 A3) in B1. cbn [List.app] in B1.
    exists (put (mks (s_env s2) w' [] (Some r)) (p_var st1) r). split; [|split].
    - eapply leads_trans; [exact L1|]. eapply adds_leads; [exact A|exact O2|]. eapply steps_app; [exact St|].
      econstructor; [apply s_call; rewrite B1, B2, (proj1 (proj2 A3)); exact Hcall|]. econstructor; [|constructor].
      eapply s_result; [reflexivity|reflexivity|]. apply set_temp. exact P.
    - destruct A3 as (Q1 & Q2 & Q3). repeat split. intros u Hu. cbn. unfold upd. destruct (Nat.eqb_spec u (p_var st1)); [pose proof (fr_var _ _ _ _ _ Fr); lia|]. rewrite B3. auto.
    - apply put_get. exact P.
  Qed.

  (** c ? a : d, src/parser.c:1780-1861.  S0: after the branch, S1: after the first arm, S2: before the second, S3: after it, S4: at the end *)
  Lemma did_cond c a d b st st1 b1 x l S0 S1 S2 S3 S4 t e y l1 z l3 : wf st b -> flat a = true -> flat d = true ->
    did c [b] st b st1 b1 -> p_stack st1 = x :: l ->
    p_var S0 = (3 + p_var st1)%nat -> p_blk S0 = (3 + p_blk st1)%nat -> p_code S0 = upd (p_code st1) b1 (p_code st1 b1 ++ [br x]) ->
    p_next S0 = upd (upd (p_next st1) (p_blk st1) (Some (2 + p_blk st1)%nat)) (1 + p_blk st1) (Some (2 + p_blk st1)%nat) ->
    p_then S0 = p_then st1 -> p_else S0 = p_else st1 -> p_init S0 = p_init st1 -> p_stack S0 = l ->
    did a [p_blk st1] S0 (p_blk st1) S1 t -> p_stack S1 = y :: l1 ->
    p_var S2 = (3 + p_var S1)%nat -> p_blk S2 = p_blk S1 -> p_code S2 = upd (p_code S1) t (p_code S1 t ++ [asg (p_var S1) y]) ->
    p_next S2 = p_next S1 -> p_then S2 = upd (p_then S1) b1 (Some t) -> p_else S2 = p_else S1 -> p_init S2 = p_init S1 -> p_stack S2 = l1 ->
    did d [1 + p_blk st1]%nat S2 (1 + p_blk st1) S3 e -> p_stack S3 = z :: l3 ->
    p_var S4 = (1 + p_var S3)%nat -> p_blk S4 = p_blk S3 -> p_code S4 = upd (p_code S3) e (p_code S3 e ++ [asg (p_var S1) z]) ->
    p_next S4 = p_next S3 -> p_then S4 = p_then S3 -> p_else S4 = upd (p_else S3) b1 (Some e) -> p_init S4 = p_init S3 -> p_stack S4 = p_var S1 :: l3 ->
    did (RCond c a d) [b] st b S4 (2 + p_blk st1).
  Proof.
    intros W Fa Fd (Fr & _ & v & Sk & [G1 G2] & Ev) Q v0 k0 c0 n0 t0 f0 i0 s0 (FrA & FlA & va & SkA & [GA1 GA2] & EvA) QA v2 k2 c2 n2 t2 f2 i2 s2
      (FrD & FlD & vd & SkD & [GD1 GD2] & EvD) QD v4 k4 c4 n4 t4 f4 i4 s4.
    rewrite Sk in Q. injection Q as <- <-. rewrite SkA in QA. injection QA as <- <-. rewrite SkD in QD. injection QD as <- <-.
    specialize (FlA Fa). specialize (FlD Fd). subst t e.
    pose proof (wf_frame _ _ _ _ _ W Fr) as W1. pose proof (wf_b _ _ W1) as Lb1. pose proof (wf_b _ _ W) as Lb.
    pose proof (fr_blk _ _ _ _ _ FrA) as KA. pose proof (fr_blk _ _ _ _ _ FrD) as KD. pose proof (fr_var _ _ _ _ _ FrA) as VA. pose proof (fr_var _ _ _ _ _ FrD) as VD.
    pose proof (wf_var _ _ W1) as P. pose proof (wf_exit _ _ W1) as PX. pose proof (wf_empty _ _ W1) as We.
    set (k := p_blk st1) in *. set (V0 := p_var S1) in *.
    (* how each block changes *)
    assert (D0 : forall q, q <> b1 -> q <> k -> q <> (1 + k)%nat -> same q st1 S0).
    { intros q N1 N2 N3. unfold same. rewrite c0, n0, t0, f0. unfold upd.
      rewrite (proj2 (Nat.eqb_neq q b1) N1), (proj2 (Nat.eqb_neq q k) N2), (proj2 (Nat.eqb_neq q (1 + k)) N3). auto. }
    assert (D1 : forall q, (q < 3 + k)%nat -> q <> k -> same q S0 S1).
    { intros q Hq N. apply (fr_same _ _ _ _ _ FrA); [lia|]. cbn. lia. }
    assert (D2 : forall q, q <> b1 -> q <> k -> same q S1 S2).
    { intros q N1 N2. unfold same. rewrite c2, n2, t2, f2. unfold upd. rewrite (proj2 (Nat.eqb_neq q b1) N1), (proj2 (Nat.eqb_neq q k) N2). auto. }
    assert (D3 : forall q, (q < p_blk S2)%nat -> q <> (1 + k)%nat -> same q S2 S3).
    { intros q Hq N. apply (fr_same _ _ _ _ _ FrD); [lia|]. cbn. lia. }
    assert (D4 : forall q, q <> b1 -> q <> (1 + k)%nat -> same q S3 S4).
    { intros q N1 N2. unfold same. rewrite c4, n4, t4, f4. unfold upd. rewrite (proj2 (Nat.eqb_neq q b1) N1), (proj2 (Nat.eqb_neq q (1 + k)) N2). auto. }
    assert (CB : p_code S4 b1 = p_code st1 b1 ++ [br v] /\ p_then S4 b1 = Some k /\ p_else S4 b1 = Some (1 + k)%nat).
    { destruct (D1 b1 ltac:(lia) ltac:(lia)) as (A1 & _ & A3 & A4). destruct (D3 b1 ltac:(lia) ltac:(lia)) as (B1 & _ & B3 & B4).
      rewrite c4, t4, f4. unfold upd. rewrite Nat.eqb_refl, (proj2 (Nat.eqb_neq b1 (1 + k))) by lia.
      rewrite B1, B3, c2, t2. unfold upd. rewrite Nat.eqb_refl, (proj2 (Nat.eqb_neq b1 k)) by lia. rewrite A1, c0. unfold upd. rewrite Nat.eqb_refl. auto. }
    assert (CT : p_code S4 k = p_code S1 k ++ [asg V0 va] /\ p_next S4 k = Some (2 + k)%nat).
    { destruct (D3 k ltac:(lia) ltac:(lia)) as (B1 & B2 & _). destruct (fr_edges _ _ _ _ _ FrA eq_refl) as (A2 & _).
      rewrite c4, n4. unfold upd. rewrite (proj2 (Nat.eqb_neq k (1 + k))) by lia. rewrite B1, B2, c2, n2, A2, n0. unfold upd.
      rewrite Nat.eqb_refl, (proj2 (Nat.eqb_neq k (1 + k))) by lia. auto. }
    assert (C0 : forall q, (k <= q)%nat -> p_code S0 q = []).
    { intros q Hq. rewrite c0. unfold upd. rewrite (proj2 (Nat.eqb_neq q b1)) by lia. apply (We q Hq). }
    assert (C2e : p_code S2 (1 + k)%nat = [] /\ p_next S2 (1 + k)%nat = Some (2 + k)%nat).
    { destruct (D1 (1 + k)%nat ltac:(lia) ltac:(lia)) as (A1 & A2 & _). destruct (D2 (1 + k)%nat ltac:(lia) ltac:(lia)) as (B1 & B2 & _).
      rewrite B1, B2, A1, A2. split; [apply C0; lia|]. rewrite n0. unfold upd. rewrite Nat.eqb_refl. reflexivity. }
    assert (CE : p_code S4 (1 + k)%nat = p_code S3 (1 + k)%nat ++ [asg V0 vd] /\ p_next S4 (1 + k)%nat = Some (2 + k)%nat).
    { destruct (fr_edges _ _ _ _ _ FrD eq_refl) as (A2 & _). rewrite c4, n4, A2. unfold upd. rewrite Nat.eqb_refl. split; [reflexivity|apply C2e]. }
    assert (CJ : p_code S4 (2 + k)%nat = []).
    { destruct (D4 (2 + k)%nat ltac:(lia) ltac:(lia)) as (-> & _). destruct (D3 (2 + k)%nat ltac:(lia) ltac:(lia)) as (-> & _).
      destruct (D2 (2 + k)%nat ltac:(lia) ltac:(lia)) as (-> & _). destruct (D1 (2 + k)%nat ltac:(lia) ltac:(lia)) as (-> & _). apply C0. lia. }
    assert (E0 : forall q, (p_blk S0 <= q)%nat -> empty S0 q).
    { intros q Hq. destruct (D0 q ltac:(lia) ltac:(lia) ltac:(lia)) as (A1 & A2 & A3 & A4). destruct (We q ltac:(lia)) as (B1 & B2 & B3 & B4).
      unfold empty. rewrite A1, A2, A3, A4. auto. }
    pose proof (fr_empty _ _ _ _ _ FrA E0) as E1.
    assert (E2 : forall q, (p_blk S2 <= q)%nat -> empty S2 q).
    { intros q Hq. destruct (D2 q ltac:(lia) ltac:(lia)) as (A1 & A2 & A3 & A4). destruct (E1 q ltac:(lia)) as (B1 & B2 & B3 & B4).
      unfold empty. rewrite A1, A2, A3, A4. auto. }
    pose proof (fr_empty _ _ _ _ _ FrD E2) as E3.
    assert (Fr4 : frame [b1] st1 b1 S4 (2 + k)).
    { assert (Same : forall q, (q < k)%nat -> q <> b1 -> same q st1 S4).
      { intros q Hq N. apply (same_trans q st1 S0); [apply D0; lia|]. apply (same_trans q S0 S1); [apply D1; lia|]. apply (same_trans q S1 S2); [apply D2; lia|].
        apply (same_trans q S2 S3); [apply D3; lia|]. apply D4; lia. }
      constructor; try lia.
      - intros u Hu. rewrite i4, (fr_init _ _ _ _ _ FrD), i2, (fr_init _ _ _ _ _ FrA), i0 by lia. reflexivity.
      - intros q Hq N. apply Same; [exact Hq|]. cbn in N. intuition.
      - intros q Hq. destruct (Nat.eq_dec q b1) as [->|N]; [eexists; apply CB|]. destruct (Same q Hq N) as (-> & _). exists []. rewrite app_nil_r. reflexivity.
      - left; reflexivity.
      - intros _ q Hq. destruct (D4 q ltac:(lia) ltac:(lia)) as (A1 & A2 & A3 & A4). destruct (E3 q ltac:(lia)) as (B1 & B2 & B3 & B4).
        unfold empty. rewrite A1, A2, A3, A4. auto. }
    split. { apply (frame_trans _ _ _ _ _ _ _ _ Lb Fr Fr4). intros q [<-|[]]. destruct (fr_cur _ _ _ _ _ Fr) as [->|]; [left; left; reflexivity|right; assumption]. }
    split; [discriminate|]. exists V0. split; [congruence|]. split.
    { split; [right; unfold V0; lia|]. unfold V0. rewrite Hglob by lia. discriminate. }
    intros O s r w' Hs Ag Ec. destruct (split _ _ _ _ _ _ _ _ O W Fr Fr4 (in_one _ _ Lb) (fun f => f)) as [O1 O4].
    assert (FB : same b1 S4 F) by (apply (ow_same _ _ _ _ _ _ O4); [auto|lia|left; left; reflexivity]).
    assert (FN : forall q, (k <= q < p_blk S4)%nat -> q <> (2 + k)%nat -> same q S4 F) by (intros q Hq N; apply (ow_same _ _ _ _ _ _ O4); auto).
    assert (OA : owns F [] [k] S0 S1 k).
    { constructor.
      - intros u Hu. rewrite (ow_init _ _ _ _ _ _ O4) by lia. rewrite i4, (fr_init _ _ _ _ _ FrD), i2 by lia. reflexivity.
      - intros q _ N [[<-|[]]|Hq]; [congruence|]. apply (same_trans q S1 S2); [apply D2; lia|]. apply (same_trans q S2 S3); [apply D3; lia|].
        apply (same_trans q S3 S4); [apply D4; lia|]. apply FN; lia.
      - destruct (FN k ltac:(lia) ltac:(lia)) as (-> & _). eexists. apply CT. }
    assert (OD : owns F [] [1 + k]%nat S2 S3 (1 + k)).
    { constructor.
      - intros u Hu. rewrite (ow_init _ _ _ _ _ _ O4) by lia. rewrite i4. reflexivity.
      - intros q _ N [[<-|[]]|Hq]; [congruence|]. apply (same_trans q S3 S4); [apply D4; lia|]. apply FN; lia.
      - destruct (FN (1 + k)%nat ltac:(lia) ltac:(lia)) as (-> & _). eexists. apply CE. }
    assert (Go : forall s1 w1 vc, after st s s1 w1 -> leads b (len st b) s b1 (len st1 b1) s1 -> get s1 v = Some vc -> leads b (len st b) s (if m_truth M vc then k else 1 + k)%nat 0 (reset s1)).
    { intros s1 w1 vc A1 L1 Gv. eapply leads_trans; [exact L1|]. destruct FB as (B1 & _ & B3 & B4). destruct CB as (C1 & C3 & C4).
      eapply leads_branch; [rewrite B1, C1; reflexivity|exact Gv|apply A1|congruence|congruence]. }
    (* an arm: run it, copy its value, go on at the end *)
    assert (Arm : forall q q' (Sa Sb : pst) vv s1 s1' w1 w2 g, len Sa q = 0%nat -> same q S4 F -> p_code S4 q = p_code Sb q ++ [asg V0 vv] -> p_next S4 q = Some (2 + k)%nat ->
       q' = q -> (p_var st <= p_var Sa)%nat -> leads q (len Sa q) s1 q' (len Sb q') s1' -> after Sa s1 s1' w2 -> get s1' vv = Some g -> after st s s1 w1 -> leads b (len st b) s q 0 s1 ->
       exists s', leads b (len st b) s (2 + k) (len S4 (2 + k)%nat) s' /\ after st s s' w2 /\ get s' V0 = Some g).
    { intros q q' Sa Sb vv s1 s1' w1 w2 g La (H1 & H2 & _) Hc Hn -> Hv Ll Al Gl A1 L1. exists (reset (put s1' V0 g)). split; [|split].
      - eapply leads_trans; [exact L1|]. rewrite La in Ll. eapply leads_trans; [exact Ll|]. unfold len at 2. rewrite CJ.
        eapply leads_trans; [|eapply leads_next; [rewrite H2; exact Hn|lia]]. rewrite H1, Hc. eapply leads_steps with (l' := []); [rewrite app_nil_r, H1; exact Hc|].
        econstructor; [|constructor]. eapply s_assign; [apply Al|]. rewrite Gl. apply set_temp. unfold V0; lia.
      - destruct (after_trans _ _ _ _ _ _ _ Hv A1 Al) as (B1 & B2 & B3). unfold reset, put, after; cbn [s_env s_world s_args]. repeat split; [exact B2|].
        intros u Hu. unfold upd. destruct (Nat.eqb_spec u V0); [pose proof (fr_var _ _ _ _ _ Fr); unfold V0 in *; lia|]. auto.
      - rewrite get_temp by (unfold V0; lia). unfold reset, put; cbn [s_env]. unfold upd. rewrite Nat.eqb_refl. reflexivity. }
    assert (AR : forall s1 w1, after st s s1 w1 -> after st s (reset s1) w1) by (intros s1 w1 (A1 & A2 & A3); repeat split; assumption).
    assert (AG : forall s1 w1, after st s s1 w1 -> agree (reset s1)) by (intros s1 w1 A1; eapply after_agree; [apply (wf_var _ _ W)|apply AR; exact A1|exact Ag]).
    pose proof (fr_var _ _ _ _ _ Fr) as VF.
    inversion Ec as [| | | | | | | | | |c' a' d' w vc w1 u w2 Ec1 Nz Ea|c' a' d' w w1 u w2 Ec1 Ed| |]; subst.
    - destruct (Ev O1 s vc w1 Hs Ag Ec1) as (s1 & L1 & A1 & Gv). pose proof (Go s1 w1 vc A1 L1 Gv) as L2.
      rewrite (c_truth _ HM), (proj2 (Z.eqb_neq vc 0) Nz) in L2. cbn [negb] in L2.
      destruct (EvA OA (reset s1) r w' eq_refl (AG _ _ A1)) as (s2' & L3 & A3 & G3). { cbn. rewrite (proj1 (proj2 A1)). exact Ea. }
      eapply (Arm k k S0 S1); [unfold len; rewrite C0 by lia; reflexivity|apply FN; lia|apply CT|apply CT|reflexivity|lia|exact L3|exact A3|exact G3|apply AR; exact A1|exact L2].
    - destruct (Ev O1 s 0 w1 Hs Ag Ec1) as (s1 & L1 & A1 & Gv). pose proof (Go s1 w1 0 A1 L1 Gv) as L2. rewrite (c_truth _ HM) in L2. cbn [negb Z.eqb] in L2.
      destruct (EvD OD (reset s1) r w' eq_refl (AG _ _ A1)) as (s2' & L3 & A3 & G3). { cbn. rewrite (proj1 (proj2 A1)). exact Ed. }
      eapply (Arm (1 + k)%nat (1 + k)%nat S2 S3); [unfold len; rewrite (proj1 C2e); reflexivity|apply FN; lia|apply CE|apply CE|reflexivity|lia|exact L3|exact A3|exact G3|apply AR; exact A1|exact L2].
  Qed.

  (** ** The reader. *)
  Variable special : text -> bool.
  Notation rop := (read_operand find_constant find_var find_func special lim).
  Notation rexp := (read_expr find_constant find_var find_func special lim).
  Notation rtern := (read_ternary find_constant find_var find_func special lim).
  Notation rargs := (read_args find_constant find_var find_func special lim).
  Notation eloop := (expr_loop find_constant find_var find_func special lim).
  Notation fine := (fine (is_constant find_constant) (is_pointer find_var) (is_variable find_var) special).
  Notation ends_pointer := (ends_pointer (is_constant find_constant) (is_pointer find_var)).
  Notation settled := (settled (is_constant find_constant) (is_global find_var V)).

  Definition follow (e : rexpr) (rest : toks) : Prop :=
    peek T_open_square rest = false /\ peek T_dot rest = false /\ peek T_arrow rest = false /\ (ends_pointer e = true -> peek T_plus rest = false).
  Definition opOK (N : nat) : Prop := forall n e rest st b ts' st' b', (n <= N)%nat -> wf st b -> rgram 14 e -> fine e = true -> settled e = true -> follow e rest ->
    rop n (rtokens e ++ rest) st b = Some (ts', st', b') -> ts' = rest /\ did e [b] st b st' b'.
  Definition G (n m : nat) (ts : toks) (st : pst) (b : nat) (ops : list opcode) (l : lg) : option (toks * pst * nat) :=
    do (ts, st, b) <- rop n ts st b; let '(o, ts) := get_operator ts in eloop m o ts st b ops l.
  Definition prio := get_operator_prio.
  Definition above (p : Z) (ops : list opcode) : Prop := match ops with [] => True | o :: _ => prio o < p end.
  Lemma get_op o w r : get_operator ((op_token o, w) :: r) = (opc o, r).
  Proof. destruct o; reflexivity. Qed.
  Lemma prio_level o : o <> Shl -> o <> Shr -> prio (opc o) = level o.
  Proof. destruct o; try reflexivity; congruence. Qed.
  Lemma settled_bin o a c : settled (RBin o a c) = true -> settled a = true /\ settled c = true.
  Proof.
    unfold ExprSpec.settled; cbn [no_calls ExprSpec.no_globals]. intros H. apply orb_true_iff in H. destruct H as [H|H]; apply andb_true_iff in H; destruct H as [-> ->]; rewrite ?orb_true_r; auto.
  Qed.
  Lemma follow_op o a w r : fine (RBin o a a) = true -> follow a ((op_token o, w) :: r).
  Proof.
    cbn [ExprSpec.fine]. intros H. repeat (apply andb_true_iff in H; destruct H as [H ?]). unfold follow, peek, lex_peek.
    destruct o; cbn in *; repeat split; try reflexivity; try discriminate; try (intros E; rewrite E in H; discriminate).
  Qed.
  Lemma fine_bin o a c : fine (RBin o a c) = true -> fine a = true /\ fine c = true /\ fine (RBin o a a) = true /\ o <> Shl /\ o <> Shr.
  Proof.
    cbn [ExprSpec.fine]. intros H. apply andb_true_iff in H. destruct H as [H Hc]. apply andb_true_iff in H. destruct H as [H Ha]. rewrite H, Ha.
    repeat split; auto; intros ->; discriminate.
  Qed.
  Definition mild (l : lg) : Prop := get_operator_prio (l_prev l) <= 5.
  Lemma tree N : opOK N -> forall e p n m rest st b ops l res, rgram p e -> 6 <= p <= 14 -> fine e = true -> settled e = true -> follow e rest ->
    above p ops -> prio (fst (get_operator rest)) <= p -> mild l -> wf st b -> (n <= N)%nat -> (m <= S N)%nat ->
    G n m (rtokens e ++ rest) st b ops l = Some res ->
    exists m' st1 b1, (m' <= m)%nat /\ did e [b] st b st1 b1 /\ eloop m' (fst (get_operator rest)) (snd (get_operator rest)) st1 b1 ops l = Some res.
  Proof.
    intros OK. 
    assert (Leaf : forall e n m rest st b ops l res, rgram 14 e -> fine e = true -> settled e = true -> follow e rest -> wf st b -> (n <= N)%nat ->
      G n m (rtokens e ++ rest) st b ops l = Some res -> exists m' st1 b1, (m' <= m)%nat /\ did e [b] st b st1 b1 /\ eloop m' (fst (get_operator rest)) (snd (get_operator rest)) st1 b1 ops l = Some res).
    { intros e n m rest st b ops l res Ge Fe Se Fo W Ln H. unfold G in H. destruct (rop n _ st b) as [[[ts' st1] b1]|] eqn:E; [|discriminate].
      destruct (OK _ _ _ _ _ _ _ _ Ln W Ge Fe Se Fo E) as [-> D]. exists m, st1, b1. split; [lia|]. split; [exact D|].
      destruct (get_operator rest); exact H. }
    induction e as [lit|ch|x|x i IHi|u e IHe|o a IHa c IHc|c IHc a IHa d IHd|e IHe|f args]; intros p n m rest st b ops l res Ge Hp Fe Se Fo Ab Be Mi W Ln Lm H;
      try (eapply Leaf; eauto; fail).
    - (* unary *) eapply Leaf; eauto. cbn [rgram] in *. split; [lia|apply Ge].
    - (* binary *) destruct Ge as (Hlev & Ga & Gc). destruct (fine_bin _ _ _ Fe) as (Fa & Fc & Faa & Ns1 & Ns2). destruct (settled_bin _ _ _ Se) as [Sa Sc].
      pose proof (prio_level o Ns1 Ns2) as Pr. assert (Na : o <> LAnd) by (intros ->; cbn in Hlev; lia). assert (No : o <> LOr) by (intros ->; cbn in Hlev; lia).
      assert (Hl14 : level o <= 13) by (destruct o; cbn; lia).
      cbn [rtokens] in H. rewrite <- app_assoc in H. cbn [List.app] in H.
      destruct (IHa (level o) n m ((op_token o, []) :: rtokens c ++ rest) st b ops l res) as (m1 & st1 & b1 & L1 & D1 & H1); auto; try lia.
      { apply follow_op. exact Faa. } { destruct ops; cbn in *; lia. } { rewrite get_op; cbn [fst]; rewrite Pr; lia. }
      rewrite get_op in H1. cbn [fst snd] in H1. destruct m1 as [|m1]; [discriminate|]. rewrite expr_loop_S in H1.
      assert (Hst : stops (opc o) = false) by (destruct o; reflexivity). rewrite Hst in H1.
      assert (Hlo : is_logical (opc o) = false) by (destruct o; try reflexivity; congruence). rewrite Hlo in H1.
      assert (Hr : reduce lim (get_operator_prio (opc o)) b1 ops st1 = Some (ops, st1)).
      { destruct ops as [|o' r]; [reflexivity|]. cbn [reduce above] in *. fold prio. rewrite Pr. unfold prio in *. destruct (Z.geb_spec (get_operator_prio o') (level o)); [lia|reflexivity]. }
      rewrite Hr in H1.
      assert (Hll : leave_logical lim 3 (opc o) st1 b1 l = Some (st1, b1, l)).
      { cbn [leave_logical]. unfold mild in Mi. destruct (Z.ltb_spec (get_operator_prio (opc o)) (get_operator_prio (l_prev l))); [unfold prio in Pr; lia|]. rewrite andb_false_r. reflexivity. }
      rewrite Hll in H1.
      assert (W1 : wf st1 b1) by (eapply wf_frame; [exact W|apply D1]).
      assert (H2 : G m1 m1 (rtokens c ++ rest) st1 b1 (opc o :: ops) l = Some res).
      { revert H1. unfold G. destruct (rop m1 (rtokens c ++ rest) st1 b1) as [[[? ?] ?]|]; [|intros Q; discriminate Q]. destruct (_ <? _)%nat; [|intros Q; discriminate Q]. intros H1. exact H1. }
      destruct (IHc (level o + 1) m1 m1 rest st1 b1 (opc o :: ops) l res) as (m2 & st2 & b2 & L2 & D2 & H3); auto; try lia.
      { unfold above; rewrite Pr; lia. }
      assert (W2 : wf st2 b2) by (eapply wf_frame; [exact W1|apply D2]).
      assert (H4 : exists st3, binary_op lim (opc o) b2 st2 = Some st3 /\ eloop m2 (fst (get_operator rest)) (snd (get_operator rest)) st3 b2 ops l = Some res).
      { destruct (get_operator rest) as [o' ts']. cbn [fst snd] in *. destruct m2 as [|m2]; [discriminate|]. rewrite expr_loop_S in H3.
        destruct (stops o') eqn:St.
        - cbn [unwind] in H3. destruct (binary_op lim (opc o) b2 st2) as [st3|]; [|discriminate]. exists st3. split; [reflexivity|]. rewrite expr_loop_S, St. exact H3.
        - cbn [reduce] in H3. destruct (Z.geb_spec (get_operator_prio (opc o)) (get_operator_prio o')) as [_|Q]; [|unfold prio in *; lia].
          destruct (binary_op lim (opc o) b2 st2) as [st3|]; [|discriminate]. exists st3. split; [reflexivity|]. rewrite expr_loop_S, St. exact H3. }
      destruct H4 as (st3 & E3 & H4). exists m2, st3, b2. split; [lia|]. split; [|exact H4]. eapply did_binary; eauto.
    - (* conditional *) cbn [rgram] in Ge. lia.
  Qed.

  (** ** Chains of && and ||. *)
  Lemma did_sets e X Y st b st' b' : incl X Y -> incl Y X -> did e X st b st' b' -> did e Y st b st' b'.
  Proof.
    intros I1 I2 (Fr & Fl & v & S & R & Ev). split; [eapply frame_weaken; eauto|]. split; [exact Fl|]. exists v. split; [exact S|]. split; [exact R|].
    intros O. apply Ev. eapply owns_weaken; [exact O|exact I1].
  Qed.
  Lemma did_widen e X Y st b st' b' : incl X Y -> did e X st b st' b' -> did e Y st b st' b'.
  Proof.
    intros I1 (Fr & Fl & v & S & R & Ev). split; [eapply frame_weaken; eauto|]. split; [exact Fl|]. exists v. split; [exact S|]. split; [exact R|].
    intros O. apply Ev. eapply owns_weaken; [exact O|exact I1].
  Qed.
  Lemma tested_widen pol e T K X Y st b st' b' : incl X Y -> tested pol e T K X st b st' b' -> tested pol e T K Y st b st' b'.
  Proof.
    intros I1 (Fr & S & C & L & Ev). split; [eapply frame_weaken; eauto|]. split; [exact S|]. split; [exact C|]. split; [exact L|].
    intros O. apply Ev. eapply owns_weaken; [exact O|exact I1].
  Qed.
  Lemma tested_seq lo pol a c T K1 K X Y st b st1 b1 st2 b2 : wf st b -> (forall q, In q X -> (q < p_blk st)%nat) ->
    (lo = LAnd /\ pol = false \/ lo = LOr /\ pol = true) ->
    tested pol a T K1 X st b st1 b1 -> tested pol c T K (b1 :: Y) st1 b1 st2 b2 -> incl Y K1 -> ~ In b1 K ->
    (forall q, In q Y -> In q X \/ (p_blk st <= q < p_blk st1)%nat) ->
    (forall q, In q K -> In q K1 \/ (p_blk st1 <= q)%nat) ->
    tested pol (RBin lo a c) T K X st b st2 b2.
  Proof.
    intros W XL Lo (Fr1 & S1 & C1 & L1 & Ev1) (Fr2 & S2 & C2 & L2 & Ev2) YK NK HY HK.
    pose proof (wf_frame _ _ _ _ _ W Fr1) as W1. pose proof (wf_b _ _ W) as Lb. pose proof (wf_b _ _ W1) as Lb1.
    pose proof (fr_blk _ _ _ _ _ Fr1) as K1'. pose proof (fr_blk _ _ _ _ _ Fr2) as K2'.
    split. { eapply frame_trans; [exact Lb|exact Fr1|exact Fr2|]. intros q [<-|Hq]; [right; exact L1|]. destruct (HY q Hq) as [|[]]; auto. }
    split; [congruence|]. split; [exact C2|]. split; [lia|].
    intros O s x w' Hs Ag Ec.
    assert (O1 : owns F K1 X st st1 b1).
    { eapply owns_first; [exact O|exact Lb|exact Fr1|exact Fr2|apply incl_refl|exact NK|exact XL| |].
      - intros q [<-|Hq]; [left; reflexivity|]. right; left. auto.
      - intros q Hq. destruct (HK q Hq); auto. }
    assert (O2 : owns F K (b1 :: Y) st1 st2 b2).
    { eapply owns_second; [exact O|exact Fr1|apply Fr1| |].
      - intros q [<-|Hq]; [left; reflexivity|]. right. destruct (HY q Hq); [left; assumption|right; lia].
      - lia. }
    assert (Second : forall s1 w1 z w2, after st s s1 w1 -> leads b (len st b) s b1 0 s1 -> ceval c w1 z w2 -> exists s', after st s s' w2 /\
       (if Bool.eqb (negb (z =? 0)) pol then leads b (len st b) s T 0 s' else leads b (len st b) s b2 0 s')).
    { intros s1 w1 z w2 A1 Ll Ec2. assert (Ag1 : agree s1) by (eapply after_agree; [apply (wf_var _ _ W)|exact A1|exact Ag]).
      destruct (Ev2 O2 s1 z w2 (proj1 A1) Ag1) as (s2 & A2 & L3). { rewrite (proj1 (proj2 A1)). exact Ec2. }
      exists s2. split; [eapply after_trans; [apply Fr1|exact A1|exact A2]|]. unfold len in L3 at 1 2. rewrite C1 in L3. cbn [length] in L3.
      destruct (Bool.eqb _ _); eapply leads_trans; eauto. }
    destruct Lo as [[-> ->]|[-> ->]].
    - inversion Ec as [| | | | |? ? ? ? Ea|? ? ? z w1 u w2 Ea Nz Eb'| | |o' ? ? ? ? ? ? ? ? Q|? ? ? ? ? ? ? ? Q| | |]; subst; try congruence.
      + destruct (Ev1 O1 s 0 w' Hs Ag Ea) as (s1 & A1 & Ll). exists s1. split; [exact A1|exact Ll].
      + destruct (Ev1 O1 s z w1 Hs Ag Ea) as (s1 & A1 & Ll). rewrite (proj2 (Z.eqb_neq z 0) Nz) in Ll. cbn in Ll.
        destruct (Second s1 w1 u w' A1 Ll Eb') as (s2 & A2 & L3). exists s2. split; [exact A2|]. destruct (u =? 0); exact L3.
    - inversion Ec as [| | | | | | |? ? ? z ? Ea Nz|? ? ? w1 u w2 Ea Eb'|o' ? ? ? ? ? ? ? ? Q1 Q2| | | |]; subst; try congruence.
      + destruct (Ev1 O1 s z w' Hs Ag Ea) as (s1 & A1 & Ll). rewrite (proj2 (Z.eqb_neq z 0) Nz) in Ll. exists s1. split; [exact A1|exact Ll].
      + destruct (Ev1 O1 s 0 w1 Hs Ag Ea) as (s1 & A1 & Ll). cbn in Ll.
        destruct (Second s1 w1 u w' A1 Ll Eb') as (s2 & A2 & L3). exists s2. split; [exact A2|]. destruct (u =? 0); exact L3.
  Qed.

  (** the state of the chain outside &&: nothing before, or || *)
  Inductive outside (A R : nat) : lg -> Prop :=
  | out_start : outside A R (mklg false OP_generic OP_generic A R)
  | out_or : outside A R (mklg true OP_log_or OP_generic A R).
  Definition inside (l : lg) : lg := mklg true OP_log_and (l_prev l) (l_and l) (l_or l).
  Lemma outside_mild A R l : outside A R l -> mild l /\ mild (inside l).
  Proof. intros []; unfold mild; cbn; lia. Qed.
  Definition is_land (e : rexpr) : bool := match e with RBin LAnd _ _ => true | _ => false end.
  Definition is_lor (e : rexpr) : bool := match e with RBin LOr _ _ => true | _ => false end.
  Lemma rgram_up e : (rgram 5 e -> is_land e = false -> rgram 6 e) /\ (rgram 4 e -> is_lor e = false -> rgram 5 e).
  Proof.
    destruct e as [l|c|x|x i|u e|o a c|c a d|e|f args]; cbn; split; intros H N; try exact H; try (destruct H as (H1 & H2); split; [lia|exact H2]);
      destruct H as (H1 & H2); split; try exact H2; destruct o; cbn in *; try lia; discriminate.
  Qed.
  Lemma op_tok_and rest w : get_operator ((T_log_and, w) :: rest) = (OP_log_and, rest).
  Proof. reflexivity. Qed.

  (** a test by &&, from outside or inside a chain *)
  Lemma and_step N A R l a m rest st b st1 b1 res : wf st b -> (m <= S N)%nat -> did a [b] st b st1 b1 ->
    eloop m OP_log_and rest st1 b1 [] l = Some res -> (outside A R l \/ exists l0, outside A R l0 /\ l = inside l0) ->
    exists m' st2 b2, (m' <= N)%nat /\ tested false a A [] [b] st b st2 b2 /\ G m' m' rest st2 b2 [] (mklg true OP_log_and (if is_and (l_prev l) then l_pprev l else l_prev l) A R) = Some res.
  Proof.
    intros W Lm D H Hl. destruct m as [|m]; [discriminate|]. rewrite expr_loop_S in H. cbn [reduce] in H.
    assert (Hn : l_and l = A /\ next_logical lim OP_log_and st1 b1 l =
      do (st, b) <- test_operand lim OP_log_and st1 b1 l; Some (st, b, mklg true OP_log_and (if is_and (l_prev l) then l_pprev l else l_prev l) A R)).
    { destruct Hl as [[]|(l0 & [] & ->)]; (split; [reflexivity|]); try reflexivity.
      unfold next_logical, test_operand. cbn [l_prev l_has l_pprev l_and l_or op_eqb opcode_beq is_and orb shared].
      destruct (bb_connect b1 A ELSE st1) as [sa|]; reflexivity. }
    destruct Hn as [HA Hn]. change (get_operator_prio OP_log_and) with 5 in H. change (is_logical OP_log_and) with true in H. change (stops OP_log_and) with false in H.
    rewrite Hn in H. destruct (test_operand lim OP_log_and st1 b1 l) as [[st2 b2]|] eqn:E; [|discriminate].
    exists m, st2, b2. split; [lia|]. split; [|unfold G; exact H].
    unfold test_operand, shared in E. cbn [is_and op_eqb opcode_beq] in E. change (is_and OP_log_and) with true in E. cbn iota in E. rewrite HA in E. destruct (bb_connect b1 A ELSE st1) as [sa|] eqn:E1; [|discriminate].
    destruct (did_test OP_log_and a A [] [b] 0 st b st1 b1 sa st2 b2 W (in_one _ _ (wf_b _ _ W)) eq_refl D (fun f => f)) as (T & _); [intros ? []| |exact E|exact T].
    cbn. unfold more_blocks. cbn. destruct st1; exact E1.
  Qed.

  Definition OPA : token * text := (T_log_and, []).
  Definition OPO : token * text := (T_log_or, []).
  (** the operands of a chain of && but the last *)
  Lemma and_pre N A R l0 : opOK N -> outside A R l0 -> forall a n m rest st b res, rgram 5 a -> fine a = true -> settled a = true ->
    wf st b -> (n <= N)%nat -> (m <= S N)%nat -> G n m (rtokens a ++ OPA :: rest) st b [] l0 = Some res ->
    exists n' m' st1 b1, (n' <= N)%nat /\ (m' <= S N)%nat /\ tested false a A [] [b] st b st1 b1 /\ G n' m' rest st1 b1 [] (inside l0) = Some res.
  Proof.
    intros OK Out. destruct (outside_mild _ _ _ Out) as [Mi Mi'].
    assert (Fo : forall e rest, fine e = true -> follow e (OPA :: rest)).
    { intros e rest Fe. apply (follow_op LAnd). cbn [ExprSpec.fine]. rewrite Fe. reflexivity. }
    assert (Ins : (if is_and (l_prev l0) then l_pprev l0 else l_prev l0) = l_prev l0 /\ A = l_and l0 /\ R = l_or l0) by (destruct Out; auto).
    assert (One : forall a n m rest st b res, rgram 6 a -> fine a = true -> settled a = true ->
      wf st b -> (n <= N)%nat -> (m <= S N)%nat -> forall l, (l = l0 \/ l = inside l0) -> G n m (rtokens a ++ OPA :: rest) st b [] l = Some res ->
      exists n' m' st1 b1, (n' <= N)%nat /\ (m' <= S N)%nat /\ tested false a A [] [b] st b st1 b1 /\ G n' m' rest st1 b1 [] (inside l0) = Some res).
    { intros a n m rest st b res Ga Fa Sa W Ln Lm l Hl H.
      destruct (tree N OK a 6 n m (OPA :: rest) st b [] l res) as (m1 & st1 & b1 & L1 & D & H1); auto; try lia.
      { exact I. } { cbn. lia. } { destruct Hl as [->| ->]; auto. }
      cbn [fst snd OPA get_operator] in H1. change (eloop m1 OP_log_and rest st1 b1 [] l = Some res) in H1.
      destruct (and_step N A R l a m1 rest st b st1 b1 res W ltac:(lia) D H1) as (m2 & st2 & b2 & L2 & T & H2).
      { destruct Hl as [->| ->]; [left; exact Out|right; exists l0; auto]. }
      exists m2, m2, st2, b2. split; [lia|]. split; [lia|]. split; [exact T|].
      assert (mklg true OP_log_and (if is_and (l_prev l) then l_pprev l else l_prev l) A R = inside l0) as <-; [|exact H2].
      unfold inside. destruct Ins as (E1 & -> & ->). destruct Hl as [->| ->]; [rewrite E1; reflexivity|reflexivity]. }
    induction a as [lit|ch|x|x i _|u e _|o a1 IHa c IHc|c _ a _ d _|e _|f args]; intros n m rest st b res Ga Fa Sa W Ln Lm H;
      try (apply (One _ n m rest st b res (proj1 (rgram_up _) Ga eq_refl) Fa Sa W Ln Lm l0 (or_introl eq_refl) H)).
    destruct (is_land (RBin o a1 c)) eqn:Hl; [|apply (One _ n m rest st b res (proj1 (rgram_up _) Ga Hl) Fa Sa W Ln Lm l0 (or_introl eq_refl) H)].
    destruct o; try discriminate. destruct Ga as (_ & Ga & Gc). cbn [level] in Ga, Gc. destruct (fine_bin _ _ _ Fa) as (Fa1 & Fc & _). destruct (settled_bin _ _ _ Sa) as [Sa1 Sc].
    cbn [rtokens] in H. rewrite <- app_assoc in H. cbn [List.app op_token] in H.
    destruct (IHa n m (rtokens c ++ OPA :: rest) st b res) as (n1 & m1 & st1 & b1 & L1 & L1' & T1 & H1); auto.
    assert (W1 : wf st1 b1) by (eapply wf_frame; [exact W|apply T1]).
    destruct (One c n1 m1 rest st1 b1 res Gc Fc Sc W1 L1 L1' (inside l0) (or_intror eq_refl) H1) as (n2 & m2 & st2 & b2 & L2 & L2' & T2 & H2).
    exists n2, m2, st2, b2. split; [exact L2|]. split; [exact L2'|]. split; [|exact H2].
    eapply (tested_seq LAnd false a1 c A [] [] [b] []); eauto; try (intros q []; fail). apply in_one, W.
  Qed.

  (** a whole chain of &&, before anything that binds less *)
  Lemma and_full N A R l0 : opOK N -> outside A R l0 -> forall e n m rest st b res, rgram 5 e -> fine e = true -> settled e = true -> follow e rest ->
    prio (fst (get_operator rest)) <= 4 -> wf st b -> (n <= N)%nat -> (m <= S N)%nat -> G n m (rtokens e ++ rest) st b [] l0 = Some res ->
    (exists m' st1 b1, (m' <= S N)%nat /\ did e [b] st b st1 b1 /\ eloop m' (fst (get_operator rest)) (snd (get_operator rest)) st1 b1 [] l0 = Some res) \/
    exists a c m' st1 b1 st2 b2, e = RBin LAnd a c /\ (m' <= S N)%nat /\ tested false a A [] [b] st b st1 b1 /\ did c [b1] st1 b1 st2 b2 /\
      eloop m' (fst (get_operator rest)) (snd (get_operator rest)) st2 b2 [] (inside l0) = Some res.
  Proof.
    intros OK Out e n m rest st b res Ge Fe Se Fo Pr W Ln Lm H. destruct (outside_mild _ _ _ Out) as [Mi Mi'].
    destruct (is_land e) eqn:Hl.
    - destruct e as [| | | | |o a c| | |]; try discriminate. destruct o; try discriminate. destruct Ge as (_ & Ga & Gc). cbn [level] in Ga, Gc.
      destruct (fine_bin _ _ _ Fe) as (Fa1 & Fc & _). destruct (settled_bin _ _ _ Se) as [Sa1 Sc].
      cbn [rtokens] in H. rewrite <- app_assoc in H. cbn [List.app op_token] in H.
      destruct (and_pre N A R l0 OK Out a n m (rtokens c ++ rest) st b res) as (n1 & m1 & st1 & b1 & L1 & L1' & T1 & H1); auto.
      assert (W1 : wf st1 b1) by (eapply wf_frame; [exact W|apply T1]).
      destruct (tree N OK c 6 n1 m1 rest st1 b1 [] (inside l0) res) as (m2 & st2 & b2 & L2 & D & H2); auto; try lia. { exact I. }
      right. exists a, c, m2, st1, b1, st2, b2. split; [reflexivity|]. split; [lia|]. auto.
    - destruct (tree N OK e 6 n m rest st b [] l0 res) as (m1 & st1 & b1 & L1 & D & H1); auto; try lia. { apply rgram_up; auto. } { exact I. }
      left. exists m1, st1, b1. split; [lia|]. auto.
  Qed.
  Lemma outside_inside A R l0 : outside A R l0 ->
    mklg (negb (op_eqb (l_prev l0) OP_generic)) (l_prev l0) OP_generic A R = l0 /\ l_and l0 = A.
  Proof. intros []; split; reflexivity. Qed.
  (** ... at the end of the expression *)
  Lemma and_stop N A R l0 : opOK N -> outside A R l0 -> forall e n m rest st b res, rgram 5 e -> fine e = true -> settled e = true -> follow e rest ->
    stops (fst (get_operator rest)) = true -> wf st b -> (n <= N)%nat -> (m <= S N)%nat -> (A < p_blk st)%nat -> A <> b -> p_code st A = [] ->
    G n m (rtokens e ++ rest) st b [] l0 = Some res ->
    exists k st1 b1 st2 b2, (2 <= k)%nat /\ did e [A; b] st b st1 b1 /\ end_logical lim k st1 b1 l0 = Some (st2, b2) /\ res = (snd (get_operator rest), st2, b2).
  Proof.
    intros OK Out e n m rest st b res Ge Fe Se Fo Sp W Ln Lm LA NA CA H.
    destruct (and_full N A R l0 OK Out e n m rest st b res) as [(m1 & st1 & b1 & L1 & D & H1)|(a & c & m1 & st1 & b1 & st2 & b2 & -> & L1 & T & D & H1)]; auto.
    { unfold stops in Sp. unfold prio. destruct (fst (get_operator rest)); try discriminate Sp; cbn; lia. }
    - destruct m1 as [|m1]; [discriminate|]. rewrite expr_loop_S, Sp in H1. cbn [unwind] in H1.
      destruct (end_logical lim 3 st1 b1 l0) as [[st2 b2]|] eqn:E; [|discriminate]. apply some_inj in H1.
      exists 3%nat, st1, b1, st2, b2. split; [lia|]. split; [|split; [exact E|congruence]]. eapply did_widen; [|exact D]. intros q [<-|[]]; cbn; auto.
    - destruct m1 as [|m1]; [discriminate|]. rewrite expr_loop_S, Sp in H1. cbn [unwind] in H1. change (end_logical lim 3) with (end_logical lim (S 2)) in H1. cbn [end_logical] in H1.
      change (l_has (inside l0)) with true in H1. cbn iota in H1.
      change (l_prev (inside l0)) with OP_log_and in H1. unfold shared in H1. change (is_and OP_log_and) with true in H1. cbn iota in H1.
      destruct (outside_inside _ _ _ Out) as [Eo EA]. change (l_and (inside l0)) with (l_and l0) in H1. change (l_pprev (inside l0)) with (l_prev l0) in H1.
      rewrite EA in H1. destruct (finalize_logical lim OP_log_and st2 b2 A) as [[st3 b3]|] eqn:E; [|discriminate].
      assert (D3 : did (RBin LAnd a c) [A; b] st b st3 b3).
      { eapply (did_finalize OP_log_and LAnd a c A [] [b] []); eauto; try (intros q []; fail).
        - apply in_one, W.
        - intros [Q|[]]; congruence. }
      match type of H1 with (match ?t with Some _ => _ | None => None end) = _ => destruct t as [[st4 b4]|] eqn:E4; [|discriminate H1] end. apply some_inj in H1.
      exists 2%nat, st3, b3, st4, b4. split; [lia|]. split; [exact D3|]. split; [|congruence].
      assert (R = l_or l0) as -> by (destruct Out; reflexivity). rewrite <- Eo. exact E4.
  Qed.

  (** an operand of || *)
  Lemma or_one N A R l0 : opOK N -> outside A R l0 -> forall e n m rest st b res, rgram 5 e -> fine e = true -> settled e = true ->
    wf st b -> (n <= N)%nat -> (m <= S N)%nat -> (A < p_blk st)%nat -> A <> b -> p_code st A = [] ->
    G n m (rtokens e ++ OPO :: rest) st b [] l0 = Some res ->
    exists m' st1 b1 A', (m' <= N)%nat /\ tested true e R [A'] [A; b] st b st1 b1 /\ G m' m' rest st1 b1 [] (mklg true OP_log_or OP_generic A' R) = Some res /\
      (A' = A \/ (p_blk st <= A')%nat) /\ (A' < p_blk st1)%nat /\ A' <> b1 /\ p_code st1 A' = [].
  Proof.
    intros OK Out e n m rest st b res Ge Fe Se W Ln Lm LA NA CA H. pose proof (wf_b _ _ W) as Lb.
    assert (Fo : follow e (OPO :: rest)). { apply (follow_op LOr). cbn [ExprSpec.fine]. rewrite Fe. reflexivity. }
    destruct (and_full N A R l0 OK Out e n m (OPO :: rest) st b res) as [(m1 & st1 & b1 & L1 & D & H1)|(a & c & m1 & st1 & b1 & st2 & b2 & -> & L1 & T & D & H1)]; auto.
    { cbn. lia. }
    - change (eloop m1 OP_log_or rest st1 b1 [] l0 = Some res) in H1. destruct m1 as [|m1]; [discriminate|]. rewrite expr_loop_S in H1. cbn [reduce] in H1.
      change (stops OP_log_or) with false in H1. change (is_logical OP_log_or) with true in H1. cbn iota in H1.
      assert (Hn : next_logical lim OP_log_or st1 b1 l0 =
        do (st, b) <- (do st <- bb_connect b1 R THEN (more_blocks 0 st1); read_logical lim OP_log_or st b1); Some (st, b, mklg true OP_log_or OP_generic A R)).
      { destruct Out; destruct st1; reflexivity. }
      rewrite Hn in H1. destruct (bb_connect b1 R THEN (more_blocks 0 st1)) as [sa|] eqn:E1; [|discriminate].
      destruct (read_logical lim OP_log_or sa b1) as [[st2 b2]|] eqn:E2; [|discriminate].
      pose proof (proj1 D) as Fr. assert (Hb1 : b1 <> A). { pose proof (fr_cur _ _ _ _ _ Fr). lia. }
      destruct (did_test OP_log_or e R [A] [b] 0 st b st1 b1 sa st2 b2 W (in_one _ _ Lb) eq_refl D) as (T & En & Ek & Ec).
      { intros [Q|[]]; congruence. } { intros q [<-|[]]. right. split; [exact LA|]. intros [Q|[]]; congruence. } { exact E1. } { exact E2. }
      pose proof (fr_blk _ _ _ _ _ Fr) as Kb. cbn in En.
      exists m1, st2, b2, A. split; [lia|]. split; [eapply tested_widen; [|exact T]; intros q [<-|[]]; cbn; auto|]. split; [unfold G; exact H1|].
      split; [auto|]. split; [lia|]. split; [lia|]. rewrite Ec by auto. destruct (fr_same _ _ _ _ _ Fr A LA) as (Q & _); [intros [Q|[]]; congruence|]. rewrite Q. exact CA.
    - change (eloop m1 OP_log_or rest st2 b2 [] (inside l0) = Some res) in H1. destruct m1 as [|m1]; [discriminate|]. rewrite expr_loop_S in H1. cbn [reduce] in H1.
      change (stops OP_log_or) with false in H1. change (is_logical OP_log_or) with true in H1. cbn iota in H1.
      assert (Hn : next_logical lim OP_log_or st2 b2 (inside l0) =
        do (st, b) <- finalize_logical lim OP_log_and st2 b2 A;
        do sa <- bb_connect b R THEN (more_blocks 1 st); do (sb, b) <- read_logical lim OP_log_or sa b; Some (sb, b, mklg true OP_log_or OP_generic (p_blk st) R)).
      { destruct Out; reflexivity. }
      rewrite Hn in H1. destruct (finalize_logical lim OP_log_and st2 b2 A) as [[st3 b3]|] eqn:E; [|discriminate].
      assert (D3 : did (RBin LAnd a c) [A; b] st b st3 b3).
      { eapply (did_finalize OP_log_and LAnd a c A [] [b] []); eauto; try (intros q []; fail).
        - apply in_one, W.
        - intros [Q|[]]; congruence. }
      destruct (bb_connect b3 R THEN (more_blocks 1 st3)) as [sa|] eqn:E1; [|discriminate].
      destruct (read_logical lim OP_log_or sa b3) as [[st4 b4]|] eqn:E2; [|discriminate].
      pose proof (proj1 D3) as Fr. assert (W3 : wf st3 b3) by (eapply wf_frame; [exact W|exact Fr]). pose proof (wf_b _ _ W3) as Lb3.
      destruct (did_test OP_log_or (RBin LAnd a c) R [p_blk st3] [A; b] 1 st b st3 b3 sa st4 b4 W) as (T4 & En & Ek & Ec); auto.
      { intros q [<-|[<-|[]]]; auto. } { intros [Q|[]]; lia. } { intros q [<-|[]]. left. lia. }
      pose proof (fr_blk _ _ _ _ _ Fr) as Kb. cbn in En.
      exists m1, st4, b4, (p_blk st3). split; [lia|]. split; [exact T4|]. split; [unfold G; exact H1|].
      split; [right; lia|]. split; [lia|]. split; [lia|]. rewrite Ec by lia. apply (wf_empty _ _ W3). lia.
  Qed.
  (** the operands of a chain of || but the last *)
  Lemma or_pre N R : opOK N -> forall e n m rest A l0 st b res, outside A R l0 -> rgram 4 e -> fine e = true -> settled e = true ->
    wf st b -> (n <= N)%nat -> (m <= S N)%nat -> (A < p_blk st)%nat -> A <> b -> p_code st A = [] ->
    G n m (rtokens e ++ OPO :: rest) st b [] l0 = Some res ->
    exists m' st1 b1 A', (m' <= N)%nat /\ tested true e R [A'] [A; b] st b st1 b1 /\ G m' m' rest st1 b1 [] (mklg true OP_log_or OP_generic A' R) = Some res /\
      (A' = A \/ (p_blk st <= A')%nat) /\ (A' < p_blk st1)%nat /\ A' <> b1 /\ p_code st1 A' = [].
  Proof.
    intros OK.
    induction e as [lit|ch|x|x i _|u e _|o a IHa c _|c _ a _ d _|e _|f args]; intros n m rest A l0 st b res Out Ge Fe Se W Ln Lm LA NA CA H;
      try (apply (or_one N A R l0 OK Out _ n m rest st b res (proj2 (rgram_up _) Ge eq_refl) Fe Se W Ln Lm LA NA CA H)).
    destruct (is_lor (RBin o a c)) eqn:Hl; [|apply (or_one N A R l0 OK Out _ n m rest st b res (proj2 (rgram_up _) Ge Hl) Fe Se W Ln Lm LA NA CA H)].
    destruct o; try discriminate. destruct Ge as (_ & Ga & Gc). cbn [level] in Ga, Gc. destruct (fine_bin _ _ _ Fe) as (Fa1 & Fc & _). destruct (settled_bin _ _ _ Se) as [Sa1 Sc].
    cbn [rtokens] in H. rewrite <- app_assoc in H. cbn [List.app op_token] in H.
    destruct (IHa n m (rtokens c ++ OPO :: rest) A l0 st b res) as (m1 & st1 & b1 & A1 & L1 & T1 & H1 & HA1 & LA1 & NA1 & CA1); auto.
    assert (W1 : wf st1 b1) by (eapply wf_frame; [exact W|apply T1]). pose proof (wf_b _ _ W1) as Lb1.
    destruct (or_one N A1 R _ OK (out_or A1 R) c m1 m1 rest st1 b1 res) as (m2 & st2 & b2 & A2 & L2 & T2 & H2 & HA2 & LA2 & NA2 & CA2); auto; try lia.
    pose proof (fr_blk _ _ _ _ _ (proj1 T1)) as Kb.
    exists m2, st2, b2, A2. split; [exact L2|]. split; [|split; [exact H2|]; split; [lia|]; auto].
    eapply (tested_seq LOr true a c R [A1] [A2] [A; b] [A1]); eauto.
    - intros q [<-|[<-|[]]]; [exact LA|apply W].
    - eapply tested_widen; [|exact T2]. intros q [<-|[<-|[]]]; cbn; auto.
    - apply incl_refl.
    - intros [Q|[]]. lia.
    - intros q [<-|[]]. destruct HA1 as [->|]; [left; cbn; auto|right; lia].
    - intros q [<-|[]]. destruct HA2 as [->|]; [left; cbn; auto|right; lia].
  Qed.
  (** read_expr, on a whole expression *)
  Lemma read_expr_G n ts st b : rexp (S n) ts st b = G n (S n) ts (more_blocks 2 st) b [] (mklg false OP_generic OP_generic (p_blk st) (S (p_blk st))).
  Proof.
    rewrite read_expr_S. unfold bb_create. cbn [p_blk p_var p_code p_next p_then p_else p_pred p_init p_stack].
    change (mkp (p_var st) (S (S (p_blk st))) (p_code st) (p_next st) (p_then st) (p_else st) (p_pred st) (p_init st) (p_stack st)) with (more_blocks 2 st).
    unfold G. destruct (rop n ts (more_blocks 2 st) b) as [[[ts1 st1] b1]|]; [|reflexivity]. destruct (get_operator ts1) as [o ts2]. rewrite expr_loop_S.
    destruct (stops o) eqn:Sp; [reflexivity|]. cbn [reduce]. destruct (is_logical o) eqn:Lo.
    - assert (next_logical lim o st1 b1 (mklg false OP_generic OP_generic (p_blk st) (S (p_blk st))) =
        do (sa, c) <- test_operand lim o st1 b1 (mklg false OP_generic OP_generic (p_blk st) (S (p_blk st))); Some (sa, c, mklg true o OP_generic (p_blk st) (S (p_blk st)))) as -> by reflexivity.
      destruct (test_operand _ _ _ _ _) as [[sa c]|]; reflexivity.
    - cbn [leave_logical l_has andb]. destruct (rop n ts2 st1 b1) as [[[ts3 st3] b3]|]; reflexivity.
  Qed.
  Lemma did_blocks e st b st' b' : wf st b -> did e [S (p_blk st); p_blk st; b] (more_blocks 2 st) b st' b' -> did e [b] st b st' b'.
  Proof.
    intros W (Fr & Fl & v & S & R & Ev). pose proof (wf_b _ _ W) as Lb. destruct Fr as [v1 k1 i1 s1 p1 c1 l1 n1 e1 m1]. cbn in v1, k1, i1, s1, p1, c1, l1, e1, m1.
    assert (Fr : frame [b] st b st' b').
    { constructor; auto; try lia.
      - intros c Hc N. apply s1; [lia|]. intros [Q|[Q|[Q|[]]]]; try lia. apply N. left. exact Q.
      - left; reflexivity.
      - intros He. apply m1. intros c Hc. apply He. lia. }
    split; [exact Fr|]. split; [exact Fl|]. exists v. split; [exact S|]. split; [exact R|].
    intros O s x w' Hs Ag Ec. destruct (fun Q => Ev Q s x w' Hs Ag Ec) as (s' & Ll & Af & Gv); [|exists s'; auto].
    destruct O as [oi os op]. constructor; auto. intros c Hk Hc Hin. apply os; auto. cbn in Hin. destruct Hin as [[<-|[<-|[<-|[]]]]|]; [right|right|left; left|right]; auto; try lia.
  Qed.
  Lemma expression N : opOK N -> forall e n rest st b ts' st' b', rgram 4 e -> fine e = true -> settled e = true -> follow e rest ->
    stops (fst (get_operator rest)) = true -> wf st b -> (n <= S N)%nat -> rexp n (rtokens e ++ rest) st b = Some (ts', st', b') ->
    ts' = snd (get_operator rest) /\ did e [b] st b st' b'.
  Proof.
    intros OK e n rest st b ts' st' b' Ge Fe Se Fo Sp W Ln H. destruct n as [|n]; [discriminate|]. rewrite read_expr_G in H.
    set (A := p_blk st) in *. set (R := S A) in *. set (st0 := more_blocks 2 st) in *. pose proof (wf_b _ _ W) as Lb.
    assert (W0 : wf st0 b). { destruct W as [w1 w2 w3 w4]. constructor; cbn; auto; try lia. intros c Hc. apply w4. lia. }
    assert (CA : p_code st0 A = [] /\ p_code st0 R = []). { split; apply (wf_empty _ _ W); unfold R; lia. } destruct CA as [CA CR].
    assert (Lst : p_blk st0 = S (S A)) by reflexivity.
    destruct (is_lor e) eqn:Hl.
    - destruct e as [| | | | |o a c| | |]; try discriminate. destruct o; try discriminate. destruct Ge as (_ & Ga & Gc). cbn [level] in Ga, Gc.
      destruct (fine_bin _ _ _ Fe) as (Fa1 & Fc & _). destruct (settled_bin _ _ _ Se) as [Sa1 Sc].
      cbn [rtokens] in H. rewrite <- app_assoc in H. cbn [List.app op_token] in H.
      destruct (or_pre N R OK a n (S n) (rtokens c ++ rest) A _ st0 b _ (out_start A R) Ga Fa1 Sa1 W0 ltac:(lia) ltac:(lia) ltac:(lia) ltac:(unfold A; lia) CA H)
        as (m1 & st1 & b1 & A1 & L1 & T1 & H1 & HA1 & LA1 & NA1 & CA1).
      assert (W1 : wf st1 b1) by (eapply wf_frame; [exact W0|apply T1]). pose proof (wf_b _ _ W1) as Lb1.
      destruct (and_stop N A1 R _ OK (out_or A1 R) c m1 m1 rest st1 b1 _ Gc Fc Sc Fo Sp W1 ltac:(lia) ltac:(lia) LA1 NA1 CA1 H1)
        as (k & st2 & b2 & st3 & b3 & Lk & D2 & E & Eq). injection Eq as -> -> ->. split; [reflexivity|].
      destruct k as [|[|k]]; try lia. cbn [end_logical l_has l_prev l_pprev l_and l_or] in E. unfold shared in E. change (is_and OP_log_or) with false in E. cbn iota in E. cbn [l_or] in E.
      destruct (finalize_logical lim OP_log_or st2 b2 R) as [[st4 b4]|] eqn:E4; [|discriminate]. change (negb (op_eqb OP_generic OP_generic)) with false in E. cbn iota in E. apply some_inj in E. injection E as -> ->.
      apply did_blocks; [exact W|]. apply (did_finalize OP_log_or LOr a c R [A1] [A; b] [A1] st0 b st1 b1 st2 b2 st3 b3 W0); try exact T1; try exact E4; try exact CR; auto.
      + intros q [<-|[<-|[]]]; [rewrite Lst; unfold A; lia|apply W0].
      + eapply did_widen; [|exact D2]. intros q [<-|[<-|[]]]; cbn; auto.
      + intros [Q|[Q|[]]]; unfold R, A in *; lia.
      + intros [Q|[]]. unfold R in *. lia.
      + apply incl_refl.
      + intros [Q|[]]. lia.
      + intros q [<-|[]]. destruct HA1 as [->|]; [left; cbn; auto|right; lia].
    - destruct (and_stop N A R _ OK (out_start A R) e n (S n) rest st0 b _ (proj2 (rgram_up _) Ge Hl) Fe Se Fo Sp W0 ltac:(lia) ltac:(lia) ltac:(lia) ltac:(unfold A; lia) CA H)
        as (k & st2 & b2 & st3 & b3 & Lk & D2 & E & Eq). injection Eq as -> -> ->. split; [reflexivity|].
      destruct k as [|k]; [lia|]. cbn [end_logical l_has] in E. apply some_inj in E. injection E as -> ->.
      apply did_blocks; [exact W|]. eapply did_widen; [|exact D2]. intros q [<-|[<-|[]]]; cbn; auto.
  Qed.

  (** ** Whole expressions, arguments and operands. *)
  Definition ends (rest : toks) : Prop := get_operator rest = (OP_generic, rest).
  Lemma ends_question rest : ends rest -> lex_accept T_question rest = None.
  Proof. unfold ends. destruct rest as [|[t w] r]; [reflexivity|]. destruct t; cbn; intros H; try reflexivity; discriminate. Qed.
  Lemma rgram_cond e : match e with RCond _ _ _ => false | _ => true end = true -> rgram 3 e -> rgram 4 e.
  Proof.
    destruct e as [l|c|x|x i|u e|o a c|c a d|e|f args]; cbn [rgram]; intros N H; try exact H; try discriminate; destruct H as (H1 & H2); (split; [|exact H2]). destruct o; cbn; lia.
  Qed.
  Lemma flat_cond e : flat e = true -> match e with RCond _ _ _ => false | _ => true end = true.
  Proof. destruct e; cbn; congruence. Qed.
  Definition full (N : nat) : Prop := forall e n m rest st b ts1 st1 b1 ts2 st2 b2, (n <= S N)%nat -> (m <= S N)%nat -> rgram 3 e -> fine e = true -> settled e = true ->
    follow e rest -> ends rest -> wf st b -> rexp n (rtokens e ++ rest) st b = Some (ts1, st1, b1) -> rtern m ts1 st1 b1 = Some (ts2, st2, b2) ->
    ts2 = rest /\ did e [b] st b st2 b2.
  Lemma settled_cond c a d : settled (RCond c a d) = true -> settled c = true /\ settled a = true /\ settled d = true.
  Proof.
    unfold ExprSpec.settled; cbn [no_calls ExprSpec.no_globals]. intros H. apply orb_true_iff in H.
    destruct H as [H|H]; apply andb_true_iff in H; destruct H as [H ->]; apply andb_true_iff in H; destruct H as [-> ->]; rewrite ?orb_true_r; auto.
  Qed.
  Lemma full_ok N : opOK N -> full N.
  Proof.
    intros OK e n m rest st b ts1 st1 b1 ts2 st2 b2 Ln Lm Ge Fe Se Fo En W H1 H2.
    assert (Plain : rgram 4 e -> ts2 = rest /\ did e [b] st b st2 b2).
    { intros G4. destruct (expression N OK e n rest st b ts1 st1 b1) as [-> D]; auto. { rewrite En. reflexivity. }
      rewrite En in H2. cbn [snd] in H2. destruct m as [|m]; [discriminate|]. rewrite read_ternary_S, (ends_question _ En) in H2. apply some_inj in H2. injection H2 as <- <- <-. auto. }
    destruct e as [l|c|x|x i|u e|o a c|c a d|e|f args]; try (apply Plain, rgram_cond; [reflexivity|exact Ge]).
    clear Plain. destruct Ge as (_ & Gc & Ga & Gd). destruct (settled_cond _ _ _ Se) as (Sc & Sa & Sd). cbn [ExprSpec.fine] in Fe. rewrite !andb_true_iff in Fe. destruct Fe as ((((Fc & Fla) & Fld) & Fa) & Fd).
    cbn [rtokens] in H1. rewrite <- app_assoc in H1. cbn [List.app] in H1. rewrite <- app_assoc in H1. cbn [List.app] in H1.
    destruct (expression N OK c n ((T_question, @nil Z) :: rtokens a ++ (T_colon, @nil Z) :: rtokens d ++ rest) st b ts1 st1 b1 Gc Fc Sc) with (3 := W) (4 := Ln) (5 := H1) as [-> D]. { repeat split; reflexivity. } { reflexivity. }
    cbn [snd get_operator] in H2. destruct m as [|m]; [discriminate|]. rewrite read_ternary_S in H2.
    change (lex_accept T_question ((T_question, @nil Z) :: rtokens a ++ (T_colon, []) :: rtokens d ++ rest)) with (Some (rtokens a ++ (T_colon, @nil Z) :: rtokens d ++ rest)) in H2. cbn iota in H2.
    assert (W1 : wf st1 b1) by (eapply wf_frame; [exact W|apply D]).
    destruct st1 as [v1 k1 c1 n1 t1 e1 pr1 i1 s1].
    unfold bb_create in H2. do 3 step H2. cbn [p_blk p_var p_code p_next p_then p_else p_pred p_init p_stack] in H2. do 3 step H2.
    match type of H2 with match rexp m ?ts ?S0 ?t with _ => _ end = _ => set (S0' := S0) in H2; destruct (rexp m ts S0' t) as [[[ts3 S1] t']|] eqn:E1; [|discriminate] end.
    assert (W0 : wf S0' k1).
    { destruct W1 as [w1 w2 w3 w4]. unfold S0'. constructor; cbn in *; try lia. intros q Hq. specialize (w4 q ltac:(lia)). unfold empty in *. cbn in *. unfold upd.
      rewrite (proj2 (Nat.eqb_neq q b1)), (proj2 (Nat.eqb_neq q (S k1))), (proj2 (Nat.eqb_neq q k1)) by lia. exact w4. }
    destruct (expression N OK a m ((T_colon, @nil Z) :: rtokens d ++ rest) S0' k1 ts3 S1 t' (rgram_cond _ (flat_cond _ Fla) Ga) Fa Sa) with (3 := W0) (5 := E1) as [-> D1]. { repeat split; reflexivity. } { reflexivity. } { lia. }
    cbn [snd get_operator] in H2. assert (Wt : wf S1 t') by (eapply wf_frame; [exact W0|apply D1]).
    destruct S1 as [v2 k2 c2 n2 t2 e2 pr2 i2 s2]. step H2.
    change (lex_accept T_colon ((T_colon, @nil Z) :: rtokens d ++ rest)) with (Some (rtokens d ++ rest)) in H2. cbn iota in H2. do 4 step H2.
    match type of H2 with match rexp m ?ts ?S0 ?t with _ => _ end = _ => set (S2' := S0) in H2; destruct (rexp m ts S2' t) as [[[ts4 S3] e']|] eqn:E2; [|discriminate] end.
    pose proof (fr_blk _ _ _ _ _ (proj1 D1)) as Kb. unfold S0' in Kb. cbn [p_blk] in Kb.
    assert (W2 : wf S2' (S k1)).
    { destruct Wt as [w1 w2 w3 w4]. destruct W1 as [u1 u2 u3 u4]. unfold S2'. constructor; cbn in *; try lia. intros q Hq. specialize (w4 q ltac:(lia)). unfold empty in *. cbn in *. unfold upd.
      rewrite (proj2 (Nat.eqb_neq q t')), (proj2 (Nat.eqb_neq q b1)) by lia. exact w4. }
    destruct (expression N OK d m rest S2' (S k1) ts4 S3 e' (rgram_cond _ (flat_cond _ Fld) Gd) Fd Sd) with (3 := W2) (5 := E2) as [-> D3]. { exact Fo. } { rewrite En. reflexivity. } { lia. }
    destruct S3 as [v3 k3 c3 nx3 t3 e3 prx3 i3 s3]. do 4 step H2. apply some_inj in H2. injection H2 as <- <- <-. rewrite En. split; [reflexivity|].
    match goal with |- did _ _ _ _ ?S4 _ => apply (did_cond c a d b st (mkp v1 k1 c1 n1 t1 e1 pr1 i1 (n0 :: l)) b1 n0 l S0' (mkp v2 k2 c2 n2 t2 e2 pr2 i2 (n3 :: l0)) S2'
      (mkp v3 k3 c3 nx3 t3 e3 prx3 i3 (n4 :: l1)) S4 t' e' n3 l0 n4 l1 W Fla Fld D); try reflexivity; [exact D1|exact D3] end.
  Qed.

  Lemma rtokens_head e : exists t w r, rtokens e = (t, w) :: r /\ lex_accept T_close_bracket (rtokens e) = None.
  Proof.
    assert (K : forall e r, (exists t w r', rtokens e = (t, w) :: r' /\ lex_accept T_close_bracket (rtokens e) = None) ->
      exists t w r', rtokens e ++ r = (t, w) :: r' /\ lex_accept T_close_bracket (rtokens e ++ r) = None).
    { intros e0' r (t & w & r' & E & A). rewrite E in *. exists t, w, (r' ++ r). split; [reflexivity|]. cbn [List.app]. revert A. unfold lex_accept. destruct (token_eqb t T_close_bracket); [discriminate|reflexivity]. }
    induction e as [l|c|x|x i _|u e _|o a IHa c _|c IHc a _ d _|e _|f args]; cbn [rtokens]; try (do 3 eexists; split; reflexivity).
    - destruct u; do 3 eexists; split; reflexivity.
    - apply K, IHa.
    - apply K, IHc.
  Qed.
  Lemma args_ok N : full N -> forall es l n rest st b ts' st' b' l', (n <= S N)%nat -> (forall e, In e es -> rgram 3 e /\ fine e = true /\ no_globals e = true) -> wf st b ->
    rargs n l (comma_separated (map rtokens es) ++ (T_close_bracket, []) :: rest) st b = Some (ts', st', b', l') ->
    ts' = rest /\ exists vs, l' = l ++ vs /\ did_args es st b st' b' vs.
  Proof.
    intros OK. induction es as [|e es IH]; intros l n rest st b ts' st' b' l' Ln Hes W H; (destruct n as [|n]; [discriminate|]); rewrite read_args_S in H.
    - change (lex_accept T_close_bracket (comma_separated (map rtokens []) ++ (T_close_bracket, []) :: rest)) with (Some rest) in H. cbn iota in H. apply some_inj in H. injection H as <- <- <- <-.
      split; [reflexivity|]. exists []. rewrite app_nil_r. split; [reflexivity|apply did_args_nil].
    - destruct (Hes e (or_introl eq_refl)) as (Ge & Fe & Ne). cbn [map comma_separated] in H. rewrite <- app_assoc in H.
      match type of H with context [rtokens e ++ ?l] => set (more := l) in * end.
      assert (Ha : lex_accept T_close_bracket (rtokens e ++ more) = None).
      { destruct (rtokens_head e) as (t & w & r & E & A). rewrite E in *. revert A. cbn [List.app]. unfold lex_accept. destruct (token_eqb t T_close_bracket); [discriminate|reflexivity]. }
 rewrite Ha in H. destruct (rexp n _ st b) as [[[ts1 st1] b1]|] eqn:E1; [|discriminate]. destruct (rtern n ts1 st1 b1) as [[[ts2 st2] b2]|] eqn:E2; [|discriminate].
      assert (Hm : more = (T_close_bracket, []) :: rest /\ es = [] \/ exists r, more = (T_comma, []) :: r /\ r = comma_separated (map rtokens es) ++ (T_close_bracket, []) :: rest).
      { unfold more. destruct es as [|e' es']; [left; auto|right]. cbn [map comma_separated flat_map List.app]. rewrite <- !app_assoc. eexists. split; [reflexivity|]. reflexivity. }
      destruct (OK e n n more st b ts1 st1 b1 ts2 st2 b2) as [-> D]; auto; try lia.
      { unfold ExprSpec.settled. rewrite Ne. apply orb_true_r. }
      { destruct Hm as [[-> _]|(r & -> & _)]; repeat split; reflexivity. }
      { destruct Hm as [[-> _]|(r & -> & _)]; reflexivity. }
      destruct (opstack_pop st2) as [[v st3]|] eqn:E3; [|discriminate]. destruct (length l <? MAX_PARAMS)%nat; [|discriminate].
      assert (W3 : wf st3 b2).
      { assert (W2 : wf st2 b2) by (eapply wf_frame; [exact W|apply D]). unfold opstack_pop in E3. destruct (p_stack st2); [discriminate|]. apply some_inj in E3. injection E3 as <- <-. destruct W2. constructor; auto. }
      destruct (IH (l ++ [v]) n rest st3 b2 ts' st' b' l') as (-> & vs & -> & Da); auto; try lia.
      { intros q Hq. apply Hes. right. exact Hq. }
      { destruct Hm as [[Em ->]|(r & Em & Er)]; rewrite Em in H.
        - exact H.
        - rewrite Er in H. exact H. }
      split; [reflexivity|]. exists (v :: vs). rewrite <- app_assoc. split; [reflexivity|]. eapply did_args_cons; eauto.
  Qed.

  Lemma rop_neg n w x r st b : rop (S n) ((T_minus, w) :: (T_identifier, x) :: r) st b =
    do (ts, st, b) <- rop (S n) ((T_identifier, x) :: r) st b; do st <- unary_op lim OP_negate b st; Some (ts, st, b).
  Proof.
    rewrite !read_operand_S.
    change (lex_accept T_minus ((T_minus, w) :: (T_identifier, x) :: r)) with (Some ((T_identifier, x) :: r)). change (lex_accept T_minus ((T_identifier, x) :: r)) with (@None toks). cbn iota.
    change (peek T_numeric ((T_identifier, x) :: r)) with false. change (peek T_identifier ((T_identifier, x) :: r)) with true. cbn [andb negb]. cbn iota.
    destruct (special x); [reflexivity|].
    match goal with |- match ?t with Some _ => _ | None => None end = _ => destruct t as [[[ts1 st1] b1]|]; reflexivity end.
  Qed.
  Lemma rop_name n x r st b : special x = false -> rop (S n) ((T_identifier, x) :: r) st b =
    match find_constant x with
    | Some c => do st <- load_constant lim c b st; Some (r, st, b)
    | None => match find_var x with
              | Some v => do (ts, st, b) <- read_lvalue find_constant find_var find_func special lim n v r st b; if peek T_open_bracket ts then None else Some (ts, st, b)
              | None => match find_func x with
                        | Some f => if peek T_open_bracket r then read_call find_constant find_var find_func special lim n f r st b else None
                        | None => None
                        end
              end
    end.
  Proof.
    intros S. rewrite read_operand_S. change (lex_accept T_minus ((T_identifier, x) :: r)) with (@None toks). cbn iota. cbn [andb negb]. cbn iota. rewrite S.
    match goal with |- match ?t with Some _ => _ | None => None end = ?u => change u with t; destruct t as [[[ts1 st1] b1]|]; reflexivity end.
  Qed.
  Definition starts_name (e : rexpr) : bool := match e with RVar _ | RIdx _ _ | RCall _ _ => true | _ => false end.
  Lemma accept_false t ts : peek t ts = false -> lex_accept t ts = None.
  Proof. unfold peek, lex_peek, lex_accept. destruct ts as [|[t' w] r]; [reflexivity|]. destruct (token_eqb t' t); [discriminate|reflexivity]. Qed.
  Lemma names N : opOK N -> forall n e rest st b ts' st' b', starts_name e = true -> (n <= S N)%nat -> wf st b -> rgram 14 e -> fine e = true -> settled e = true -> follow e rest ->
    rop n (rtokens e ++ rest) st b = Some (ts', st', b') -> ts' = rest /\ did e [b] st b st' b'.
  Proof.
    intros OK n e rest st b ts' st' b' Sn Ln W Ge Fe Se (Fo1 & Fo2 & Fo3 & Fo4) H. destruct n as [|n]; [discriminate|].
    destruct e as [| |x|x i| | | | |f args]; try discriminate.
    - (* a name *) cbn [rtokens List.app] in H. cbn [ExprSpec.fine] in Fe. rewrite andb_true_iff, negb_true_iff in Fe. destruct Fe as [Sp Known]. rewrite rop_name in H by exact Sp.
      unfold is_constant, is_variable in Known. cbn [ExprSpec.ends_pointer] in Fo4. unfold is_constant, is_pointer in Fo4.
      destruct (find_constant x) as [c|] eqn:Ec.
      + destruct (load_constant lim c b st) as [st1|] eqn:E; [|discriminate]. apply some_inj in H. injection H as <- <- <-. split; [reflexivity|]. eapply did_const; [exact W| |exact E].
        intros w z w' Q. inversion Q as [| |? ? ? L| | | | | | | | | | |]; subst. unfold lookup in L. rewrite Ec in L. split; congruence.
      + destruct (find_var x) as [v|] eqn:Ev; [|discriminate]. destruct n as [|n]; [discriminate|]. rewrite read_lvalue_S in H.
        destruct (opstack_push (vi_id v) st) as [st1|] eqn:E; [|discriminate]. destruct n as [|n]; [discriminate|]. rewrite read_subscripts_S in H.
        rewrite Fo2, Fo3, (accept_false _ _ Fo1) in H. cbn [orb] in H.
        assert (Hp : peek T_plus rest && (negb (vi_ptr v =? 0) || negb (vi_array v =? 0)) = false).
        { cbn [negb andb] in Fo4. destruct (negb (vi_ptr v =? 0) || negb (vi_array v =? 0)); [rewrite Fo4 by reflexivity; reflexivity|apply andb_false_r]. }
        rewrite Hp in H. destruct (peek T_increment rest || peek T_decrement rest); [discriminate|]. destruct (peek T_open_bracket rest); [discriminate|].
        apply some_inj in H. injection H as <- <- <-. split; [reflexivity|]. eapply did_var; eauto.
    - (* a subscript *) cbn [rtokens List.app] in H. cbn [ExprSpec.fine] in Fe. rewrite !andb_true_iff, !negb_true_iff in Fe. destruct Fe as [[Sp Nc] Fi]. rewrite rop_name in H by exact Sp.
      unfold is_constant in Nc. destruct (find_constant x) as [c|] eqn:Ec; [discriminate|]. rewrite <- app_assoc in H. cbn [List.app] in H.
      destruct (find_var x) as [v|] eqn:Ev; [|destruct (find_func x); discriminate H]. destruct n as [|n]; [discriminate|]. rewrite read_lvalue_S in H.
      destruct (opstack_push (vi_id v) st) as [st0|] eqn:E0; [|discriminate]. destruct n as [|n]; [discriminate|]. rewrite read_subscripts_S in H.
      change (peek T_arrow ((T_open_square, @nil Z) :: rtokens i ++ (T_close_square, []) :: rest) || peek T_dot ((T_open_square, @nil Z) :: rtokens i ++ (T_close_square, []) :: rest)) with false in H. cbn iota in H.
      change (lex_accept T_open_square ((T_open_square, @nil Z) :: rtokens i ++ (T_close_square, []) :: rest)) with (Some (rtokens i ++ (T_close_square, @nil Z) :: rest)) in H. cbn iota in H.
      rewrite andb_false_r in H. cbn iota in H. destruct ((vi_ptr v =? 0) && (vi_array v =? 0)) eqn:Ep; [discriminate|].
      assert (Es : (if (vi_ptr v <=? 1) && (vi_array v =? 0) then vi_size v else get_size v) = element_size find_var x).
      { unfold element_size, get_size. rewrite Ev. pose proof (Hptr _ _ Ev). destruct (Z.eqb_spec (vi_ptr v) 0) as [E|E]; [rewrite E; cbn; destruct (vi_array v =? 0); reflexivity|].
        cbn [orb]. destruct (Z.leb_spec (vi_ptr v) 1), (Z.eqb_spec (vi_ptr v) 1); try lia; reflexivity. }
      rewrite Es in H. set (size := element_size find_var x) in *.
      destruct (rexp n _ st0 b) as [[[ts1 st1] b1]|] eqn:E1; [|discriminate].
      cbv zeta in H. match type of H with match match match ?t with Some _ => _ | None => None end with Some _ => _ | None => None end with Some _ => _ | None => None end = _ => change t with (scale b1 size st1) in H end.
      destruct (scale b1 size st1) as [st2|] eqn:E2; [|discriminate]. destruct (binary_op lim OP_add b1 st2) as [st3|] eqn:E3; [|discriminate].
      assert (W0 : wf st0 b). { unfold opstack_push in E0. destruct (_ <? _)%nat; [|discriminate]. apply some_inj in E0. subst st0. destruct W. constructor; auto. }
      assert (Si : settled i = true). { unfold ExprSpec.settled in *. cbn [no_calls ExprSpec.no_globals] in Se. apply orb_true_iff in Se. destruct Se as [->|Q]; [reflexivity|]. apply andb_true_iff in Q. destruct Q as [_ ->]. apply orb_true_r. }
      assert (Gi : rgram 4 i). { apply rgram_cond; [destruct i; try reflexivity; discriminate|exact Ge]. }
      assert (Fi' : fine i = true) by (destruct i; try exact Fi; discriminate).
      destruct (expression N OK i n ((T_close_square, @nil Z) :: rest) st0 b ts1 st1 b1 Gi Fi' Si) with (3 := W0) (5 := E1) as [-> D]. { repeat split; reflexivity. } { reflexivity. } { lia. }
      change (snd (get_operator ((T_close_square, @nil Z) :: rest))) with ((T_close_square, @nil Z) :: rest) in H.
      change (lex_expect T_close_square ((T_close_square, @nil Z) :: rest)) with (Some rest) in H. cbn iota in H. destruct n as [|n]; [discriminate|]. rewrite read_subscripts_S in H.
      rewrite Fo2, Fo3, (accept_false _ _ Fo1) in H. cbn [orb] in H. rewrite Fo4 in H by reflexivity. cbn [andb] in H.
      destruct (peek T_increment rest || peek T_decrement rest); [discriminate|].
      assert (Hr : exists st4, read_top b1 size st3 = Some st4 /\ (if peek T_open_bracket rest then None else Some (rest, st4, b1)) = Some (ts', st', b')).
      { revert H. unfold read_top. destruct (opstack_pop st3) as [[av s1]|]; [|intros Q; discriminate Q]. destruct (require_var lim s1) as [[tv s2]|]; [|intros Q; discriminate Q].
        destruct (opstack_push tv s2) as [s3|]; [|intros Q; discriminate Q]. intros Q. eexists. split; [reflexivity|exact Q]. }
      destruct Hr as (st4 & E4 & H4). destruct (peek T_open_bracket rest); [discriminate|]. apply some_inj in H4. injection H4 as <- <- <-. split; [reflexivity|].
      eapply did_idx; eauto.
    - (* a call *) cbn [rtokens List.app] in H. cbn [ExprSpec.fine] in Fe. rewrite !andb_true_iff, !negb_true_iff in Fe. destruct Fe as [[[Sp Nc] Nv] Fa]. rewrite rop_name in H by exact Sp.
      unfold is_constant in Nc. unfold is_variable in Nv. destruct (find_constant f) as [c|] eqn:Ec; [discriminate|]. destruct (find_var f) as [v|] eqn:Ev; [discriminate|].
      destruct (find_func f) as [k|] eqn:Ef; [|discriminate]. rewrite <- app_assoc in H. cbn [List.app] in H.
      match type of H with (if ?p then _ else _) = _ => change p with true in H end. cbn iota in H. destruct n as [|n]; [discriminate|]. rewrite read_call_S in H.
      change (lex_expect T_open_bracket ((T_open_bracket, @nil Z) :: comma_separated (map rtokens args) ++ (T_close_bracket, []) :: rest)) with (Some (comma_separated (map rtokens args) ++ (T_close_bracket, @nil Z) :: rest)) in H. cbn iota in H.
      destruct (rargs n [] _ st b) as [[[[ts1 st1] b1] l]|] eqn:E1; [|discriminate].
      destruct (args_ok N (full_ok N OK) args [] n rest st b ts1 st1 b1 l) with (3 := W) (4 := E1) as (-> & vs & El & Da).
      { lia. }
      { intros e He. unfold ExprSpec.settled in Se. cbn [no_calls ExprSpec.no_globals orb] in Se. rewrite forallb_forall in Fa, Se. split; [|auto].
        cbn [rgram] in Ge. clear -Ge He. induction args as [|a0 args IH]; [destruct He|]. cbn [fold_right] in Ge. destruct He as [<-|He]; [apply Ge|apply IH; [apply Ge|exact He]]. }
      cbn [List.app] in El. subst l. cbv zeta in H. destruct (require_var lim _) as [[v st2]|] eqn:E2; [|discriminate]. destruct (opstack_push v st2) as [st3|] eqn:E3; [|discriminate].
      apply some_inj in H. injection H as <- <- <-. split; [reflexivity|]. eapply did_call; eauto.
  Qed.
  Lemma wrap_opp_wrap x : wrap (- wrap x) = wrap (- x).
  Proof. pose proof (wrap_add_r 0 x) as Q. unfold wrap, s32, w32 in *. destruct (s32_mod x) as [k E]. unfold s32, w32 in E.
    rewrite E. replace (- (x + k * 4294967296)) with (- x + (- k) * 4294967296) by ring. rewrite Z_mod_plus_full. reflexivity. Qed.
  Theorem operands : forall N, opOK N.
  Proof.
    induction N as [|N IH]; intros n e rest st b ts' st' b' Ln W Ge Fe Se Fo H; (destruct n as [|n]; [discriminate|]); [lia|].
    destruct e as [l|c|x|x i|u e|o a c|c a d|e|f args]; try (eapply (names N IH (S n)); eauto; fail).
    - (* a literal *) cbn [rtokens List.app] in H. rewrite read_operand_S in H. change (lex_accept T_minus ((T_numeric, literal_text l) :: rest)) with (@None toks) in H. cbn [andb] in H. cbn iota in H.
      cbn [rgram] in Ge. rewrite (NumericProps.C31_expression l false Ge) in H. destruct (load_constant lim _ b st) as [st1|] eqn:E; [|discriminate]. apply some_inj in H. injection H as <- <- <-.
      split; [reflexivity|]. eapply did_const; [exact W| |exact E]. intros w z w' Q. inversion Q; subst. auto.
    - (* a character *) cbn [rtokens List.app] in H. rewrite read_operand_S in H. change (lex_accept T_minus ((T_char, [c]) :: rest)) with (@None toks) in H. cbn [andb] in H. cbn iota in H. cbn [hd] in H.
      destruct (load_constant lim c b st) as [st1|] eqn:E; [|discriminate]. apply some_inj in H. injection H as <- <- <-.
      split; [reflexivity|]. eapply did_const; [exact W| |exact E]. intros w z w' Q. inversion Q; subst. auto.
    - (* a unary operator *) destruct Ge as [_ Ge]. assert (Se' : settled e = true) by exact Se. assert (Fo' : follow e rest) by exact Fo. cbn [rtokens List.app] in H.
      destruct u; cbn [un_token] in H.
      + rewrite read_operand_S in H. discriminate H.
      + assert (Nm : starts_name e = true -> ts' = rest /\ did (RUn UNeg e) [b] st b st' b').
        { intros Sn. assert (Fe' : fine e = true) by (destruct e; try discriminate; exact Fe).
          assert (Hn : exists x r, rtokens e ++ rest = (T_identifier, x) :: r) by (destruct e; try discriminate; do 2 eexists; reflexivity). destruct Hn as (x & r & Er). rewrite Er in H.
          rewrite rop_neg in H. rewrite <- Er in H. destruct (rop (S n) (rtokens e ++ rest) st b) as [[[ts1 st1] b1]|] eqn:E1; [|discriminate].
          destruct (names N IH (S n) e rest st b ts1 st1 b1 Sn Ln W Ge Fe' Se' Fo' E1) as [-> D].
          destruct (unary_op lim OP_negate b1 st1) as [st2|] eqn:E2; [|discriminate]. apply some_inj in H. injection H as <- <- <-. split; [reflexivity|].
          eapply did_unary; [exact W| |apply (c_neg _ HM)|exact D|exact E2]. reflexivity. }
        destruct e as [l|c|x|x i|u e|o a c|c a d|e|f args]; try (apply Nm; reflexivity); try discriminate Fe.
        * cbn [rtokens List.app] in H. rewrite read_operand_S in H. change (lex_accept T_minus ((T_minus, @nil Z) :: (T_numeric, literal_text l) :: rest)) with (Some ((T_numeric, literal_text l) :: rest)) in H. cbn iota in H.
          match type of H with (if ?p then _ else _) = _ => change p with false in H end. cbn iota in H.
          cbn [rgram] in Ge. rewrite (NumericProps.C31_expression l true Ge) in H. destruct (load_constant lim _ b st) as [st1|] eqn:E; [|discriminate]. apply some_inj in H. injection H as <- <- <-.
          split; [reflexivity|]. eapply did_const; [exact W| |exact E]. intros w z w' Q. inversion Q as [| | | |? ? ? ? ? Q1| | | | | | | | |]; subst. inversion Q1; subst. split; [|reflexivity]. cbn [cun]. apply wrap_opp_wrap.
        * rewrite read_operand_S in H. discriminate H.
        * rewrite read_operand_S in H. destruct u; discriminate H.
        * cbn [rgram] in Ge. destruct o; cbn in Ge; lia.
        * cbn [rgram] in Ge. lia.
      + rewrite read_operand_S in H. change (lex_accept T_minus ((T_bit_not, @nil Z) :: rtokens e ++ rest)) with (@None toks) in H. cbn [andb] in H. cbn iota in H.
        destruct (rop n _ st b) as [[[ts1 st1] b1]|] eqn:E1; [|discriminate]. destruct (IH n e rest st b ts1 st1 b1) as [-> D]; auto; try lia.
        destruct (unary_op lim OP_bit_not b1 st1) as [st2|] eqn:E2; [|discriminate]. apply some_inj in H. injection H as <- <- <-. split; [reflexivity|].
        eapply did_unary; [exact W| |apply (c_compl _ HM)|exact D|exact E2]. reflexivity.
      + rewrite read_operand_S in H. change (lex_accept T_minus ((T_log_not, @nil Z) :: rtokens e ++ rest)) with (@None toks) in H. cbn [andb] in H. cbn iota in H.
        destruct (rop n _ st b) as [[[ts1 st1] b1]|] eqn:E1; [|discriminate]. destruct (IH n e rest st b ts1 st1 b1) as [-> D]; auto; try lia.
        destruct (unary_op lim OP_log_not b1 st1) as [st2|] eqn:E2; [|discriminate]. apply some_inj in H. injection H as <- <- <-. split; [reflexivity|].
        eapply did_unary; [exact W| |apply (c_not _ HM)|exact D|exact E2]. reflexivity.
    - cbn [rgram] in Ge. destruct o; cbn in Ge; lia.
    - cbn [rgram] in Ge. lia.
    - (* parentheses *) cbn [rtokens List.app] in H. rewrite <- app_assoc in H. cbn [List.app] in H. rewrite read_operand_S in H.
      change (lex_accept T_minus ((T_open_bracket, @nil Z) :: rtokens e ++ (T_close_bracket, []) :: rest)) with (@None toks) in H. cbn [andb] in H. cbn iota in H.
      destruct (rexp n _ st b) as [[[ts1 st1] b1]|] eqn:E1; [|discriminate]. destruct (rtern n ts1 st1 b1) as [[[ts2 st2] b2]|] eqn:E2; [|discriminate].
      destruct (full_ok N IH e n n ((T_close_bracket, @nil Z) :: rest) st b ts1 st1 b1 ts2 st2 b2) as [-> D]; auto; try lia. { repeat split; reflexivity. } { reflexivity. }
      change (lex_expect T_close_bracket ((T_close_bracket, @nil Z) :: rest)) with (Some rest) in H. cbn iota in H. apply some_inj in H. injection H as <- <- <-. split; [reflexivity|]. apply did_par. exact D.
  Qed.
End Setting.
