(** Expressions inside statements: what the reader makes of them computes what the specification says. *)
From Coq Require Import Permutation.
From Verif.Front Require Import GlobalInitProofs.
From Verif.Front Require Export StmtRun.
Open Scope Z_scope.

Lemma gram_cond e : no_cond e = true -> rgram 3 e -> rgram 4 e.
Proof.
  destruct e as [l|c|x|x i|u e|o a c|c a d|e|f args]; cbn [rgram no_cond]; intros N H; try exact H; try discriminate; destruct H as (H1 & H2); (split; [|exact H2]); destruct o; cbn; lia.
Qed.

Section Setting.
  Variable find_constant : text -> option Z.
  Variable find_global : text -> option vinfo.
  Variable find_func : text -> option Z.
  Variable special : text -> bool.
  Variable lim : nat.
  Context {world : Type}.
  Variable M : meaning Z world.
  Variable V : vars.
  Variable goff : nat -> Z.
  Variable place : nat -> Z.
  Variable exit : nat.
  Variable void : bool.
  Variable F : pst.
  Variable nv : nat.                               (* the variables from nv on are made while reading *)
  Hypothesis HM : c_like M.
  Hypothesis Hinit : forall v, (nv <= v)%nat -> v_init V v = p_init F v.
  Hypothesis Hglob : forall v, (nv <= v)%nat -> v_global V v = false.
  Hypothesis Hgl : forall x v, find_global x = Some v -> v_global V (vi_id v) = true /\ 0 <= vi_ptr v.
  Notation state := (@senv Z world).
  Notation get := (get M V goff).
  Notation leads := (leads M V goff place exit void F).
  Notation steps := (steps M V goff place).
  Notation look := (find_var find_global).

  Definition gtype (x : text) : option vtype := match find_global x with Some v => Some (vt v) | None => None end.
  Definition gget (x : text) (w : world) : Z := match find_global x with Some v => m_gget M w (goff (vi_id v)) | None => 0 end.
  Definition gput (x : text) (z : Z) (w : world) : world := match find_global x with Some v => m_gput M w (goff (vi_id v)) z | None => w end.
  Notation value := (value find_constant gtype gget).
  Notation size_of := (size_of gtype).
  Notation cexp := (cexp find_constant gtype gget (m_read M) (do_call find_func M)).
  Notation fine_expr := (fine_expr (is_constant find_constant) gtype special).

  Record wfs (st : pst) (b : nat) : Prop := mkwfs {
    ws_b : (b < p_blk st)%nat; ws_exit : (exit < p_blk st)%nat; ws_var : (nv <= p_var st)%nat; ws_empty : forall c, (p_blk st <= c)%nat -> empty st c }.
  Record sco (st : pst) (cs : list (list (text * vinfo))) : Prop := mksco {
    sc_ids : forall p, In p (concat cs) -> v_global V (vi_id (snd p)) = false /\ (vi_id (snd p) < p_var st)%nat /\ 0 <= vi_ptr (snd p) /\ find_constant (fst p) = None;
    sc_nd : NoDup (ids cs) }.
  Lemma sco_mono st st' cs : sco st cs -> (p_var st <= p_var st')%nat -> sco st' cs.
  Proof. intros [A B] H. constructor; [|exact B]. intros p Hp. destruct (A p Hp) as (? & ? & ? & ?). repeat split; auto. lia. Qed.
  Lemma wfs_chg X st b st' b' : wfs st b -> chg X st st' -> (b' < p_blk st')%nat -> wfs st' b'.
  Proof. intros [A B C D] H L. constructor; auto; destruct H; try lia. auto. Qed.
  Lemma wfs_wf st b : wfs st b -> wf exit (p_var st) st b.
  Proof. intros [A B C D]. constructor; auto. Qed.

  Lemma look_var ce st x v : sco st (c_scopes ce) -> look ce x = Some v -> 0 <= vi_ptr v /\ (v_global V (vi_id v) = false -> (vi_id v < p_var st)%nat).
  Proof.
    intros [A _]. unfold find_var. destruct (find_scopes x (c_scopes ce)) as [v'|] eqn:E.
    - intros Q. injection Q as ->. apply find_scopes_In in E. destruct (A _ E) as (? & ? & ? & ?); cbn [snd] in *; auto.
    - intros Q. destruct (Hgl _ _ Q) as [G P]. split; [exact P|]. rewrite G. discriminate.
  Qed.
  Lemma type_look ce x : type_of gtype (ctypes (c_scopes ce)) x = match look ce x with Some v => Some (vt v) | None => None end.
  Proof. unfold type_of, find_var, gtype. rewrite find_ctypes. destruct (find_scopes x (c_scopes ce)); reflexivity. Qed.
  Lemma value_look ce st E s : sco st (c_scopes ce) -> rel (c_scopes ce) E s -> forall x w, value E x w = lookup find_constant (look ce) V M goff s x w.
  Proof.
    intros [A _] R x w. unfold StmtSpec.value, lookup. rewrite (rel_find _ _ _ R). unfold find_var, gtype, gget.
    destruct (find_scopes x (c_scopes ce)) as [v|] eqn:Q.
    - apply find_scopes_In in Q. destruct (A _ Q) as (G0 & _ & _ & C0); cbn [fst snd] in G0, C0; rewrite G0, C0; reflexivity.
    - destruct (find_constant x); [reflexivity|]. destruct (find_global x) as [v|] eqn:G; [|reflexivity]. destruct (Hgl _ _ G) as [-> _]. reflexivity.
  Qed.
  Lemma size_look ce E s : rel (c_scopes ce) E s -> forall x, size_of E x = element_size (look ce) x.
  Proof. intros R x. unfold StmtSpec.size_of, element_size. rewrite (rel_types _ _ _ R), type_look. destruct (look ce x); reflexivity. Qed.
  Lemma fine_look ce st e : sco st (c_scopes ce) -> fine_expr (ctypes (c_scopes ce)) e = true ->
    fine (is_constant find_constant) (is_pointer (look ce)) (is_variable (look ce)) special e = true /\ settled (is_constant find_constant) (is_global (look ce) V) e = true.
  Proof.
    intros [A _] H. unfold StmtSpec.fine_expr in H. apply andb_true_iff in H. destruct H as [H1 H2]. split.
    - rewrite <- H1. apply fine_ext; intros x; unfold is_pointer, is_variable, pointer, variable; rewrite type_look; destruct (look ce x); reflexivity.
    - unfold settled in *. rewrite <- H2. f_equal. apply settled_ext. intros x. unfold is_global, global, find_var, gtype. rewrite find_ctypes.
      destruct (find_scopes x (c_scopes ce)) as [v|] eqn:Q.
      + apply find_scopes_In in Q. destruct (A _ Q) as (G0 & _); cbn [snd] in G0; rewrite G0; reflexivity.
      + destruct (find_global x) as [v|] eqn:G; [|reflexivity]. destruct (Hgl _ _ G) as [-> _]. reflexivity.
  Qed.
  Lemma global_look ce st x : sco st (c_scopes ce) -> global gtype (ctypes (c_scopes ce)) x = is_global (look ce) V x.
  Proof.
    intros [A _]. unfold is_global, global, find_var, gtype. rewrite find_ctypes. destruct (find_scopes x (c_scopes ce)) as [v|] eqn:Q.
    - apply find_scopes_In in Q. destruct (A _ Q) as (G0 & _); cbn [snd] in G0; rewrite G0; reflexivity.
    - destruct (find_global x) as [v|] eqn:G; [|reflexivity]. destruct (Hgl _ _ G) as [-> _]. reflexivity.
  Qed.

  Lemma owns_chg O X st b st' b' : chg O st' F -> closed O st b st' (Some b') -> frame X st b st' b' -> X = [b] -> (b < p_blk st)%nat -> owns F [] X st st' b'.
  Proof.
    intros C Cl Fr -> L. pose proof (fr_blk _ _ _ _ _ Fr) as K. pose proof (fr_lt _ _ _ _ _ Fr L) as Lb. destruct C as [a1 a2 a3 a4 a5 a6 a7]. constructor.
    - intros v Hv. apply a3. lia.
    - intros c _ Hc Hin. apply a4.
      + destruct Hin as [[<-|[]]|Hin]; lia.
      + intros HO. destruct (Cl c HO) as [Q|[Q1 Q2]]; [destruct Hin as [[<-|[]]|Hin]; lia|congruence|]. destruct Hin as [[<-|[]]|Hin]; [congruence|lia].
    - destruct (a5 b' Lb) as [l E]. exists l. exact E.
  Qed.

  (** reading from (st, b) to (st', b') evaluates x and leaves a variable with its value on the operand stack *)
  Definition evals (ce : cenv) (x : rexpr) (st : pst) (b : nat) (st' : pst) (b' : nat) : Prop :=
    frame [b] st b st' b' /\ (flat x = true -> b' = b) /\ pl st st' /\ (b' = b \/ (0 < p_pred st' b')%nat) /\
    exists v, p_stack st' = v :: p_stack st /\ good V st' v /\
    forall O E s y w', chg O st' F -> closed O st b st' (Some b') -> s_args s = [] -> rel (c_scopes ce) E (s_env s) -> cexp E x (s_world s) y w' ->
      exists s', leads b (len st b) s b' (len st' b') s' /\ after st s s' w' /\ get s' v = Some y.
  Definition stopper (t : token) : bool := match t with T_semicolon | T_close_bracket | T_close_square | T_comma => true | _ => false end.
  Lemma stopper_follow ce e t w r : stopper t = true -> follow find_constant (look ce) e ((t, w) :: r) /\ ends ((t, w) :: r).
  Proof. destruct t; try discriminate; intros _; repeat split; reflexivity. Qed.

  Lemma did_evals ce x st b st' b' : wfs st b -> sco st (c_scopes ce) -> pl st st' -> (b' = b \/ (0 < p_pred st' b')%nat) ->
    (forall e0, did find_constant (look ce) find_func M V goff place exit void F (p_var st) e0 x [b] st b st' b') -> evals ce x st b st' b'.
  Proof.
    intros W Sc P C D. destruct (D (fun _ => None)) as (Fr & Fl & v & S & [G _] & _).
    split; [exact Fr|]. split; [exact Fl|]. split; [exact P|]. split; [exact C|]. exists v. split; [exact S|]. split; [exact G|].
    intros O E s y w' HO Cl Ha R Ev. destruct (D (s_env s)) as (_ & _ & v' & S' & _ & Run). rewrite S in S'. injection S' as <-.
    apply Run; [eapply owns_chg; eauto; apply (ws_b _ _ W)|exact Ha|intros u _; reflexivity|].
    eapply ceval_ext; [| |exact Ev]; [apply (value_look ce st); assumption|eapply size_look; eassumption].
  Qed.
  Lemma opOK_all ce st e0 N : wfs st 0%nat \/ True -> (nv <= p_var st)%nat -> sco st (c_scopes ce) -> opOK find_constant (look ce) find_func lim M V goff place exit void F (p_var st) e0 special N.
  Proof.
    intros _ L Sc. apply operands; auto.
    - intros v Hv. apply Hinit. lia.
    - intros v Hv. apply Hglob. lia.
    - intros x v Q. apply (look_var ce st x v Sc Q).
    - intros x v Q. apply (look_var ce st x v Sc Q).
  Qed.
  Lemma ev_expr ce n x t w r st b ts' st' b' : wfs st b -> sco st (c_scopes ce) -> rgram 3 x -> no_cond x = true -> fine_expr (ctypes (c_scopes ce)) x = true -> stopper t = true ->
    read_expr find_constant (look ce) find_func special lim n (rtokens x ++ (t, w) :: r) st b = Some (ts', st', b') -> ts' = (t, w) :: r /\ evals ce x st b st' b'.
  Proof.
    intros W Sc G N Fi St H. destruct (fine_look ce st x Sc Fi) as [F1 F2]. destruct (stopper_follow ce x t w r St) as [Fo En].
    destruct (all_moves find_constant (look ce) find_func special lim n) as (_ & _ & _ & _ & _ & _ & Mv & _). destruct (Mv _ _ _ _ _ _ H) as [P C].
    assert (D : forall e0, ts' = (t, w) :: r /\ did find_constant (look ce) find_func M V goff place exit void F (p_var st) e0 x [b] st b st' b').
    { intros e0. destruct (expression find_constant (look ce) find_func lim M V goff place exit void F (p_var st) e0) with (special := special) (N := n) (e := x) (n := n) (rest := (t, w) :: r) (st := st) (b := b) (ts' := ts') (st' := st') (b' := b') as [Q D]; auto.
      - intros v Hv. apply Hinit. pose proof (ws_var _ _ W). lia.
      - intros v Hv. apply Hglob. pose proof (ws_var _ _ W). lia.
      - apply opOK_all; auto. apply (ws_var _ _ W).
      - apply gram_cond; assumption.
      - rewrite En. reflexivity.
      - apply wfs_wf. exact W.
      - rewrite En in Q. auto. }
    split; [apply (D (fun _ => None))|]. apply did_evals; auto. intros e0. apply D.
  Qed.
  Lemma ev_full ce n x t w r st b ts1 st1 b1 ts' st' b' : wfs st b -> sco st (c_scopes ce) -> rgram 3 x -> fine_expr (ctypes (c_scopes ce)) x = true -> stopper t = true ->
    read_expr find_constant (look ce) find_func special lim n (rtokens x ++ (t, w) :: r) st b = Some (ts1, st1, b1) ->
    read_ternary find_constant (look ce) find_func special lim n ts1 st1 b1 = Some (ts', st', b') -> ts' = (t, w) :: r /\ evals ce x st b st' b'.
  Proof.
    intros W Sc G Fi St H H2. destruct (fine_look ce st x Sc Fi) as [F1 F2]. destruct (stopper_follow ce x t w r St) as [Fo En].
    destruct (all_moves find_constant (look ce) find_func special lim n) as (_ & _ & _ & _ & _ & _ & Mv & _ & Mt). pose proof (mv_mv _ _ _ _ _ _ (Mv _ _ _ _ _ _ H) (Mt _ _ _ _ _ _ H2)) as [P C].
    assert (D : forall e0, ts' = (t, w) :: r /\ did find_constant (look ce) find_func M V goff place exit void F (p_var st) e0 x [b] st b st' b').
    { intros e0. apply (full_ok find_constant (look ce) find_func lim M V goff place exit void F (p_var st) e0) with (special := special) (N := n) (n := n) (m := n) (ts1 := ts1) (st1 := st1) (b1 := b1); auto.
      - intros v Hv. apply Hinit. pose proof (ws_var _ _ W). lia.
      - intros v Hv. apply Hglob. pose proof (ws_var _ _ W). lia.
      - apply opOK_all; auto. apply (ws_var _ _ W).
      - apply wfs_wf. exact W. }
    split; [apply (D (fun _ => None))|]. apply did_evals; auto. intros e0. apply D.
  Qed.

  (** ** Instructions added to the current block. *)
  Lemma adds_go O st b l st' s s' : (b < p_blk st)%nat -> adds st b l st' -> chg O st' F -> steps l s s' -> leads b (len st b) s b (len st' b) s'.
  Proof.
    intros L A C S. destruct (ch_pre _ _ _ C b) as [l' E]; [rewrite (ad_blk _ _ _ _ A); exact L|]. unfold len. rewrite (adds_len _ _ _ _ A) in *. eapply leads_steps; eauto.
  Qed.
  Lemma put_go st (s : state) v x : (p_var st <= v)%nat -> after st s (put s v x) (s_world s).
  Proof. intros H. repeat split. intros u Hu. cbn. unfold Cfg.upd, upd. destruct (Nat.eqb_spec u v); [lia|reflexivity]. Qed.
  Lemma after_go st st1 (s s1 : state) w1 s2 w2 : (p_var st <= p_var st1)%nat -> after st s s1 w1 -> after st1 s1 s2 w2 -> after st s s2 w2.
  Proof. intros L (A & B & C) (A' & B' & C'). repeat split; auto. intros u Hu. rewrite C' by lia. auto. Qed.
  Lemma good_up st st' v : (p_var st <= p_var st')%nat -> good V st v -> good V st' v.
  Proof. intros L [H|H]; [left; exact H|right; lia]. Qed.
  Lemma rel_after cs E st (s s' : state) w : sco st cs -> rel cs E (s_env s) -> after st s s' w -> rel cs E (s_env s').
  Proof.
    intros [A _] R (_ & _ & H). eapply rel_ext; [exact R|]. intros u Hu. unfold ids in Hu. apply in_map_iff in Hu. destruct Hu as (p & <- & Hp). apply H. apply (A p Hp).
  Qed.
  Lemma const_step O st b c st' s : (nv <= p_var st)%nat -> load_constant lim c b st = Some st' -> chg O st' F -> s_args s = [] ->
    steps [mkr (mkinsn OP_load_constant (Some (p_var st)) None None) 0 0] s (put s (p_var st) c).
  Proof.
    intros L H C Ha. destruct (load_constant_adds _ _ _ _ _ H) as (A & _ & N & I). econstructor; [|constructor].
    replace c with (v_init V (p_var st)).
    - apply (step_const M V goff place nv); auto.
    - rewrite Hinit by exact L. rewrite (ch_init _ _ _ C) by lia. exact I.
  Qed.
  Lemma scale_go size b st st' v l : wfs st b -> scale lim b size st = Some st' -> p_stack st = v :: l -> good V st v -> exists is v',
    adds st b is st' /\ p_stack st' = v' :: l /\ good V st' v' /\
    forall O s k, chg O st' F -> s_args s = [] -> get s v = Some k ->
      exists s' z, steps is s s' /\ after st s s' (s_world s) /\ get s' v' = Some z /\ forall a, wrap (a + z) = wrap (a + k * size).
  Proof.
    intros W E S G. destruct (scale_adds lim M V goff place exit F (p_var st) (fun _ => None)) with (size := size) (b := b) (st := st) (st' := st') (v := v) (l := l) as (is & v' & A & S' & G' & R); auto.
    - intros u Hu. apply Hinit. pose proof (ws_var _ _ W). lia.
    - intros u Hu. apply Hglob. pose proof (ws_var _ _ W). lia.
    - apply wfs_wf. exact W.
    - exists is, v'. repeat (split; [assumption|]). intros O s k C Ha Hk. apply (R [] [] s k); auto. constructor.
      + intros u Hu. apply (ch_init _ _ _ C). lia.
      + intros c _ _ [[]|Hc]. rewrite (ad_blk _ _ _ _ A) in Hc. lia.
      + apply (ch_pre _ _ _ C). rewrite (ad_blk _ _ _ _ A). apply (ws_b _ _ W).
  Qed.
  Lemma pl_scale size b st st' : scale lim b size st = Some st' -> pl st st'.
  Proof.
    unfold scale. destruct (size =? 1); [intros H; apply some_inj in H; subst; apply pl_refl|]. destruct (load_constant lim size b st) as [s|] eqn:E; [|discriminate].
    intros H. eapply pl_trans; [eapply pl_const; eauto|eapply pl_binary; eauto].
  Qed.
  Lemma binary_step o d x y (s : state) a c r : binary o = true -> s_args s = [] -> get s x = Some a -> get s y = Some c -> m_alu2 M o a c = Some r -> (nv <= d)%nat ->
    steps [mkr (mkinsn o (Some d) (Some x) (Some y)) 0 0] s (put s d r).
  Proof. intros B A G1 G2 R L. econstructor; [|constructor]. eapply s_binary; eauto. apply (set_temp M V goff nv); auto. Qed.

  (** ** The left side x[i]: its address. *)
  Definition ltail (l : lval) : list (token * text) := match l with LVar _ => [] | LIdx _ i => tok T_open_square :: rtokens i ++ [tok T_close_square] end.
  Definition lname (l : lval) : text := match l with LVar x => x | LIdx x _ => x end.
  Definition plain_next (ts : toks) : Prop := peek T_open_square ts = false /\ peek T_dot ts = false /\ peek T_arrow ts = false.
  Notation rsubs ce := (read_subscripts find_constant (look ce) find_func special lim).
  Lemma subs_var ce n v sz m ts st b : plain_next ts -> rsubs ce (S n) v sz m ts st b = Some (ts, st, b, sz, m).
  Proof. intros (A & B & C). rewrite read_subscripts_S, B, C, (accept_false _ _ A). reflexivity. Qed.
  Lemma subs_idx ce n x v i rest st st0 b ts' st' b' size ref : wfs st b -> sco st (c_scopes ce) -> find_constant x = None -> look ce x = Some v -> rgram 3 i -> no_cond i = true ->
    fine_expr (ctypes (c_scopes ce)) (RIdx x i) = true -> plain_next rest -> opstack_push (vi_id v) st = Some st0 ->
    rsubs ce n v (get_size v) false (ltail (LIdx x i) ++ rest) st0 b = Some (ts', st', b', size, ref) ->
    ts' = rest /\ ref = true /\ size = element_size (look ce) x /\ frame [b] st b st' b' /\ (flat i = true -> b' = b) /\ pl st st' /\ (b' = b \/ (0 < p_pred st' b')%nat) /\
    exists a, p_stack st' = a :: p_stack st /\ (nv <= a < p_var st')%nat /\
    forall O E s ad k w', chg O st' F -> closed O st b st' (Some b') -> s_args s = [] -> rel (c_scopes ce) E (s_env s) -> value E x (s_world s) = Some ad -> cexp E i (s_world s) k w' ->
      exists s', leads b (len st b) s b' (len st' b') s' /\ after st s s' w' /\ get s' a = Some (addr gtype E x ad k).
  Proof.
    intros W Sc Hc Hv Gi Ni Fi Pn Hp H. destruct n as [|n]; [discriminate|]. rewrite read_subscripts_S in H. cbn [ltail List.app] in H. unfold tok in H. rewrite <- app_assoc in H. cbn [List.app] in H.
    change (peek T_arrow ((T_open_square, @nil Z) :: rtokens i ++ (T_close_square, []) :: rest) || peek T_dot ((T_open_square, @nil Z) :: rtokens i ++ (T_close_square, []) :: rest)) with false in H. cbn iota in H.
    change (lex_accept T_open_square ((T_open_square, @nil Z) :: rtokens i ++ (T_close_square, []) :: rest)) with (Some (rtokens i ++ (T_close_square, @nil Z) :: rest)) in H. cbn iota in H.
    rewrite andb_false_r in H. cbn iota in H. destruct ((vi_ptr v =? 0) && (vi_array v =? 0)) eqn:Ep; [discriminate|].
    assert (Es : (if (vi_ptr v <=? 1) && (vi_array v =? 0) then vi_size v else get_size v) = element_size (look ce) x).
    { unfold element_size, get_size. rewrite Hv. destruct (look_var ce st x v Sc Hv) as [Hptr _]. destruct (Z.eqb_spec (vi_ptr v) 0) as [E|E]; [rewrite E; cbn; destruct (vi_array v =? 0); reflexivity|].
      cbn [orb]. destruct (Z.leb_spec (vi_ptr v) 1), (Z.eqb_spec (vi_ptr v) 1); try lia; reflexivity. }
    rewrite Es in H. set (sz := element_size (look ce) x) in *. clear Es Ep.
    destruct (read_expr _ _ _ _ _ n _ st0 b) as [[[ts1 st1] b1]|] eqn:E1; [|discriminate]. cbv zeta in H.
    match type of H with match ?t with Some _ => _ | None => None end = _ => change t with (scale lim b1 sz st1) in H end.
    destruct (scale lim b1 sz st1) as [st2|] eqn:E2; [|discriminate]. destruct (binary_op lim OP_add b1 st2) as [st3|] eqn:E3; [|discriminate].
    destruct (chg_push (eq b) _ _ _ Hp) as (C0 & S0 & K0 & V0 & D0).
    assert (W0 : wfs st0 b) by (eapply wfs_chg; [exact W|exact C0|rewrite K0; apply (ws_b _ _ W)]). assert (Sc0 : sco st0 (c_scopes ce)) by (eapply sco_mono; [exact Sc|lia]).
    destruct (fine_look ce st _ Sc Fi) as [Ff Fs]. cbn [fine] in Ff.
    assert (Fi' : fine_expr (ctypes (c_scopes ce)) i = true).
    { unfold StmtSpec.fine_expr in *. cbn [fine] in Fi. rewrite !andb_true_iff in Fi. destruct Fi as [[_ Q] Q2]. apply andb_true_iff. split; [destruct i; try exact Q; discriminate|].
      unfold settled in *. cbn [no_calls no_globals] in Q2. apply orb_true_iff in Q2. destruct Q2 as [->|Q2]; [reflexivity|]. apply andb_true_iff in Q2. destruct Q2 as [_ ->]. apply orb_true_r. }
    destruct (ev_expr ce n i T_close_square [] rest st0 b ts1 st1 b1 W0 Sc0 Gi Ni Fi' eq_refl E1) as (-> & Fr & Fl & P1 & C1 & vi & S1 & G1 & Ev).
    change (lex_expect T_close_square ((T_close_square, @nil Z) :: rest)) with (Some rest) in H. cbn iota in H. destruct n as [|n]; [discriminate|]. rewrite subs_var in H by exact Pn.
    apply some_inj in H. injection H as <- <- <- <- <-. split; [reflexivity|]. split; [reflexivity|]. split; [reflexivity|].
    assert (A0 : adds st b [] st0). { unfold opstack_push in Hp. destruct (_ <? _)%nat; [|discriminate]. apply some_inj in Hp. subst st0. apply adds_nil; reflexivity. }
    assert (Fr01 : frame [b] st b st1 b1).
    { apply (frame_trans _ _ _ _ _ _ _ _ (ws_b _ _ W) (adds_frame _ _ _ _ (ws_b _ _ W) A0) Fr). intros d [<-|[]]. left; left; reflexivity. }
    assert (W1 : wfs st1 b1) by (eapply wfs_chg; [exact W0|eapply chg_frame; [exact Fr|exact P1]|apply (fr_lt _ _ _ _ _ Fr); apply (ws_b _ _ W0)]).
    destruct (scale_go _ _ _ _ _ _ W1 E2 S1 G1) as (is & v' & A2 & S2 & G2 & Run2).
    destruct (binary_op_adds _ _ _ _ _ E3) as (y' & x' & l' & Q & A3 & S3 & N3). rewrite S2, S0 in Q. injection Q as <- <- <-.
    pose proof (adds_trans _ _ _ _ _ _ A2 A3) as A. pose proof (adds_frame _ _ _ _ (ws_b _ _ W1) A) as Fr3. pose proof (ad_var _ _ _ _ A2) as L2. pose proof (fr_var _ _ _ _ _ Fr) as LV.
    pose proof (pl_scale _ _ _ _ E2) as P2. pose proof (pl_binary _ _ _ _ _ E3) as P3.
    split. { apply (frame_trans _ _ _ _ _ _ _ _ (ws_b _ _ W) Fr01 Fr3). intros d [<-|[]]. destruct (fr_cur _ _ _ _ _ Fr01) as [->|]; [left; left; reflexivity|right; assumption]. }
    split; [exact Fl|]. split. { eapply pl_trans; [apply (ch_pred _ _ _ C0)|]. eapply pl_trans; [exact P1|]. eapply pl_trans; [exact P2|exact P3]. }
    split. { destruct C1 as [C1|C1]; [left; exact C1|right]. specialize (P2 b1). specialize (P3 b1). lia. }
    exists (p_var st2). split; [exact S3|]. split; [pose proof (ws_var _ _ W1); lia|].
    intros O E s ad k w' CO Cl Ha R Va Ei.
    assert (L1 : (b1 < p_blk st1)%nat) by apply (ws_b _ _ W1).
    assert (C13 : chg (eq b1) st1 st3) by (eapply chg_adds; [exact L1|exact A|eapply pl_trans; eauto]).
    assert (C1F : chg (fun q => b1 = q \/ O q) st1 F) by (eapply chg_trans; [exact C13|exact CO|intros; tauto]).
    assert (K3 : p_blk st3 = p_blk st1) by (rewrite (ad_blk _ _ _ _ A3); apply (ad_blk _ _ _ _ A2)).
    destruct (Ev _ E s k w' C1F) as (s1 & Le & Af & Gk); auto.
    { intros q [<-|Hq] Lq; [left; reflexivity|]. rewrite K0. apply Cl; [exact Hq|lia]. }
    assert (Ga : get s1 (vi_id v) = Some ad).
    { rewrite (after_get M V goff st0 s s1 w' (vi_id v)).
      - rewrite (value_look ce st E (s_env s) Sc R) in Va. unfold lookup in Va. rewrite Hc, Hv in Va. exact Va.
      - destruct (v_global V (vi_id v)) eqn:Q; [left; exact Q|right]. pose proof (proj2 (look_var ce st x v Sc Hv) Q). lia.
      - exact Af.
      - intros Q. eapply (no_calls_world find_constant (look ce) find_func M V goff (s_env s)).
        + eapply ceval_ext; [| |exact Ei]; [apply (value_look ce st); assumption|eapply size_look; eassumption].
        + unfold settled in Fs. cbn [no_calls no_globals] in Fs. unfold is_global in Fs at 1. rewrite Hv, Q in Fs. cbn in Fs. rewrite orb_false_r in Fs. exact Fs. }
    assert (C2F : chg (fun q => b1 = q \/ O q) st2 F).
    { eapply chg_trans; [eapply chg_adds; [|exact A3|exact P3]|exact CO|intros; tauto]. rewrite (ad_blk _ _ _ _ A2). exact L1. }
    destruct (Run2 _ s1 k C2F (proj1 Af) Gk) as (s2 & z & St2 & Af2 & Gz & Hz).
    exists (put s2 (p_var st2) (wrap (ad + k * sz))). split; [|split].
    - replace (len st b) with (len st0 b) by (unfold len; rewrite D0; reflexivity). eapply leads_trans; [exact Le|]. eapply adds_go; [exact L1|exact A|exact CO|]. eapply steps_app; [exact St2|].
      rewrite <- Hz. eapply binary_step; [reflexivity|apply Af2| |exact Gz|apply (c_bin _ HM BAdd); try discriminate; reflexivity|pose proof (ws_var _ _ W1); lia].
      rewrite <- Ga. eapply after_get; [|exact Af2|reflexivity]. destruct (v_global V (vi_id v)) eqn:Q; [left; exact Q|right]. pose proof (proj2 (look_var ce st x v Sc Hv) Q). lia.
    - eapply (after_go st st1); [lia| |]. { destruct Af as (? & ? & X). split; [eassumption|]. split; [eassumption|]. rewrite <- V0. exact X. }
      rewrite <- (proj1 (proj2 Af)). eapply (after_go st1 st2); [exact L2|exact Af2|]. rewrite <- (proj1 (proj2 Af2)). apply put_go. lia.
    - unfold addr. rewrite (size_look ce E (s_env s) R). fold sz. apply (put_get M V goff nv); auto. pose proof (ws_var _ _ W1). lia.
  Qed.

  (** ** Assignments. *)
  Variable find_type : text -> option Z.
  Hypothesis Hfun : forall v, v_func V v = None.
  Definition is_func (x : text) : bool := match find_func x with Some _ => true | None => false end.
  Notation assigns := (assigns find_constant gtype gget gput (m_read M) (m_write M) (do_call find_func M)).
  Notation fine_lval := (fine_lval (is_constant find_constant) find_type gtype is_func special).
  Notation fine_simple := (fine_simple (is_constant find_constant) find_type gtype is_func special).
  Notation addr := (addr gtype).
  Notation set_var := (set_var gtype gput).
  (** the place of the left side, its value, and giving it a value *)
  Definition lplace (E : env) (l : lval) (w : world) (z : option Z) (w1 : world) : Prop :=
    match l with
    | LVar _ => z = None /\ w1 = w
    | LIdx x i => exists a k, value E x w = Some a /\ cexp E i w k w1 /\ z = Some (addr E x a k)
    end.
  Definition lget (E : env) (l : lval) (z : option Z) (w : world) (u : Z) : Prop :=
    match l, z with LVar x, _ => value E x w = Some u | LIdx x _, Some z => m_read M (size_of E x) z w = Some u | _, None => False end.
  Definition lset (E : env) (l : lval) (z : option Z) (v : Z) (w : world) (E' : env) (w' : world) : Prop :=
    match l, z with LVar x, _ => set_var E x v w = (E', w') | LIdx x _, Some z => m_write M (size_of E x) z v w = Some w' /\ E' = E | _, None => False end.
  Definition lstep (l : lval) (t : vtype) : Z := match l with LVar _ => var_step t | LIdx _ _ => elem_step t end.
  Lemma assigns_assign l e E w E' w' : assigns (Assign l e) E w E' w' -> exists z w1 v w2, lplace E l w z w1 /\ cexp E e w1 v w2 /\ lset E l z v w2 E' w'.
  Proof.
    intros H. inversion H; subst; clear H.
    - exists None, w, v, w1. repeat split; auto.
    - exists (Some (addr E' x a k)), w1, v, w2. repeat split; auto. exists a, k. auto.
  Qed.
  Lemma assigns_update l o e E w E' w' : assigns (Update l o e) E w E' w' -> exists t z w1 u v w2 r, type_of gtype (types E) (lname l) = Some t /\ lplace E l w z w1 /\ lget E l z w1 u /\
    cexp E e w1 v w2 /\ cbin o u (wrap (v * lstep l t)) = Some r /\ lset E l z r w2 E' w'.
  Proof.
    intros H. inversion H; subst; clear H.
    - exists t, None, w, u, v, w1, r. repeat (split; auto).
    - exists t, (Some (addr E' x a k)), w1, u, v, w2, r. repeat (split; auto). exists a, k. auto.
  Qed.
  Lemma assigns_post l o E w E' w' : assigns (Post l o) E w E' w' -> exists t z w1 u r, type_of gtype (types E) (lname l) = Some t /\ lplace E l w z w1 /\ lget E l z w1 u /\
    cbin o u (lstep l t) = Some r /\ lset E l z r w1 E' w'.
  Proof.
    intros H. inversion H; subst; clear H.
    - exists t, None, w, u, r. repeat (split; auto).
    - exists t, (Some (addr E' x a k)), w1, u, r. repeat (split; auto). exists a, k. auto.
  Qed.

  Definition flat_lval (l : lval) : bool := match l with LVar _ => true | LIdx _ i => flat i end.
  Lemma fine_lval_name T l : fine_lval T l = true -> find_constant (lname l) = None.
  Proof.
    destruct l as [x|x i]; cbn [StmtSpec.fine_lval lname]; rewrite !andb_true_iff; unfold target; rewrite !andb_true_iff, negb_true_iff; unfold is_constant; intros H;
      destruct (find_constant x); [destruct H as [[[[[]]]]]; discriminate|reflexivity|destruct H as [[[[[[]]]]]]; discriminate|reflexivity].
  Qed.
  Lemma lhs_ok ce n l v rest st st0 b ts' st' b' size ref : wfs st b -> sco st (c_scopes ce) -> lgram l -> fine_lval (ctypes (c_scopes ce)) l = true -> look ce (lname l) = Some v ->
    plain_next rest -> opstack_push (vi_id v) st = Some st0 -> rsubs ce n v (get_size v) false (ltail l ++ rest) st0 b = Some (ts', st', b', size, ref) ->
    ts' = rest /\ frame [b] st b st' b' /\ (flat_lval l = true -> b' = b) /\ pl st st' /\ (b' = b \/ (0 < p_pred st' b')%nat) /\
    match l with LVar _ => ref = false | LIdx x _ => ref = true /\ size = element_size (look ce) x end /\
    exists a, p_stack st' = a :: p_stack st /\ match l with LVar _ => a = vi_id v | LIdx _ _ => (nv <= a < p_var st')%nat end /\
    forall O E s z w1, chg O st' F -> closed O st b st' (Some b') -> s_args s = [] -> rel (c_scopes ce) E (s_env s) -> lplace E l (s_world s) z w1 ->
      exists s', leads b (len st b) s b' (len st' b') s' /\ after st s s' w1 /\ match z with Some z => get s' a = Some z | None => True end.
  Proof.
    intros W Sc G Fi Hv Pn Hp H. pose proof (fine_lval_name _ _ Fi) as Hc. destruct l as [x|x i]; cbn [lname ltail] in *.
    - cbn [List.app] in H. destruct n as [|n]; [discriminate|]. rewrite subs_var in H by exact Pn. apply some_inj in H. injection H as <- <- <- <- <-.
      assert (A0 : adds st b [] st0). { unfold opstack_push in Hp. destruct (_ <? _)%nat; [|discriminate]. apply some_inj in Hp. subst st0. apply adds_nil; reflexivity. }
      destruct (chg_push (eq b) _ _ _ Hp) as (C0 & S0 & K0 & V0 & D0). split; [reflexivity|]. split; [apply (adds_frame _ _ _ _ (ws_b _ _ W) A0)|].
      split; [reflexivity|]. split; [apply (ch_pred _ _ _ C0)|]. split; [left; reflexivity|]. split; [reflexivity|]. exists (vi_id v). split; [exact S0|]. split; [reflexivity|].
      intros O E s z w1 C Cl Ha R [-> ->]. exists s. split; [unfold len; rewrite D0; apply leads_refl|]. split; [apply after_refl; exact Ha|exact I].
    - cbn [StmtSpec.fine_lval] in Fi. rewrite !andb_true_iff in Fi. destruct Fi as [[_ Ni] Fi].
      destruct (subs_idx ce n x v i rest st st0 b ts' st' b' size ref) as (-> & -> & -> & Fr & Fl & P & Cu & a & S & La & Run); auto.
      split; [reflexivity|]. split; [exact Fr|]. split; [exact Fl|]. split; [exact P|]. split; [exact Cu|]. split; [auto|]. exists a. split; [exact S|]. split; [exact La|].
      intros O E s z w1 C Cl Ha R (ad & k & Va & Ei & ->). eapply Run; eauto.
  Qed.
  Lemma old_ok ce l v size ref st b t st' a k : wfs st b -> sco st (c_scopes ce) -> find_constant (lname l) = None -> look ce (lname l) = Some v ->
    match l with LVar _ => ref = false | LIdx x _ => ref = true /\ size = element_size (look ce) x end ->
    match l with LVar _ => a = vi_id v | LIdx _ _ => (nv <= a < p_var st)%nat end -> p_stack st = a :: k -> old_value lim ref size b st = Some (t, st') ->
    t = a /\ exists is y, adds st b is st' /\ pl st st' /\ p_stack st' = y :: k /\ good V st' y /\ (v_global V y = true -> exists x, l = LVar x /\ global gtype (ctypes (c_scopes ce)) x = true) /\
    forall E s z u, s_args s = [] -> rel (c_scopes ce) E (s_env s) -> match z with Some z => get s a = Some z | None => True end -> lget E l z (s_world s) u ->
      exists s', steps is s s' /\ after st s s' (s_world s) /\ get s' y = Some u.
  Proof.
    intros W Sc Hc Hv Hr Ha S H. destruct l as [x|x i]; cbn [lname] in *.
    - subst ref a. cbn [old_value] in H. rewrite S in H. injection H as <- <-. split; [reflexivity|]. exists [], (vi_id v). split; [apply adds_nil; reflexivity|]. split; [apply pl_refl|]. split; [exact S|].
      split. { destruct (v_global V (vi_id v)) eqn:Q; [left; exact Q|right]. apply (look_var ce st x v Sc Hv). exact Q. }
      split. { intros Q. exists x. split; [reflexivity|]. rewrite (global_look ce st x Sc). unfold is_global. rewrite Hv. exact Q. }
      intros E s z u Hs R _ Hu. exists s. split; [constructor|]. split; [apply after_refl; exact Hs|]. cbn [lget] in Hu.
      rewrite (value_look ce st E (s_env s) Sc R) in Hu. unfold lookup in Hu. rewrite Hc, Hv in Hu. exact Hu.
    - destruct Hr as [-> ->]. cbn [old_value] in H.
      assert (Q : exists st2, read_top lim b (element_size (look ce) x) st = Some st2 /\ t = a /\ st' = st2).
      { unfold read_top. unfold opstack_pop in *. rewrite S in *. destruct (require_var lim _) as [[t' s1]|]; [|discriminate]. destruct (opstack_push t' s1) as [s2|]; [|discriminate].
        injection H as <- <-. eexists. repeat split. }
      destruct Q as (st2 & E2 & -> & ->). split; [reflexivity|]. destruct (read_top_adds _ _ _ _ _ E2) as (a' & k' & S' & A & S2 & N2). rewrite S in S'. injection S' as <- <-.
      exists [rdm (p_var st) a (element_size (look ce) x)], (p_var st). split; [exact A|].
      split. { clear -E2. unfold read_top in E2. destruct (opstack_pop st) as [[q s]|] eqn:Q1; [|discriminate]. destruct (require_var lim s) as [[q1 s1]|] eqn:Q2; [|discriminate]. destruct (opstack_push q1 s1) as [s2|] eqn:Q3; [|discriminate].
        apply some_inj in E2. subst st2. eapply pl_trans; [eapply pl_pop; eauto|]. eapply pl_trans; [eapply pl_require; eauto|]. eapply pl_trans; [eapply pl_push; eauto|]. apply pl_insn. }
      split; [exact S2|]. split; [right; lia|]. split. { rewrite Hglob by apply (ws_var _ _ W). discriminate. }
      intros E s [z|] u Hs R Hz Hu; [|destruct Hu]. cbn [lget] in Hu. rewrite (size_look ce E (s_env s) R) in Hu. exists (put s (p_var st) u). split; [|split].
      + econstructor; [|constructor]. eapply s_read; [exact Hs|exact Hz|exact Hu|]. apply (set_temp M V goff nv); auto. apply (ws_var _ _ W).
      + apply put_go. lia.
      + apply (put_get M V goff nv); auto. apply (ws_var _ _ W).
  Qed.
  Lemma change_ext {A} x (f g : A -> A) (E : list (list (text * A))) : (forall a, find_scopes x E = Some a -> f a = g a) -> change x f E = change x g E.
  Proof.
    induction E as [|l E IH]; [reflexivity|]. cbn [change find_scopes]. destruct (find_in x l) as [a|] eqn:Q; intros H; [|rewrite IH by auto; reflexivity]. f_equal. specialize (H a eq_refl). revert Q.
    induction l as [|[y b] l IHl]; [reflexivity|]. cbn [find_in change_in]. destruct (list_eq_dec Z.eq_dec x y); [intros Q; injection Q as ->; rewrite H; reflexivity|]. intros Q. rewrite IHl by exact Q. reflexivity.
  Qed.
  Lemma set_ok ce st x v E d r (s : state) E' w' : sco st (c_scopes ce) -> look ce x = Some v -> wide (vt v) = true -> s_args s = [] -> rel (c_scopes ce) E (s_env s) -> get s d = Some r ->
    set_var E x r (s_world s) = (E', w') ->
    exists s', steps [mkr (mkinsn OP_assign (Some (vi_id v)) (Some d) None) 0 0] s s' /\ s_args s' = [] /\ s_world s' = w' /\ rel (c_scopes ce) E' (s_env s').
  Proof.
    intros Sc Hv Wd Ha R Hd Se. pose proof Sc as [A ND]. unfold StmtSpec.set_var in Se. rewrite (rel_find _ _ _ R) in Se. unfold find_var in Hv.
    assert (Cv : convert (vt v) r = r). { unfold convert. unfold wide in Wd. rewrite andb_true_iff, orb_true_iff, negb_true_iff in Wd. destruct Wd as [_ [->| Q]]; [reflexivity|]. apply Z.eqb_eq in Q. rewrite Q, andb_false_r. reflexivity. }
    destruct (find_scopes x (c_scopes ce)) as [v'|] eqn:Q.
    - injection Hv as ->. injection Se as <- <-. destruct (A _ (find_scopes_In _ _ _ Q)) as (G0 & _). cbn [snd] in G0.
      exists (put s (vi_id v) r). split; [|split; [reflexivity|split; [reflexivity|]]].
      + econstructor; [|constructor]. apply s_assign; [exact Ha|]. rewrite Hd. unfold AllocSpec.set. rewrite G0. reflexivity.
      + rewrite (change_ext x _ (fun p => (fst p, Some r))). { apply rel_change; assumption. }
        intros a Ea. rewrite (rel_find _ _ _ R), Q in Ea. injection Ea as <-. cbn [fst]. rewrite Cv. reflexivity.
    - destruct (Hgl _ _ Hv) as [G0 _]. unfold gtype, gput in Se. rewrite Hv, Cv in Se. injection Se as <- <-. eexists. split; [|split; [|split]].
      + econstructor; [|constructor]. apply s_assign; [exact Ha|]. rewrite Hd. unfold AllocSpec.set. rewrite G0. reflexivity.
      + reflexivity.
      + reflexivity.
      + exact R.
  Qed.
  Lemma new_ok ce l v size ref st b t d a : sco st (c_scopes ce) -> look ce (lname l) = Some v -> fine_lval (ctypes (c_scopes ce)) l = true -> (b < p_blk st)%nat ->
    match l with LVar _ => ref = false | LIdx x _ => ref = true /\ size = element_size (look ce) x end ->
    match l with LVar _ => a = vi_id v | LIdx _ _ => (nv <= a < p_var st)%nat end -> t = a ->
    exists is, adds st b is (new_value ref size t d b st) /\ pl st (new_value ref size t d b st) /\
    forall E s z r E' w', s_args s = [] -> rel (c_scopes ce) E (s_env s) -> match z with Some z => get s a = Some z | None => True end -> get s d = Some r -> lset E l z r (s_world s) E' w' ->
      exists s', steps is s s' /\ s_args s' = [] /\ s_world s' = w' /\ rel (c_scopes ce) E' (s_env s').
  Proof.
    intros Sc Hv Fi L Hr Ha ->. destruct l as [x|x i]; cbn [lname] in *.
    - subst ref a. exists [mkr (mkinsn OP_assign (Some (vi_id v)) (Some d) None) 0 0]. split; [constructor; cbn; auto|]. split; [apply pl_insn|]. intros E s z r E' w' Hs R _ Hd Hl. cbn [lset] in Hl. eapply set_ok; eauto.
      cbn [StmtSpec.fine_lval] in Fi. apply andb_true_iff in Fi. destruct Fi as [_ Q]. unfold check in Q. rewrite type_look, Hv in Q. exact Q.
    - destruct Hr as [-> ->]. exists [mkr (mkinsn OP_write None (Some a) (Some d)) (element_size (look ce) x) 0]. split; [constructor; cbn; auto|]. split; [apply pl_insn|]. intros E s [z|] r E' w' Hs R Hz Hd Hl; [|destruct Hl]. destruct Hl as [Hl ->].
      rewrite (size_look ce E (s_env s) R) in Hl. eexists. split; [|split; [|split]].
      + econstructor; [|constructor]. eapply s_write; [exact Hs|apply Hfun|exact Hz|exact Hd|exact Hl].
      + reflexivity.
      + reflexivity.
      + exact R.
  Qed.

  Lemma adds_pop b v st st' : opstack_pop st = Some (v, st') -> adds st b [] st'.
  Proof. unfold opstack_pop. destruct (p_stack st); [discriminate|]. intros H. injection H as _ <-. apply adds_nil; reflexivity. Qed.
  Lemma adds_push b v st st' : opstack_push v st = Some st' -> adds st b [] st'.
  Proof. unfold opstack_push. destruct (_ <? _)%nat; [|discriminate]. intros H. apply some_inj in H. subst. apply adds_nil; reflexivity. Qed.
  Lemma adds_require b v st st' : require_var lim st = Some (v, st') -> adds st b [] st'.
  Proof. unfold require_var. destruct (_ <? _)%nat; [|discriminate]. intros H. injection H as _ <-. constructor; cbn; auto. intros c. rewrite app_nil_r. destruct (Nat.eqb_spec c b); congruence. Qed.
  Lemma adds_insn b o d x y sz str st : adds st b [mkr (mkinsn o d x y) sz str] (add_insn b o d x y sz str st).
  Proof. constructor; cbn; auto. Qed.
  Lemma const_adds b c z st st' : require_var lim st = Some (c, st') -> let st2 := add_insn b OP_load_constant (Some c) None None 0 0 (set_init c z st') in
    adds st b [mkr (mkinsn OP_load_constant (Some (p_var st)) None None) 0 0] st2 /\ c = p_var st /\ p_init st2 c = z /\ p_stack st2 = p_stack st /\ p_var st2 = S (p_var st) /\ pl st st2.
  Proof.
    unfold require_var. destruct (_ <? _)%nat; [|discriminate]. intros H. injection H as <- <-. cbn. split; [|split; [reflexivity|split; [unfold Cfg.upd; rewrite Nat.eqb_refl; reflexivity|split; [reflexivity|split; [reflexivity|intros u; cbn; lia]]]]].
    constructor; cbn; auto. intros v Hv. unfold Cfg.upd. destruct (Nat.eqb_spec v (p_var st)); [lia|reflexivity].
  Qed.

  Definition goes (cs cs' : list (list (text * vinfo))) (R : env -> world -> env -> world -> Prop) (st : pst) (b : nat) (st' : pst) (b' : nat) : Prop :=
    chg (eq b) st st' /\ (b' = b \/ (p_blk st <= b')%nat) /\ (b' < p_blk st')%nat /\ (b' = b \/ (0 < p_pred st' b')%nat) /\
    forall O E s E' w', chg O st' F -> closed O st b st' (Some b') -> s_args s = [] -> rel cs E (s_env s) -> R E (s_world s) E' w' ->
      exists s', leads b (len st b) s b' (len st' b') s' /\ s_args s' = [] /\ s_world s' = w' /\ rel cs' E' (s_env s').
  (** a piece that evaluates something in (st, b) ... (st1, b1), then instructions in b1 *)
  Lemma then_adds st b st1 b1 is st2 : wfs st b -> frame [b] st b st1 b1 -> pl st st1 -> adds st1 b1 is st2 -> pl st1 st2 ->
    (b1 = b \/ (0 < p_pred st1 b1)%nat) ->
    chg (eq b) st st2 /\ (b1 = b \/ (p_blk st <= b1)%nat) /\ (b1 < p_blk st2)%nat /\ (b1 = b \/ (0 < p_pred st2 b1)%nat) /\
    forall O, chg O st2 F -> closed O st b st2 (Some b1) -> exists O', chg O' st1 F /\ closed O' st b st1 (Some b1).
  Proof.
    intros W Fr P A P2 Cu. pose proof (fr_lt _ _ _ _ _ Fr (ws_b _ _ W)) as L1. pose proof (fr_cur _ _ _ _ _ Fr) as Cr.
    assert (C1 : chg (eq b) st st1) by (apply chg_frame with (b' := b1); assumption). assert (C2 : chg (eq b1) st1 st2) by (eapply chg_adds; eauto).
    pose proof (ch_blk _ _ _ C1). split. { eapply chg_trans; [exact C1|exact C2|]. intros c Hc [<-|<-]; [reflexivity|]. destruct Cr; [congruence|lia]. }
    split; [exact Cr|]. split; [rewrite (ad_blk _ _ _ _ A); exact L1|]. split. { destruct Cu as [Cu|Cu]; [left; exact Cu|right]. specialize (P2 b1). lia. }
    intros O CO Cl. exists (fun q => b1 = q \/ O q). split. { eapply chg_trans; [exact C2|exact CO|]. intros; tauto. }
    intros q [<-|Hq] Lq; [left; reflexivity|]. apply Cl; [exact Hq|]. rewrite (ad_blk _ _ _ _ A). exact Lq.
  Qed.
  Definition inc_of (v : vinfo) : Z := if vi_ptr v =? 0 then 1 else vi_size v.
  Notation read_assignment := (read_assignment find_constant find_global find_func special lim).
  Lemma fine_step_inc ce l v : look ce (lname l) = Some v -> fine_step gtype (ctypes (c_scopes ce)) l = true -> lstep l (vt v) = inc_of v.
  Proof.
    intros Hv H. unfold inc_of. destruct l as [x|x i]; cbn [fine_step lstep lname] in *; unfold check in H; rewrite type_look, Hv in H; apply Z.eqb_eq in H; exact H.
  Qed.
  (** what follows the left side of ++ and -- *)
  Lemma step_ok ce l v o st b st1 b1 size ref a t st2 c st3 st4 y st5 d st6 st7 : wfs st b -> sco st (c_scopes ce) -> look ce (lname l) = Some v -> fine_lval (ctypes (c_scopes ce)) l = true ->
    fine_step gtype (ctypes (c_scopes ce)) l = true -> (o = BAdd \/ o = BSub) -> frame [b] st b st1 b1 -> pl st st1 -> (b1 = b \/ (0 < p_pred st1 b1)%nat) ->
    match l with LVar _ => ref = false | LIdx x _ => ref = true /\ size = element_size (look ce) x end ->
    match l with LVar _ => a = vi_id v | LIdx _ _ => (nv <= a < p_var st1)%nat end -> p_stack st1 = a :: p_stack st ->
    (forall O E s z w1, chg O st1 F -> closed O st b st1 (Some b1) -> s_args s = [] -> rel (c_scopes ce) E (s_env s) -> lplace E l (s_world s) z w1 ->
      exists s', leads b (len st b) s b1 (len st1 b1) s' /\ after st s s' w1 /\ match z with Some z => get s' a = Some z | None => True end) ->
    old_value lim ref size b1 st1 = Some (t, st2) -> require_var lim st2 = Some (c, st3) ->
    st4 = add_insn b1 OP_load_constant (Some c) None None 0 0 (set_init c (inc_of v) st3) -> opstack_pop st4 = Some (y, st5) -> require_var lim st5 = Some (d, st6) ->
    st7 = new_value ref size t d b1 (add_insn b1 (opc o) (Some d) (Some y) (Some c) 0 0 st6) ->
    goes (c_scopes ce) (c_scopes ce) (assigns (Post l o)) st b st7 b1.
  Proof.
    intros W Sc Hv Fi Fs Ho Fr P Cu Hr Hla S1 Run E2 E3 -> E5 E6 ->. pose proof (fine_lval_name _ _ Fi) as Hc. pose proof (fr_var _ _ _ _ _ Fr) as LV.
    assert (L1 : (b1 < p_blk st1)%nat) by apply (fr_lt _ _ _ _ _ Fr (ws_b _ _ W)).
    assert (W1 : wfs st1 b1) by (eapply wfs_chg; [exact W|eapply chg_frame; [exact Fr|exact P]|exact L1]). assert (Sc1 : sco st1 (c_scopes ce)) by (eapply sco_mono; [exact Sc|lia]).
    destruct (old_ok ce l v size ref st1 b1 t st2 a (p_stack st) W1 Sc1 Hc Hv Hr Hla S1 E2) as (-> & is & y0 & A2 & P2 & S2 & G2 & _ & Old).
    destruct (const_adds b1 c (inc_of v) _ _ E3) as (A3 & -> & I3 & S3 & N3 & P3). set (st4 := add_insn b1 OP_load_constant _ _ _ _ _ _) in *. clearbody st4. clear E3.
    destruct (chg_pop (eq b) _ _ _ E5) as (C5 & S5 & K5 & V5 & D5). rewrite S3, S2 in S5. injection S5 as <- S5. pose proof (adds_pop b1 _ _ _ E5) as A5.
    destruct (chg_require _ (eq b) _ _ _ E6) as (C6 & -> & V6 & K6 & D6 & S6). pose proof (adds_require b1 _ _ _ E6) as A6.
    pose proof (adds_insn b1 (opc o) (Some (p_var st5)) (Some y0) (Some (p_var st2)) 0 0 st6) as A7. set (st7 := add_insn b1 (opc o) _ _ _ _ _ _) in *.
    assert (V7 : p_var st7 = S (p_var st5)) by exact V6. assert (P7 : pl st6 st7) by apply pl_insn. clearbody st7.
    pose proof (ad_var _ _ _ _ A2) as L2.
    destruct (new_ok ce l v size ref st7 b1 a (p_var st5) a) as (is8 & A8 & P8 & New); auto.
    { eapply sco_mono; [exact Sc1|]. lia. } { rewrite (ad_blk _ _ _ _ A7), (ad_blk _ _ _ _ A6), (ad_blk _ _ _ _ A5), (ad_blk _ _ _ _ A3), (ad_blk _ _ _ _ A2). exact L1. }
    { destruct l; [exact Hla|lia]. }
    set (st8 := new_value ref size a (p_var st5) b1 st7) in *. clearbody st8.
    pose proof (adds_trans _ _ _ _ _ _ A2 (adds_trans _ _ _ _ _ _ A3 (adds_trans _ _ _ _ _ _ A5 (adds_trans _ _ _ _ _ _ A6 (adds_trans _ _ _ _ _ _ A7 A8))))) as A. cbn [List.app] in A.
    assert (PP : pl st1 st8). { eapply pl_trans; [exact P2|]. eapply pl_trans; [exact P3|]. eapply pl_trans; [apply (ch_pred _ _ _ C5)|]. eapply pl_trans; [apply (ch_pred _ _ _ C6)|]. eapply pl_trans; [exact P7|exact P8]. }
    destruct (then_adds st b st1 b1 _ st8 W Fr P A PP Cu) as (B1 & B2 & B3 & B4 & B5). split; [exact B1|]. split; [exact B2|]. split; [exact B3|]. split; [exact B4|].
    intros O E s E' w' CO Cl Ha R As. destruct (B5 O CO Cl) as (O' & CO1 & Cl1). destruct (assigns_post _ _ _ _ _ _ As) as (ty & z & w1 & u & r & Ty & Pl & Gu & Cb & Ls).
    rewrite (rel_types _ _ _ R), type_look, Hv in Ty. injection Ty as <-. rewrite (fine_step_inc ce l v Hv Fs) in Cb.
    destruct (Run O' E s z w1 CO1 Cl1 Ha R Pl) as (s1 & Le & Af & Gz). assert (R1 : rel (c_scopes ce) E (s_env s1)) by (eapply rel_after; [exact Sc|exact R|exact Af]).
    destruct Af as (Ha1 & Hw1 & Hu1). rewrite <- Hw1 in *. destruct (Old E s1 z u Ha1 R1 Gz Gu) as (s2 & St2 & Af2 & Gy).
    pose proof (ws_var _ _ W1) as LN. assert (Cc : v_init V (p_var st2) = inc_of v).
    { rewrite Hinit by lia. rewrite (ch_init _ _ _ CO) by (pose proof (ad_var _ _ _ _ A8); lia). rewrite (ad_init _ _ _ _ A8) by lia. rewrite (ad_init _ _ _ _ A7) by lia. rewrite (ad_init _ _ _ _ A6) by lia. rewrite (ad_init _ _ _ _ A5) by lia. exact I3. }
    assert (St3 : steps [mkr (mkinsn OP_load_constant (Some (p_var st2)) None None) 0 0] s2 (put s2 (p_var st2) (inc_of v))).
    { econstructor; [|constructor]. rewrite <- Cc. apply (step_const M V goff place nv); auto; [lia|apply Af2]. }
    set (s3 := put s2 (p_var st2) (inc_of v)) in *. assert (Af3 : after st2 s2 s3 (s_world s2)) by (apply put_go; lia).
    assert (Gy3 : get s3 y0 = Some u) by (rewrite <- Gy; eapply after_get; [exact G2|exact Af3|reflexivity]).
    assert (Gc3 : get s3 (p_var st2) = Some (inc_of v)) by (apply (put_get M V goff nv); auto; lia).
    assert (St4 : steps [mkr (mkinsn (opc o) (Some (p_var st5)) (Some y0) (Some (p_var st2))) 0 0] s3 (put s3 (p_var st5) r)).
    { eapply binary_step; [destruct Ho as [->| ->]; reflexivity|reflexivity|exact Gy3|exact Gc3|apply (c_bin _ HM); [destruct Ho as [->| ->]; discriminate|destruct Ho as [->| ->]; discriminate|exact Cb]|lia]. }
    set (s4 := put s3 (p_var st5) r) in *. assert (Af4 : after st5 s3 s4 (s_world s3)) by (apply put_go; lia).
    assert (Af14 : after st1 s1 s4 (s_world s1)).
    { eapply (after_go st1 st2); [exact L2|exact Af2|]. replace (s_world s1) with (s_world s2) by apply Af2. eapply (after_go st2 st5); [lia|exact Af3|]. exact Af4. }
    destruct (New E s4 z r E' w') as (s5 & St5 & Ha5 & Hw5 & R5).
    { reflexivity. } { eapply rel_after; [exact Sc1|exact R1|exact Af14]. }
    { destruct z as [z|]; [|exact I]. rewrite <- Gz. eapply after_get; [|exact Af14|reflexivity]. destruct l as [x|x i]; [destruct Pl; discriminate|right; lia]. }
    { apply (put_get M V goff nv); auto; lia. }
    { replace (s_world s4) with (s_world s1) by (symmetry; apply Af14). exact Ls. }
    exists s5. split; [|auto]. eapply leads_trans; [exact Le|]. eapply adds_go; [exact L1|exact A|exact CO|]. eapply steps_app; [exact St2|].
    change (steps ([mkr (mkinsn OP_load_constant (Some (p_var st2)) None None) 0 0] ++ [mkr (mkinsn (opc o) (Some (p_var st5)) (Some y0) (Some (p_var st2))) 0 0] ++ is8) s2 s5).
    eapply steps_app; [exact St3|]. eapply steps_app; [exact St4|exact St5].
  Qed.

  Notation lhs_runs := (fun ce l a st b st1 b1 => forall O E s z w1, chg O st1 F -> closed O st b st1 (Some b1) -> s_args s = [] -> rel (c_scopes ce) E (s_env s) -> lplace E l (s_world s) z w1 ->
      exists s', leads b (len st b) s b1 (len st1 b1) s' /\ after st s s' w1 /\ match z with Some z => get s' a = Some z | None => True end).
  Lemma frames st b st1 b1 st2 b2 : (b < p_blk st)%nat -> frame [b] st b st1 b1 -> frame [b1] st1 b1 st2 b2 -> frame [b] st b st2 b2.
  Proof. intros L F1 F2. apply (frame_trans _ _ _ _ _ _ _ _ L F1 F2). intros d [<-|[]]. destruct (fr_cur _ _ _ _ _ F1) as [->|]; [left; left; reflexivity|right; assumption]. Qed.
  Lemma preds st1 st2 b b1 b2 : pl st1 st2 -> (b1 = b \/ (0 < p_pred st1 b1)%nat) -> (b2 = b1 \/ (0 < p_pred st2 b2)%nat) -> (b2 = b \/ (0 < p_pred st2 b2)%nat).
  Proof. intros P [->|A] [->|B]; auto. right. specialize (P b1). lia. Qed.
  (** the pieces of a piece are closed in what follows *)
  Lemma closed_back O st b st1 b1 st2 b2 : chg O st2 F -> closed O st b st2 (Some b2) -> (b < p_blk st)%nat -> frame [b] st b st1 b1 -> frame [b1] st1 b1 st2 b2 -> pl st1 st2 ->
    (chg (fun q => b1 = q \/ O q) st1 F /\ closed (fun q => b1 = q \/ O q) st b st1 (Some b1)) /\ closed O st1 b1 st2 (Some b2).
  Proof.
    intros C Cl L F1 F2 P. pose proof (fr_lt _ _ _ _ _ F1 L) as L1. pose proof (fr_blk _ _ _ _ _ F1) as K1. pose proof (fr_blk _ _ _ _ _ F2) as K2. pose proof (fr_cur _ _ _ _ _ F1) as C1. pose proof (fr_cur _ _ _ _ _ F2) as C2. split; [split|].
    - eapply chg_trans; [eapply chg_frame; [exact F2|exact P]|exact C|]. intros; tauto.
    - intros q [<-|Hq] Lq; [left; reflexivity|]. destruct (Cl q Hq ltac:(lia)) as [Q|Q]; [|right; exact Q]. injection Q as <-. destruct C2 as [->|C2]; [left; reflexivity|lia].
    - intros q Hq Lq. destruct (Cl q Hq Lq) as [Q|[Q1 Q2]]; [left; exact Q|right]. split; [lia|]. intros ->. destruct C1 as [->|C1]; [congruence|lia].
  Qed.
  (** l = e *)
  Lemma plain_ok ce l e v st b st1 b1 size ref a st2 b2 z0 st3 y st4 st5 : wfs st b -> sco st (c_scopes ce) -> look ce (lname l) = Some v -> fine_lval (ctypes (c_scopes ce)) l = true ->
    frame [b] st b st1 b1 -> pl st st1 -> (b1 = b \/ (0 < p_pred st1 b1)%nat) ->
    match l with LVar _ => ref = false | LIdx x _ => ref = true /\ size = element_size (look ce) x end ->
    match l with LVar _ => a = vi_id v | LIdx _ _ => (nv <= a < p_var st1)%nat end -> p_stack st1 = a :: p_stack st ->
    lhs_runs ce l a st b st1 b1 -> evals ce e st1 b1 st2 b2 -> opstack_pop st2 = Some (z0, st3) -> opstack_pop st3 = Some (y, st4) -> st5 = new_value ref size y z0 b2 st4 ->
    goes (c_scopes ce) (c_scopes ce) (assigns (Assign l e)) st b st5 b2.
  Proof.
    intros W Sc Hv Fi Fr P Cu Hr Hla S1 Run (Fr2 & _ & P2 & Cu2 & x & S2 & G2 & Ev) E3 E4 ->. pose proof (fr_var _ _ _ _ _ Fr) as LV. pose proof (fr_var _ _ _ _ _ Fr2) as LV2.
    assert (L1 : (b1 < p_blk st1)%nat) by apply (fr_lt _ _ _ _ _ Fr (ws_b _ _ W)). assert (L2 : (b2 < p_blk st2)%nat) by apply (fr_lt _ _ _ _ _ Fr2 L1).
    assert (W1 : wfs st1 b1) by (eapply wfs_chg; [exact W|eapply chg_frame; [exact Fr|exact P]|exact L1]). assert (Sc1 : sco st1 (c_scopes ce)) by (eapply sco_mono; [exact Sc|lia]).
    destruct (chg_pop (eq b) _ _ _ E3) as (C3 & S3 & K3 & V3 & D3). rewrite S2 in S3. injection S3 as <- S3. pose proof (adds_pop b2 _ _ _ E3) as A3.
    destruct (chg_pop (eq b) _ _ _ E4) as (C4 & S4 & K4 & V4 & D4). rewrite <- S3, S1 in S4. injection S4 as <- S4. pose proof (adds_pop b2 _ _ _ E4) as A4.
    destruct (new_ok ce l v size ref st4 b2 a x a) as (is & A5 & P5 & New); auto. { eapply sco_mono; [exact Sc1|]. lia. } { lia. } { destruct l; [exact Hla|lia]. }
    set (st5 := new_value ref size a x b2 st4) in *. clearbody st5. pose proof (adds_trans _ _ _ _ _ _ A3 (adds_trans _ _ _ _ _ _ A4 A5)) as A. cbn [List.app] in A.
    assert (PP : pl st2 st5). { eapply pl_trans; [apply (ch_pred _ _ _ C3)|]. eapply pl_trans; [apply (ch_pred _ _ _ C4)|exact P5]. }
    destruct (then_adds st b st2 b2 _ st5 W (frames _ _ _ _ _ _ (ws_b _ _ W) Fr Fr2) (pl_trans _ _ _ P P2) A PP (preds _ _ _ _ _ P2 Cu Cu2)) as (B1 & B2 & B3 & B4 & B5). split; [exact B1|]. split; [exact B2|]. split; [exact B3|]. split; [exact B4|].
    intros O E s E' w' CO Cl Ha R As. destruct (B5 O CO Cl) as (O' & CO2 & Cl2). destruct (closed_back _ _ _ _ _ _ _ CO2 Cl2 (ws_b _ _ W) Fr Fr2 P2) as [[CO1 Cl1] Cl12].
    destruct (assigns_assign _ _ _ _ _ _ As) as (z & w1 & u & w2 & Pl & Ee & Ls).
    destruct (Run _ E s z w1 CO1 Cl1 Ha R Pl) as (s1 & Le1 & Af1 & Gz). assert (R1 : rel (c_scopes ce) E (s_env s1)) by (eapply rel_after; [exact Sc|exact R|exact Af1]).
    destruct Af1 as (Ha1 & Hw1 & Hu1). rewrite <- Hw1 in *. destruct (Ev O' E s1 u w2 CO2 Cl12 Ha1 R1 Ee) as (s2 & Le2 & Af2 & Gx).
    destruct (New E s2 z u E' w') as (s5 & St5 & Ha5 & Hw5 & R5).
    { apply Af2. } { eapply rel_after; [exact Sc1|exact R1|exact Af2]. }
    { destruct z as [z|]; [|exact I]. rewrite <- Gz. eapply after_get; [|exact Af2|]; (destruct l as [x0|x0 i]; [destruct Pl; discriminate|]); [right; lia|]. rewrite Hglob by lia. discriminate. }
    { exact Gx. } { rewrite (proj1 (proj2 Af2)). exact Ls. }
    exists s5. split; [|auto]. eapply leads_trans; [exact Le1|]. eapply leads_trans; [exact Le2|]. eapply adds_go; [exact L2|exact A|exact CO|exact St5].
  Qed.
  (** l o= e *)
  Lemma update_ok ce l o e v st b st1 b1 size ref a t st2 st3 b3 st4 st5 z0 st6 y st7 d st8 st9 : wfs st b -> sco st (c_scopes ce) -> look ce (lname l) = Some v -> fine_lval (ctypes (c_scopes ce)) l = true ->
    fine_step gtype (ctypes (c_scopes ce)) l = true -> fine_mix gtype (ctypes (c_scopes ce)) l e = true -> assignable o = true -> frame [b] st b st1 b1 -> pl st st1 -> (b1 = b \/ (0 < p_pred st1 b1)%nat) ->
    match l with LVar _ => ref = false | LIdx x _ => ref = true /\ size = element_size (look ce) x end ->
    match l with LVar _ => a = vi_id v | LIdx _ _ => (nv <= a < p_var st1)%nat end -> p_stack st1 = a :: p_stack st ->
    lhs_runs ce l a st b st1 b1 -> old_value lim ref size b1 st1 = Some (t, st2) -> evals ce e st2 b1 st3 b3 -> load_constant lim (inc_of v) b3 st3 = Some st4 -> binary_op lim OP_mul b3 st4 = Some st5 ->
    opstack_pop st5 = Some (z0, st6) -> opstack_pop st6 = Some (y, st7) -> require_var lim st7 = Some (d, st8) ->
    st9 = new_value ref size t d b3 (add_insn b3 (opc o) (Some d) (Some y) (Some z0) 0 0 st8) ->
    goes (c_scopes ce) (c_scopes ce) (assigns (Update l o e)) st b st9 b3.
  Proof.
    intros W Sc Hv Fi Fs Fm Ho Fr P Cu Hr Hla S1 Run E2 (Fr3 & _ & P3 & Cu3 & x & S3 & G3 & Ev) E4 E5 E6 E7 E8 ->. pose proof (fine_lval_name _ _ Fi) as Hc. pose proof (fr_var _ _ _ _ _ Fr) as LV.
    assert (L1 : (b1 < p_blk st1)%nat) by apply (fr_lt _ _ _ _ _ Fr (ws_b _ _ W)).
    assert (W1 : wfs st1 b1) by (eapply wfs_chg; [exact W|eapply chg_frame; [exact Fr|exact P]|exact L1]). assert (Sc1 : sco st1 (c_scopes ce)) by (eapply sco_mono; [exact Sc|lia]).
    destruct (old_ok ce l v size ref st1 b1 t st2 a (p_stack st) W1 Sc1 Hc Hv Hr Hla S1 E2) as (-> & is2 & y0 & A2 & P2 & S2 & G2 & Gg & Old). pose proof (ad_var _ _ _ _ A2) as L2. pose proof (fr_var _ _ _ _ _ Fr3) as LV3.
    assert (K2 : p_blk st2 = p_blk st1) by apply (ad_blk _ _ _ _ A2). assert (L3 : (b3 < p_blk st3)%nat) by (apply (fr_lt _ _ _ _ _ Fr3); lia).
    pose proof (adds_frame _ _ _ _ L1 A2) as Fr2. pose proof (frames _ _ _ _ _ _ (ws_b _ _ W) Fr Fr2) as Fr02. pose proof (preds _ _ _ _ _ P2 Cu (or_introl eq_refl)) as Cu2.
    destruct (load_constant_adds _ _ _ _ _ E4) as (A4 & S4 & N4 & I4). pose proof (pl_const _ _ _ _ _ E4) as P4.
    destruct (binary_op_adds _ _ _ _ _ E5) as (q1 & q2 & q3 & S5 & A5 & S5' & N5). rewrite S4, S3 in S5. injection S5 as <- <- <-. pose proof (pl_binary _ _ _ _ _ E5) as P5.
    destruct (chg_pop (eq b) _ _ _ E6) as (C6 & S6 & K6 & V6 & D6). rewrite S5' in S6. injection S6 as <- S6. pose proof (adds_pop b3 _ _ _ E6) as A6.
    destruct (chg_pop (eq b) _ _ _ E7) as (C7 & S7 & K7 & V7 & D7). rewrite <- S6, S2 in S7. injection S7 as <- S7. pose proof (adds_pop b3 _ _ _ E7) as A7.
    destruct (chg_require _ (eq b) _ _ _ E8) as (C8 & -> & V8 & K8 & D8 & S8). pose proof (adds_require b3 _ _ _ E8) as A8.
    pose proof (adds_insn b3 (opc o) (Some (p_var st7)) (Some y0) (Some (p_var st4)) 0 0 st8) as A9. set (st9 := add_insn b3 (opc o) _ _ _ _ _ _) in *.
    assert (V9 : p_var st9 = S (p_var st7)) by exact V8. assert (P9 : pl st8 st9) by apply pl_insn. clearbody st9.
    destruct (new_ok ce l v size ref st9 b3 a (p_var st7) a) as (is10 & A10 & P10 & New); auto.
    { eapply sco_mono; [exact Sc1|]. lia. } { rewrite (ad_blk _ _ _ _ A9), (ad_blk _ _ _ _ A8), (ad_blk _ _ _ _ A7), (ad_blk _ _ _ _ A6), (ad_blk _ _ _ _ A5), (ad_blk _ _ _ _ A4). exact L3. }
    { destruct l; [exact Hla|lia]. }
    set (stF := new_value ref size a (p_var st7) b3 st9) in *. clearbody stF.
    pose proof (adds_trans _ _ _ _ _ _ A4 (adds_trans _ _ _ _ _ _ A5 (adds_trans _ _ _ _ _ _ A6 (adds_trans _ _ _ _ _ _ A7 (adds_trans _ _ _ _ _ _ A8 (adds_trans _ _ _ _ _ _ A9 A10)))))) as A. cbn [List.app] in A.
    assert (PP : pl st3 stF).
    { eapply pl_trans; [exact P4|]. eapply pl_trans; [exact P5|]. eapply pl_trans; [apply (ch_pred _ _ _ C6)|]. eapply pl_trans; [apply (ch_pred _ _ _ C7)|]. eapply pl_trans; [apply (ch_pred _ _ _ C8)|]. eapply pl_trans; [exact P9|exact P10]. }
    destruct (then_adds st b st3 b3 _ stF W (frames _ _ _ _ _ _ (ws_b _ _ W) Fr02 Fr3) (pl_trans _ _ _ (pl_trans _ _ _ P P2) P3) A PP (preds _ _ _ _ _ P3 Cu2 Cu3)) as (B1 & B2 & B3 & B4 & B5). split; [exact B1|]. split; [exact B2|]. split; [exact B3|]. split; [exact B4|].
    intros O E s E' w' CO Cl Ha R As. destruct (B5 O CO Cl) as (O3 & CO3 & Cl3). destruct (closed_back _ _ _ _ _ _ _ CO3 Cl3 (ws_b _ _ W) Fr02 Fr3 P3) as [[CO2 Cl2] Cl23].
    destruct (closed_back _ _ _ _ _ _ _ CO2 Cl2 (ws_b _ _ W) Fr Fr2 P2) as [[CO1 Cl1] _].
    destruct (assigns_update _ _ _ _ _ _ _ As) as (ty & z & w1 & u & k & w2 & r & Ty & Pl & Gu & Ee & Cb & Ls).
    rewrite (rel_types _ _ _ R), type_look, Hv in Ty. injection Ty as <-. rewrite (fine_step_inc ce l v Hv Fs) in Cb.
    destruct (Run _ E s z w1 CO1 Cl1 Ha R Pl) as (s1 & Le1 & Af1 & Gz). assert (R1 : rel (c_scopes ce) E (s_env s1)) by (eapply rel_after; [exact Sc|exact R|exact Af1]).
    destruct Af1 as (Ha1 & Hw1 & Hu1). rewrite <- Hw1 in *. destruct (Old E s1 z u Ha1 R1 Gz Gu) as (s2 & St2 & Af2 & Gy).
    assert (R2 : rel (c_scopes ce) E (s_env s2)) by (eapply rel_after; [exact Sc1|exact R1|exact Af2]).
    destruct (Ev O3 E s2 k w2 CO3 Cl23 (proj1 Af2) R2) as (s3 & Le3 & Af3 & Gx). { rewrite (proj1 (proj2 Af2)). exact Ee. }
    pose proof (ws_var _ _ W1) as LN.
    assert (Cc : v_init V (p_var st3) = inc_of v).
    { rewrite Hinit by lia. rewrite (ch_init _ _ _ CO) by (pose proof (ad_var _ _ _ _ A10); lia). rewrite (ad_init _ _ _ _ A10) by lia. rewrite (ad_init _ _ _ _ A9) by lia. rewrite (ad_init _ _ _ _ A8) by lia.
      rewrite (ad_init _ _ _ _ A7) by lia. rewrite (ad_init _ _ _ _ A6) by lia. rewrite (ad_init _ _ _ _ A5) by lia. exact I4. }
    assert (St4 : steps [mkr (mkinsn OP_load_constant (Some (p_var st3)) None None) 0 0] s3 (put s3 (p_var st3) (inc_of v))).
    { econstructor; [|constructor]. rewrite <- Cc. apply (step_const M V goff place nv); auto; [lia|apply Af3]. }
    set (s4 := put s3 (p_var st3) (inc_of v)) in *. assert (Af4 : after st3 s3 s4 (s_world s3)) by (apply put_go; lia).
    assert (Gx4 : get s4 x = Some k) by (rewrite <- Gx; eapply after_get; [exact G3|exact Af4|reflexivity]).
    assert (Gc4 : get s4 (p_var st3) = Some (inc_of v)) by (apply (put_get M V goff nv); auto; lia).
    assert (St5 : steps [mkr (mkinsn OP_mul (Some (p_var st4)) (Some x) (Some (p_var st3))) 0 0] s4 (put s4 (p_var st4) (wrap (k * inc_of v)))).
    { eapply binary_step; [reflexivity|reflexivity|exact Gx4|exact Gc4|apply (c_bin _ HM BMul); [discriminate|discriminate|reflexivity]|lia]. }
    set (s5 := put s4 (p_var st4) (wrap (k * inc_of v))) in *. assert (Af5 : after st4 s4 s5 (s_world s4)) by (apply put_go; lia).
    assert (Af35 : after st3 s3 s5 (s_world s3)) by (eapply (after_go st3 st4); [lia|exact Af4|exact Af5]).
    assert (Af25 : after st2 s2 s5 w2) by (eapply (after_go st2 st3); [lia|exact Af3|]; rewrite <- (proj1 (proj2 Af3)); exact Af35).
    assert (Gy5 : get s5 y0 = Some u).
    { rewrite <- Gy. eapply after_get; [exact G2|exact Af25|]. intros Q. destruct (Gg Q) as (x0 & -> & Gx0). cbn [fine_mix] in Fm. rewrite Gx0 in Fm. cbn in Fm.
      rewrite (proj1 (proj2 Af2)). eapply (no_calls_world find_constant (look ce) find_func M V goff (s_env s1)); [|exact Fm]. eapply ceval_ext; [| |exact Ee]; [apply (value_look ce st1); assumption|eapply size_look; eassumption]. }
    assert (Gz5 : get s5 (p_var st4) = Some (wrap (k * inc_of v))) by (apply (put_get M V goff nv); auto; lia).
    assert (St6 : steps [mkr (mkinsn (opc o) (Some (p_var st7)) (Some y0) (Some (p_var st4))) 0 0] s5 (put s5 (p_var st7) r)).
    { eapply binary_step; [destruct o; try discriminate; reflexivity|reflexivity|exact Gy5|exact Gz5|apply (c_bin _ HM); [destruct o; discriminate|destruct o; discriminate|exact Cb]|lia]. }
    set (s6 := put s5 (p_var st7) r) in *. assert (Af6 : after st7 s5 s6 (s_world s5)) by (apply put_go; lia).
    assert (Af26 : after st2 s2 s6 w2) by (eapply (after_go st2 st7); [lia|exact Af25|]; rewrite <- (proj1 (proj2 Af25)); exact Af6).
    destruct (New E s6 z r E' w') as (s7 & St7 & Ha7 & Hw7 & R7).
    { reflexivity. } { eapply rel_after; [|exact R2|exact Af26]. eapply sco_mono; [exact Sc1|lia]. }
    { destruct z as [z|]; [|exact I]. rewrite <- Gz. transitivity (get s2 a).
      - eapply after_get; [|exact Af26|]; (destruct l as [x0|x0 i]; [destruct Pl; discriminate|]); [right; lia|]. rewrite Hglob by lia. discriminate.
      - eapply after_get; [|exact Af2|reflexivity]. destruct l as [x0|x0 i]; [destruct Pl; discriminate|right; lia]. }
    { apply (put_get M V goff nv); auto; lia. }
    { rewrite (proj1 (proj2 Af26)). exact Ls. }
    exists s7. split; [|auto]. eapply leads_trans; [exact Le1|]. eapply leads_trans; [eapply adds_go; [exact L1|exact A2|exact CO2|exact St2]|].
    eapply leads_trans; [exact Le3|]. eapply adds_go; [exact L3|exact A|exact CO|].
    change (steps ([mkr (mkinsn OP_load_constant (Some (p_var st3)) None None) 0 0] ++ [mkr (mkinsn OP_mul (Some (p_var st4)) (Some x) (Some (p_var st3))) 0 0] ++ [mkr (mkinsn (opc o) (Some (p_var st7)) (Some y0) (Some (p_var st4))) 0 0] ++ is10) s3 s7).
    eapply steps_app; [exact St4|]. eapply steps_app; [exact St5|]. eapply steps_app; [exact St6|exact St7].
  Qed.

  Lemma goes_impl cs cs' (R R' : env -> world -> env -> world -> Prop) st b st' b' : goes cs cs' R st b st' b' -> (forall E w E' w', R' E w E' w' -> R E w E' w') -> goes cs cs' R' st b st' b'.
  Proof. intros (A & B & C & D & H) I. repeat (split; [assumption|]). intros O E s E' w' HO Cl Ha Hr Hx. eapply H; eauto. Qed.
  Lemma ltokens_eq l : ltokens l = (T_identifier, lname l) :: ltail l.
  Proof. destruct l; reflexivity. Qed.
  Lemma plain_token t w r : match t with T_open_square | T_dot | T_arrow => false | _ => true end = true -> plain_next ((t, w) :: r).
  Proof. intros H. unfold plain_next, peek, lex_peek. destruct t; try discriminate; repeat split. Qed.
  Lemma assign_ok ce n p prefix ts t w r st b ts' st' b' : wfs st b -> sco st (c_scopes ce) -> pgram p -> fine_simple (ctypes (c_scopes ce)) p = true -> stopper t = true ->
    match p with Pre l o => prefix = Some (opc o) /\ ts = ltokens l | _ => prefix = None /\ ts = ptokens p end ->
    read_assignment n ce prefix (ts ++ (t, w) :: r) st b = Some (ts', st', b') ->
    ts' = (t, w) :: r /\ goes (c_scopes ce) (c_scopes ce) (assigns p) st b st' b' /\ (flat_simple p = true -> b' = b).
  Proof.
    intros W Sc G Fi St Hp H.
    assert (Pc : exists l rest, ts ++ (t, w) :: r = (T_identifier, lname l) :: ltail l ++ rest /\ plain_next rest /\ lgram l /\ fine_lval (ctypes (c_scopes ce)) l = true /\
      match p with
      | Assign l' e => l' = l /\ prefix = None /\ rest = (T_assign, []) :: rtokens e ++ (t, w) :: r
      | Update l' o e => l' = l /\ prefix = None /\ rest = (asg_token o, []) :: rtokens e ++ (t, w) :: r
      | Post l' o => l' = l /\ prefix = None /\ rest = (step_token o, []) :: (t, w) :: r
      | Pre l' o => l' = l /\ prefix = Some (opc o) /\ rest = (t, w) :: r
      end).
    { destruct p as [l e|l o e|l o|l o]; destruct Hp as [-> ->]; cbn [ptokens pgram StmtSpec.fine_simple] in *; repeat (rewrite andb_true_iff in Fi); exists l; eexists;
        rewrite ?ltokens_eq; cbn [List.app]; rewrite <- ?app_assoc; cbn [List.app]; (split; [reflexivity|]); (split; [apply plain_token|split; [apply G|split; [apply Fi|auto]]]).
      - reflexivity. - destruct G as (_ & G & _). destruct o; try discriminate; reflexivity. - destruct G as (_ & [->| ->]); reflexivity. - destruct t; try discriminate; reflexivity. }
    destruct Pc as (l & rest & Et & Pn & Gl & Fl & Sh). rewrite Et in H. clear Hp Et. cbn [StmtParse.read_assignment] in H. destruct (look ce (lname l)) as [v|] eqn:Hv; [|discriminate].
    destruct (opstack_push (vi_id v) st) as [st0|] eqn:E0; [|discriminate]. destruct (rsubs ce n v (get_size v) false (ltail l ++ rest) st0 b) as [[[[[ts1 st1] b1] size] ref]|] eqn:E1; [|discriminate].
    destruct (lhs_ok ce n l v rest st st0 b ts1 st1 b1 size ref W Sc Gl Fl Hv Pn E0 E1) as (-> & Fr & Fb & P & Cu & Hr & a & S & Ha & Run).
    pose proof (fr_var _ _ _ _ _ Fr) as LV. assert (L1 : (b1 < p_blk st1)%nat) by apply (fr_lt _ _ _ _ _ Fr (ws_b _ _ W)).
    assert (W1 : wfs st1 b1) by (eapply wfs_chg; [exact W|eapply chg_frame; [exact Fr|exact P]|exact L1]). assert (Sc1 : sco st1 (c_scopes ce)) by (eapply sco_mono; [exact Sc|lia]).
    destruct (peek T_open_bracket rest) eqn:Pb; [discriminate|]. fold (inc_of v) in H. cbv zeta in H.
    assert (StepCase : forall o rest0, (o = BAdd \/ o = BSub) -> fine_step gtype (ctypes (c_scopes ce)) l = true ->
      (do (t, st) <- old_value lim ref size b1 st1;
       do (c, st) <- require_var lim st;
       do (y, st) <- opstack_pop (add_insn b1 OP_load_constant (Some c) None None 0 0 (set_init c (inc_of v) st));
       do (d, st) <- require_var lim st;
       Some (rest0, new_value ref size t d b1 (add_insn b1 (opc o) (Some d) (Some y) (Some c) 0 0 st), b1)) = Some (ts', st', b') ->
      ts' = rest0 /\ goes (c_scopes ce) (c_scopes ce) (assigns (Post l o)) st b st' b' /\ (flat_lval l = true -> b' = b)).
    { intros o rest0 Ho Fs Q. destruct (old_value lim ref size b1 st1) as [[t2 st2]|] eqn:E2; [|discriminate]. destruct (require_var lim st2) as [[c st3]|] eqn:E3; [|discriminate].
      destruct (opstack_pop _) as [[y st5]|] eqn:E5; [|discriminate]. destruct (require_var lim st5) as [[d st6]|] eqn:E6; [|discriminate]. apply some_inj in Q. injection Q as <- <- <-.
      split; [reflexivity|]. split; [|exact Fb]. eapply step_ok; eauto. }
    destruct p as [l' e|l' o e|l' o|l' o]; cbn [StmtSpec.fine_simple pgram flat_simple] in *; destruct Sh as (-> & -> & ->).
    - cbn [update_op] in H. change (lex_expect T_assign ((T_assign, @nil Z) :: rtokens e ++ (t, w) :: r)) with (Some (rtokens e ++ (t, w) :: r)) in H. cbn iota in H.
      destruct (read_expr find_constant (look ce) find_func special lim n _ st1 b1) as [[[ts2 st2] b2]|] eqn:E2; [|discriminate].
      destruct (read_ternary find_constant (look ce) find_func special lim n ts2 st2 b2) as [[[ts3 st3] b3]|] eqn:E3; [|discriminate].
      apply andb_true_iff in Fi. destruct Fi as [_ Fe]. destruct (ev_full ce n e t w r st1 b1 ts2 st2 b2 ts3 st3 b3 W1 Sc1 (proj2 G) Fe St E2 E3) as [-> Ev].
      destruct (opstack_pop st3) as [[z0 st4]|] eqn:E4; [|discriminate]. destruct (opstack_pop st4) as [[y st5]|] eqn:E5; [|discriminate]. apply some_inj in H. injection H as <- <- <-.
      split; [reflexivity|]. split; [eapply plain_ok; eauto|]. rewrite andb_true_iff. intros [Q1 Q2]. transitivity b1; [apply Ev; exact Q2|apply Fb; exact Q1].
    - rewrite !andb_true_iff in Fi. destruct Fi as [[[[_ Fs] Fm] Nc] Fe]. destruct G as (_ & Ho & Ge).
      assert (Hu : update_op ((asg_token o, @nil Z) :: rtokens e ++ (t, w) :: r) = Some (opc o, false, rtokens e ++ (t, w) :: r)) by (destruct o; try discriminate; reflexivity). rewrite Hu in H.
      destruct (old_value lim ref size b1 st1) as [[t2 st2]|] eqn:E2; [|discriminate].
      destruct (old_ok ce l v size ref st1 b1 t2 st2 a (p_stack st) W1 Sc1 (fine_lval_name _ _ Fl) Hv Hr Ha S E2) as (_ & is2 & y0 & A2 & P2 & _).
      destruct (read_expr find_constant (look ce) find_func special lim n _ st2 b1) as [[[ts3 st3] b3]|] eqn:E3; [|discriminate].
      destruct (ev_expr ce n e t w r st2 b1 ts3 st3 b3) as [-> Ev]; auto. { eapply wfs_chg; [exact W1|eapply chg_adds; eauto|]. rewrite (ad_blk _ _ _ _ A2). exact L1. } { eapply sco_mono; [exact Sc1|apply (ad_var _ _ _ _ A2)]. }
      destruct (load_constant lim (inc_of v) b3 st3) as [st4|] eqn:E4; [|discriminate]. destruct (binary_op lim OP_mul b3 st4) as [st5|] eqn:E5; [|discriminate].
      destruct (opstack_pop st5) as [[z0 st6]|] eqn:E6; [|discriminate]. destruct (opstack_pop st6) as [[y st7]|] eqn:E7; [|discriminate]. destruct (require_var lim st7) as [[d st8]|] eqn:E8; [|discriminate].
      apply some_inj in H. injection H as <- <- <-. split; [reflexivity|]. split; [eapply update_ok; eauto|]. rewrite andb_true_iff. intros [Q1 Q2]. transitivity b1; [apply Ev; exact Q2|apply Fb; exact Q1].
    - apply andb_true_iff in Fi. destruct Fi as [_ Fs]. destruct G as [_ Ho].
      assert (Hu : update_op ((step_token o, @nil Z) :: (t, w) :: r) = Some (opc o, true, (t, w) :: r)) by (destruct Ho as [->| ->]; reflexivity). rewrite Hu in H.
      apply (StepCase o ((t, w) :: r) Ho Fs H).
    - apply andb_true_iff in Fi. destruct Fi as [_ Fs]. destruct G as [_ Ho].
      assert (Hu : update_op ((t, w) :: r) = None) by (destruct t; try discriminate; reflexivity). rewrite Hu in H.
      destruct (StepCase o ((t, w) :: r) Ho Fs H) as (Q1 & Q2 & Q3). split; [exact Q1|]. split; [|exact Q3]. eapply goes_impl; [exact Q2|]. intros E w0 E' w' As. inversion As; subst. assumption.
  Qed.

  (** ** f(...); *)
  Lemma call_ok ce n f k args rest st b ts1 st1 b1 l : wfs st b -> sco st (c_scopes ce) -> rgram 3 (RCall f args) -> fine_expr (ctypes (c_scopes ce)) (RCall f args) = true -> find_func f = Some k ->
    read_args find_constant (look ce) find_func special lim n [] (comma_separated (map rtokens args) ++ (T_close_bracket, []) :: rest) st b = Some (ts1, st1, b1, l) ->
    ts1 = rest /\ goes (c_scopes ce) (c_scopes ce) (fun E w E' w' => E' = E /\ exists v, cexp E (RCall f args) w v w') st b (add_insn b1 OP_call None None None 0 k (push_args b1 l st1)) b1.
  Proof.
    intros W Sc G Fi Hf H. destruct (fine_look ce st _ Sc Fi) as [F1 F2]. cbn [fine] in F1. rewrite !andb_true_iff in F1. destruct F1 as [_ Fa]. unfold settled in F2. cbn [no_calls no_globals orb] in F2. rewrite forallb_forall in Fa, F2.
    destruct (all_moves find_constant (look ce) find_func special lim n) as (_ & _ & Mv & _). destruct (Mv _ _ _ _ _ _ _ _ H) as [P Cu].
    assert (D : forall e0, ts1 = rest /\ did_args find_constant (look ce) find_func M V goff place exit void F (p_var st) e0 args st b st1 b1 l).
    { intros e0. destruct (args_ok find_constant (look ce) find_func lim M V goff place exit void F (p_var st) e0) with (special := special) (N := n) (es := args) (l := @nil nat) (n := n) (rest := rest) (st := st) (b := b) (ts' := ts1) (st' := st1) (b' := b1) (l' := l) as (Q & vs & -> & D); auto.
      - intros v Hv. apply Hinit. pose proof (ws_var _ _ W). lia.
      - intros v Hv. apply Hglob. pose proof (ws_var _ _ W). lia.
      - intros x v Q. apply (look_var ce st x v Sc Q).
      - intros x v Q. apply (look_var ce st x v Sc Q).
      - apply (full_ok find_constant (look ce) find_func lim M V goff place exit void F (p_var st) e0); auto.
        + intros v Hv. apply Hinit. pose proof (ws_var _ _ W). lia.
        + intros v Hv. apply Hglob. pose proof (ws_var _ _ W). lia.
        + apply opOK_all; auto. apply (ws_var _ _ W).
      - intros e He. split; [|auto]. cbn [rgram] in G. clear -G He. induction args as [|a0 args IH]; [destruct He|]. cbn [fold_right] in G. destruct He as [<-|He]; [apply G|apply IH; [apply G|exact He]].
      - apply wfs_wf. exact W. }
    split; [apply (D (fun _ => None))|]. destruct (D (fun _ => None)) as (_ & Fr & _ & _ & Gs & _).
    assert (L1 : (b1 < p_blk st1)%nat) by apply (fr_lt _ _ _ _ _ Fr (ws_b _ _ W)).
    destruct (push_args_adds b1 l st1) as (A1 & S1 & N1). pose proof (adds_insn b1 OP_call None None None 0 k (push_args b1 l st1)) as A2. set (st3 := add_insn b1 OP_call _ _ _ _ _ _) in *.
    assert (PP : pl st1 st3). { eapply pl_trans; [|apply pl_insn]. intros c. clear. revert st1. induction l as [|v l IH]; intros st1; cbn [push_args]; [lia|]. eapply Nat.le_trans; [|apply IH]. apply pl_insn. }
    clearbody st3. pose proof (adds_trans _ _ _ _ _ _ A1 A2) as A. destruct (then_adds st b st1 b1 _ st3 W Fr P A PP Cu) as (B1 & B2 & B3 & B4 & B5). split; [exact B1|]. split; [exact B2|]. split; [exact B3|]. split; [exact B4|].
    intros O E s E' w' CO Cl Ha R (-> & r & Ec). destruct (B5 O CO Cl) as (O' & CO1 & Cl1). destruct (D (s_env s)) as (_ & _ & _ & _ & _ & Ev).
    assert (Ec' : ceval (lookup find_constant (look ce) V M goff (s_env s)) (element_size (look ce)) (m_read M) (do_call find_func M) (RCall f args) (s_world s) r w').
    { eapply ceval_ext; [| |exact Ec]; [apply (value_look ce st); assumption|eapply size_look; eassumption]. }
    inversion Ec' as [| | | | | | | | | | | | |f' es' w0 xs w1 r' w2 Es (k' & Hk & Hcall)]; subst. assert (k' = k) by congruence. subst k'.
    destruct (Ev (owns_chg _ _ _ _ _ _ CO1 Cl1 Fr eq_refl (ws_b _ _ W)) s xs w1 Ha (fun u _ => eq_refl) Es) as (s1 & L2 & Af & Gx). destruct (pushes_steps M V goff place l xs s1 Gx) as (s2 & St & Q1 & Q2 & Q3).
    rewrite (proj1 Af) in Q1. cbn [List.app] in Q1. eexists. split; [|split; [|split]].
    - eapply leads_trans; [exact L2|]. eapply adds_go; [exact L1|exact A|exact CO|]. eapply steps_app; [exact St|]. econstructor; [|constructor]. apply s_call. rewrite Q1, Q2, (proj1 (proj2 Af)). exact Hcall.
    - reflexivity.
    - reflexivity.
    - cbn [s_env]. rewrite Q3. eapply rel_after; [exact Sc|exact R|exact Af].
  Qed.

  (** ** Declarations. *)
  Variable L : list vinfo.
  Hypothesis HL : forall v, In v L -> no_storage V (vi_id v) = (vi_array v =? 0).
  Definition arrays (l : list vinfo) : list vinfo := filter (fun v => negb (vi_array v =? 0)) (rev l).
  Notation fine_decls := (fine_decls (is_constant find_constant) gtype special).
  Notation declares := (declares find_constant gtype gget (m_read M) (do_call find_func M)).
  Notation read_declarators := (read_declarators find_constant find_global find_func special lim).
  Lemma read_stars_ok k ts : peek T_asterisk ts = false -> read_stars (repeat (tok T_asterisk) k ++ ts) = (Z.of_nat k, ts).
  Proof.
    intros H. induction k as [|k IH].
    - cbn [repeat List.app]. destruct ts as [|[t w] r]; [reflexivity|]. destruct t; try reflexivity. discriminate H.
    - cbn [repeat List.app]. unfold tok at 1. cbn [read_stars]. rewrite IH. f_equal. lia.
  Qed.
  Lemma declarator_ok id base d more ts' x v : dgram d ->
    match d_array d with Some n => 0 < literal_value n < 2 ^ 31 | None => True end -> peek T_open_square (match d_init d with Some e => tok T_assign :: rtokens e | None => [] end ++ more) = false ->
    read_declarator id base (dtokens d ++ more) = Some (ts', x, v) ->
    ts' = match d_init d with Some e => tok T_assign :: rtokens e | None => [] end ++ more /\ x = d_name d /\ vi_id v = id /\ vt v = decl_type base d.
  Proof.
    intros [G _] Fa Pm H. unfold dtokens in H. unfold read_declarator in H. rewrite <- app_assoc in H. cbn [List.app] in H. rewrite read_stars_ok in H by reflexivity. unfold ident in H at 1. rewrite <- app_assoc in H.
    set (more' := match d_init d with Some e => tok T_assign :: rtokens e | None => [] end ++ more) in *.
    destruct (d_array d) as [n|] eqn:Ed.
    - unfold tok in H at 1. cbn [List.app] in H. match type of H with match lex_accept ?a (?b :: ?c) with _ => _ end = _ => change (lex_accept a (b :: c)) with (Some c) in H end. cbn iota in H.
      destruct (_ <? 10)%nat; [|discriminate].
      match type of H with match lex_expect ?a (?b :: ?c) with _ => _ end = _ => change (lex_expect a (b :: c)) with (Some c) in H end. cbn iota in H. apply some_inj in H. injection H as <- <- <-.
      split; [reflexivity|]. split; [reflexivity|]. split; [reflexivity|]. unfold vt, decl_type. cbn. rewrite Ed. rewrite read_const by exact G. f_equal. apply wrap_id. unfold is_i32. lia.
    - cbn [List.app] in H. rewrite (accept_false _ _ Pm) in H. apply some_inj in H. injection H as <- <- <-. split; [reflexivity|]. split; [reflexivity|]. split; [reflexivity|]. unfold vt, decl_type. cbn. rewrite Ed. reflexivity.
  Qed.

  Lemma ids_declare x v cs u : In u (ids (declare x v cs)) -> u = vi_id v \/ In u (ids cs).
  Proof.
    destruct cs as [|l r]; [intros []|]. unfold ids. cbn [declare concat]. rewrite !map_app. cbn [map snd]. rewrite !in_app_iff. cbn [In]. intuition.
  Qed.
  Lemma sco_declare st st' x v cs : sco st cs -> vi_id v = p_var st -> (p_var st < p_var st')%nat -> (nv <= p_var st)%nat -> 0 <= vi_ptr v -> find_constant x = None -> sco st' (declare x v cs).
  Proof.
    intros [A B] Hi Lv Ln Hp Hc. assert (Fresh : ~ In (p_var st) (ids cs)). { intros I. unfold ids in I. apply in_map_iff in I. destruct I as (p & E & I). destruct (A p I) as (_ & Q & _). lia. }
    destruct cs as [|l r]; [constructor; [intros p []|constructor]|]. unfold ids in *. cbn [declare concat] in *. constructor.
    - intros p Hp'. cbn [concat] in Hp'. rewrite !in_app_iff in Hp'. cbn [In] in Hp'. destruct Hp' as [[Hl|[<-|[]]]|Hr].
      + destruct (A p) as (? & ? & ? & ?); [rewrite in_app_iff; auto|]. repeat split; auto. lia.
      + cbn [snd]. rewrite Hi. repeat split; auto. 
      + destruct (A p) as (? & ? & ? & ?); [rewrite in_app_iff; auto|]. repeat split; auto. lia.
    - unfold ids. cbn [concat]. rewrite !map_app in *. cbn [map snd]. rewrite <- app_assoc. cbn [List.app]. eapply Permutation_NoDup; [apply Permutation_middle|]. constructor; [rewrite Hi; exact Fresh|exact B].
  Qed.
  Lemma ctypes_declare x v cs : ctypes (declare x v cs) = declare x (vt v) (ctypes cs).
  Proof. destruct cs as [|l r]; [reflexivity|]. unfold ctypes. cbn [declare map]. rewrite map_app. reflexivity. Qed.
  Lemma rel_declare cs E s s' x v o : rel cs E s -> (forall u, In u (ids cs) -> s' u = s u) -> s' (vi_id v) = o -> rel (declare x v cs) (declare x (vt v, o) E) s'.
  Proof.
    intros R H Ho. apply (rel_ext _ _ _ s') in R; [|exact H]. destruct R as [|l m cs E Hl R]; [constructor|]. cbn [declare]. constructor; [|exact R]. apply Forall2_app; [exact Hl|]. constructor; [|constructor]. auto.
  Qed.
  Lemma declare_tl {A} x (a : A) E : tl (declare x a E) = tl E.
  Proof. destruct E; reflexivity. Qed.
  Lemma sco_ids st cs u : sco st cs -> In u (ids cs) -> (u < p_var st)%nat.
  Proof. intros [A _] I. unfold ids in I. apply in_map_iff in I. destruct I as (p & <- & I). apply (A p I). Qed.
  Lemma comma_cons d ds more : comma_separated (map dtokens (d :: ds)) ++ more = dtokens d ++ match ds with [] => more | _ => tok T_comma :: comma_separated (map dtokens ds) ++ more end.
  Proof. destruct ds as [|d' ds]; cbn [map comma_separated flat_map List.app]; rewrite <- !app_assoc; cbn [List.app]; rewrite <- ?app_assoc; reflexivity. Qed.
  Notation one_declares := (fun base d E w E' w' => declares base [d] E w E' w').
  Lemma declares_cons base d ds E w E' w' : declares base (d :: ds) E w E' w' -> exists E1 w1, declares base [d] E w E1 w1 /\ declares base ds E1 w1 E' w'.
  Proof.
    intros H. inversion H; subst; clear H; do 2 eexists; (split; [|eassumption]).
    - apply D_plain; auto. constructor. - eapply D_init; eauto. constructor. - eapply D_array; eauto. constructor.
  Qed.
  (** one declarator *)
  Lemma one_ok base first d t w r n ce st b st1 id ts2 x v ts3 st3 b3 : stopper t = true -> dgram d -> wfs st b -> sco st (c_scopes ce) -> fine_decls base first [d] (ctypes (c_scopes ce)) <> None ->
    require_var lim st = Some (id, st1) -> read_declarator id base (dtokens d ++ (t, w) :: r) = Some (ts2, x, v) -> let ce' := mkce (declare x v (c_scopes ce)) (v :: c_locals ce) in
    (match lex_accept T_assign ts2 with
     | Some ts =>
         do (ts, st, b) <- read_expr find_constant (look ce') find_func special lim n ts (add_insn b OP_allocat (Some id) None None 0 0 st1) b;
         do (ts, st, b) <- (if first : bool then read_ternary find_constant (look ce') find_func special lim n ts st b else Some (ts, st, b));
         do (z, st) <- opstack_pop st;
         Some (ts, add_insn b OP_assign (Some id) (Some z) None 0 0 st, b)
     | None => Some (ts2, add_insn b OP_allocat (Some id) None None 0 0 st1, b)
     end) = Some (ts3, st3, b3) ->
    ts3 = (t, w) :: r /\ sco st3 (c_scopes ce') /\ x = d_name d /\ vt v = decl_type base d /\
    chg (eq b) st st3 /\ (b3 = b \/ (p_blk st <= b3)%nat) /\ (b3 < p_blk st3)%nat /\ (b3 = b \/ (0 < p_pred st3 b3)%nat) /\
    length (array_places [d]) = length (arrays [v]) /\
    (In v L -> array_places [d] = map (fun v => place (vi_id v)) (arrays [v]) -> goes (c_scopes ce) (c_scopes ce') (one_declares base d) st b st3 b3).
  Proof.
    intros St G W Sc Fi E1 E2 ce' H. destruct (chg_require _ (eq b) _ _ _ E1) as (C1 & -> & V1 & K1 & D1 & _). pose proof (adds_require b _ _ _ E1) as A1.
    cbn [StmtSpec.fine_decls] in Fi. set (T := declare (d_name d) (decl_type base d) (ctypes (c_scopes ce))) in *.
    assert (Fi' : match d_array d, d_init d with
           | None, None => true
           | None, Some e => wide (decl_type base d) && (first || no_cond e) && fine_expr T e
           | Some n, None => (0 <? t_array (decl_type base d)) && (t_array (decl_type base d) <? 2 ^ 31)
           | Some _, Some _ => false end = true /\ find_constant (d_name d) = None).
    { unfold is_constant in Fi. destruct (find_constant (d_name d)); [exfalso; apply Fi; reflexivity|]. cbn [negb andb] in Fi. split; [|reflexivity]. destruct (match d_array d with Some _ => _ | None => _ end); [reflexivity|congruence]. }
    clear Fi. destruct Fi' as [Fi' Hcn].
    destruct (declarator_ok (p_var st) base d ((t, w) :: r) ts2 x v G) as (-> & -> & Hid & Ht).
    { destruct (d_array d) as [m|] eqn:Q; [|exact I]. destruct (d_init d); [discriminate|]. unfold decl_type in Fi'. rewrite Q in Fi'. cbn [t_array] in Fi'. apply andb_true_iff in Fi'. rewrite !Z.ltb_lt in Fi'. exact Fi'. }
    { destruct (d_init d); [reflexivity|]. destruct t; try discriminate; reflexivity. }
    { exact E2. }
    pose proof (adds_insn b OP_allocat (Some (p_var st)) None None 0 0 st1) as A2. set (st2 := add_insn b OP_allocat _ _ _ _ _ _) in *. assert (V2 : p_var st2 = S (p_var st)) by exact V1.
    assert (P2 : pl st1 st2) by apply pl_insn. clearbody st2. pose proof (adds_trans _ _ _ _ _ _ A1 A2) as A12. cbn [List.app] in A12. assert (P12 : pl st st2) by (eapply pl_trans; [apply (ch_pred _ _ _ C1)|exact P2]).
    pose proof (adds_frame _ _ _ _ (ws_b _ _ W) A12) as Fr2. assert (C2 : chg (eq b) st st2) by (eapply chg_adds; [apply W|exact A12|exact P12]). pose proof (ws_var _ _ W) as LN.
    assert (W2 : wfs st2 b) by (eapply wfs_chg; [exact W|exact C2|apply (fr_lt _ _ _ _ _ Fr2); apply W]).
    assert (Hp : 0 <= vi_ptr v). { unfold vt in Ht. injection Ht as -> _ _. unfold decl_type. cbn. lia. }
    assert (Sc2 : sco st2 (c_scopes ce')) by (apply (sco_declare st); auto; lia).
    assert (Ary : vi_array v =? 0 = match d_array d with Some _ => false | None => true end).
    { unfold vt in Ht. injection Ht as _ Q _. rewrite Q. unfold decl_type. cbn. destruct (d_array d) as [m|] eqn:Q1; [|reflexivity]. destruct (d_init d); [discriminate|]. unfold decl_type in Fi'. rewrite Q1 in Fi'. cbn [t_array] in Fi'.
      apply andb_true_iff in Fi'. rewrite !Z.ltb_lt in Fi'. apply Z.eqb_neq. lia. }
    assert (Nar : length (array_places [d]) = length (arrays [v])).
    { unfold array_places, arrays. cbn [flat_map rev List.app filter]. rewrite Ary. destruct (d_array d); reflexivity. }
    (* the declaration itself *)
    assert (Go : forall O E s, In v L -> array_places [d] = map (fun v => place (vi_id v)) (arrays [v]) -> chg O st2 F -> s_args s = [] -> rel (c_scopes ce) E (s_env s) ->
      exists s2, leads b (len st b) s b (len st2 b) s2 /\ s_args s2 = [] /\ s_world s2 = s_world s /\ rel (c_scopes ce) E (s_env s2) /\
        rel (c_scopes ce') (declare (d_name d) (decl_type base d, match d_array d with Some _ => Some (d_place d) | None => None end) E) (s_env s2)).
    { intros O E s Hl Hpl CO Ha R. assert (Gv : v_global V (p_var st) = false) by (apply Hglob; lia).
      set (val := match d_array d with Some _ => Some (d_place d) | None => None end). exists (mks (Cfg.upd (s_env s) (p_var st) val) (s_world s) [] None).
      assert (Same : forall u, In u (ids (c_scopes ce)) -> Cfg.upd (s_env s) (p_var st) val u = s_env s u).
      { intros u Hu. pose proof (sco_ids _ _ _ Sc Hu). unfold Cfg.upd. destruct (Nat.eqb_spec u (p_var st)); [lia|reflexivity]. }
      split; [|split; [reflexivity|split; [reflexivity|split; [eapply rel_ext; eauto|]]]].
      - eapply adds_go; [apply W|exact A12|exact CO|]. econstructor; [|constructor]. pose proof (HL v Hl) as Ns. rewrite Hid, Ary in Ns. unfold val. destruct (d_array d) as [m|] eqn:Q.
        + apply s_storage; auto. unfold AllocSpec.set. rewrite Gv. f_equal. unfold array_places, arrays in Hpl. cbn [flat_map rev List.app filter] in Hpl. rewrite Q, Ary in Hpl. cbn in Hpl. injection Hpl as ->. rewrite Hid. reflexivity.
        + apply s_decl; auto. unfold AllocSpec.set. rewrite Gv. reflexivity.
      - cbn [s_env c_scopes ce']. rewrite <- Ht. eapply rel_declare; [exact R|exact Same|]. rewrite Hid. unfold Cfg.upd. rewrite Nat.eqb_refl. reflexivity. }
    destruct (d_init d) as [e|] eqn:Ei.
    - destruct (d_array d) as [m|] eqn:Ea; [discriminate|]. rewrite !andb_true_iff in Fi'. destruct Fi' as [[Wd Nc] Fe]. unfold tok in H at 1. cbn [List.app] in H.
      match type of H with match lex_accept ?a (?b :: ?c) with _ => _ end = _ => change (lex_accept a (b :: c)) with (Some c) in H end. cbn iota in H.
      destruct (read_expr find_constant (look ce') find_func special lim n _ st2 b) as [[[ts4 st4] b4]|] eqn:E4; [|discriminate].
      assert (Fe' : fine_expr (ctypes (c_scopes ce')) e = true). { cbn [c_scopes ce']. rewrite ctypes_declare, Ht. exact Fe. }
      assert (Ge : rgram 3 e). { destruct G as [_ G]. rewrite Ei in G. exact G. }
      assert (Q : exists ts5 st5 b5 z st6, (if first : bool then read_ternary find_constant (look ce') find_func special lim n ts4 st4 b4 else Some (ts4, st4, b4)) = Some (ts5, st5, b5) /\ opstack_pop st5 = Some (z, st6) /\
        ts3 = ts5 /\ b3 = b5 /\ st3 = add_insn b5 OP_assign (Some (p_var st)) (Some z) None 0 0 st6).
      { destruct (if first : bool then _ else _) as [[[ts5 st5] b5]|]; [|discriminate]. destruct (opstack_pop st5) as [[z st6]|] eqn:E6; [|discriminate]. apply some_inj in H. injection H as <- <- <-. do 5 eexists. split; [reflexivity|]. split; [exact E6|]. auto. }
      destruct Q as (ts5 & st5 & b5 & z & st6 & E5 & E6 & -> & -> & ->). clear H.
      assert (Ev : ts5 = (t, w) :: r /\ evals ce' e st2 b st5 b5).
      { destruct first; [eapply ev_full; eauto|]. injection E5 as <- <- <-. cbn [orb] in Nc. eapply ev_expr; eauto. }
      destruct Ev as [-> (Fr5 & _ & P5 & Cu5 & y & S5 & G5 & Ev)]. split; [reflexivity|].
      destruct (chg_pop (eq b) _ _ _ E6) as (C6 & S6 & K6 & V6 & D6). rewrite S5 in S6. injection S6 as <- S6. pose proof (adds_pop b5 _ _ _ E6) as A6.
      pose proof (adds_insn b5 OP_assign (Some (p_var st)) (Some y) None 0 0 st6) as A7. set (st7 := add_insn b5 OP_assign _ _ _ _ _ _) in *. assert (V7 : p_var st7 = p_var st5) by exact V6. assert (P7 : pl st6 st7) by apply pl_insn. clearbody st7.
      pose proof (adds_trans _ _ _ _ _ _ A6 A7) as A57. cbn [List.app] in A57. assert (P57 : pl st5 st7) by (eapply pl_trans; [apply (ch_pred _ _ _ C6)|exact P7]). pose proof (fr_var _ _ _ _ _ Fr5) as LV5.
      assert (L5 : (b5 < p_blk st5)%nat) by (apply (fr_lt _ _ _ _ _ Fr5); apply W2).
      destruct (then_adds st b st5 b5 _ st7 W (frames _ _ _ _ _ _ (ws_b _ _ W) Fr2 Fr5) (pl_trans _ _ _ P12 P5) A57 P57 Cu5) as (B1 & B2 & B3 & B4 & B5).
      split; [eapply sco_mono; [exact Sc2|lia]|]. split; [reflexivity|]. split; [exact Ht|]. split; [exact B1|]. split; [exact B2|]. split; [exact B3|]. split; [exact B4|]. split; [exact Nar|].
      intros Hl Hpl. split; [exact B1|]. split; [exact B2|]. split; [exact B3|]. split; [exact B4|]. intros O E s E' w' CO Cl Ha R De.
      destruct (B5 O CO Cl) as (O5 & CO5 & Cl5). destruct (closed_back _ _ _ _ _ _ _ CO5 Cl5 (ws_b _ _ W) Fr2 Fr5 P5) as [[CO2 Cl2] Cl25].
      destruct (Go _ E s Hl Hpl CO2 Ha R) as (s2 & Le2 & Ha2 & Hw2 & R2 & R2').
      inversion De as [|? ? ? ? ? ? ? Qi|d0 ds0 e0 E0 w0 u w1 E2' w2' Q1 Q2 Ee Dn|? ? ? ? ? ? ? ? Qi]; subst; try congruence. inversion Dn; subst; clear Dn. rewrite Ei in Q2. injection Q2 as <-.
      destruct (Ev O5 (declare (d_name d) (decl_type base d, None) E) s2 u w' CO5 Cl25 Ha2 R2') as (s5 & Le5 & Af5 & Gy). { rewrite Hw2. exact Ee. }
      assert (Cv : convert (decl_type base d) u = u). { unfold convert. unfold wide in Wd. rewrite andb_true_iff, orb_true_iff, negb_true_iff in Wd. destruct Wd as [_ [->| Q]]; [reflexivity|]. apply Z.eqb_eq in Q. rewrite Q, andb_false_r. reflexivity. }
      exists (put s5 (p_var st) u). split; [|split; [reflexivity|split; [apply Af5|]]].
      + eapply leads_trans; [exact Le2|]. eapply leads_trans; [exact Le5|]. eapply adds_go; [exact L5|exact A57|exact CO|]. econstructor; [|constructor]. apply s_assign; [apply Af5|]. rewrite Gy. apply (set_temp M V goff nv); auto.
      + cbn [s_env put c_scopes ce']. rewrite Cv, <- Ht. eapply rel_declare; [exact R2| |].
        * intros q Hq. pose proof (sco_ids _ _ _ Sc Hq). unfold put. cbn [s_env]. unfold Cfg.upd. destruct (Nat.eqb_spec q (p_var st)); [lia|]. apply Af5. lia.
        * rewrite Hid. unfold put. cbn [s_env]. unfold Cfg.upd. rewrite Nat.eqb_refl. reflexivity.
    - cbn [List.app] in H. assert (Hn : lex_accept T_assign ((t, w) :: r) = None) by (destruct t; try discriminate; reflexivity). rewrite Hn in H. apply some_inj in H. injection H as <- <- <-.
      split; [reflexivity|]. split; [exact Sc2|]. split; [reflexivity|]. split; [exact Ht|]. split; [exact C2|]. split; [left; reflexivity|]. split; [apply W2|]. split; [left; reflexivity|]. split; [exact Nar|].
      intros Hl Hpl. split; [exact C2|]. split; [left; reflexivity|]. split; [apply W2|]. split; [left; reflexivity|]. intros O E s E' w' CO Cl Ha R De. destruct (Go _ E s Hl Hpl CO Ha R) as (s2 & Le2 & Ha2 & Hw2 & R2 & R2').
      exists s2. split; [exact Le2|]. split; [exact Ha2|].
      inversion De as [|d0 ds0 E0 w0 E2' w2' Q1 Q2 Dn|d0 ds0 e0 E0 w0 u w1 E2' w2' Q1 Q2 Ee Dn|d0 ds0 m E0 w0 E2' w2' Q1 Q2 Dn]; subst; try congruence; inversion Dn; subst; clear Dn; (split; [exact Hw2|]); rewrite Q1 in R2'; exact R2'.
  Qed.
  (** what the first of two pieces owns, and the second *)
  Lemma seq_back O st b st1 b1 st2 o : chg O st2 F -> closed O st b st2 o -> (b < p_blk st)%nat -> chg (eq b) st st1 -> (b1 = b \/ (p_blk st <= b1)%nat) -> (b1 < p_blk st1)%nat ->
    chg (eq b1) st1 st2 -> (forall b2, o = Some b2 -> b2 = b1 \/ (p_blk st1 <= b2)%nat) ->
    chg (fun q => b1 = q \/ O q) st1 F /\ closed (fun q => b1 = q \/ O q) st b st1 (Some b1) /\ closed O st1 b1 st2 o.
  Proof.
    intros C Cl Lb C1 Cu L1 C2 Cu2. pose proof (ch_blk _ _ _ C1). pose proof (ch_blk _ _ _ C2). split; [|split].
    - eapply chg_trans; [exact C2|exact C|]. intros; tauto.
    - intros q [<-|Hq] Lq; [left; reflexivity|]. destruct (Cl q Hq ltac:(lia)) as [Q|Q]; [|right; exact Q]. destruct (Cu2 q Q) as [->|]; [left; reflexivity|lia].
    - intros q Hq Lq. destruct (Cl q Hq Lq) as [Q|[Q1 Q2]]; [left; exact Q|right]. split; [lia|]. intros ->. destruct Cu as [->|]; [congruence|lia].
  Qed.
  Lemma goes_seq cs cs1 cs2 (R1 R2 : env -> world -> env -> world -> Prop) st b st1 b1 st2 b2 : (b < p_blk st)%nat -> goes cs cs1 R1 st b st1 b1 -> goes cs1 cs2 R2 st1 b1 st2 b2 ->
    goes cs cs2 (fun E w E' w' => exists E1 w1, R1 E w E1 w1 /\ R2 E1 w1 E' w') st b st2 b2.
  Proof.
    intros Lb (A1 & A2 & A3 & A4 & A5) (B1 & B2 & B3 & B4 & B5). pose proof (ch_blk _ _ _ A1). split; [|split; [|split; [|split]]].
    - eapply chg_trans; [exact A1|exact B1|]. intros c Hc [<-|<-]; [reflexivity|]. destruct A2; [congruence|lia].
    - destruct B2 as [->|]; [exact A2|right; lia].
    - exact B3.
    - eapply preds; [apply (ch_pred _ _ _ B1)|exact A4|exact B4].
    - intros O E s E' w' CO Cl Ha R (E1 & w1 & H1 & H2).
      destruct (seq_back O st b st1 b1 st2 (Some b2) CO Cl Lb A1 A2 A3 B1) as (CO1 & Cl1 & Cl2). { intros q Q. injection Q as <-. exact B2. }
      destruct (A5 _ E s E1 w1 CO1 Cl1 Ha R H1) as (s1 & L1 & Ha1 & <- & R1'). destruct (B5 O E1 s1 E' w' CO Cl2 Ha1 R1' H2) as (s2 & L2 & Ha2 & Hw2 & R2').
      exists s2. split; [eapply leads_trans; eauto|auto].
  Qed.
  Lemma arrays_app a b : arrays (a ++ b) = arrays b ++ arrays a.
  Proof. unfold arrays. rewrite rev_app_distr, filter_app. reflexivity. Qed.
  Lemma app_split {A} (a b c d : list A) : length a = length c -> a ++ b = c ++ d -> a = c /\ b = d.
  Proof. revert c. induction a as [|x a IH]; intros [|y c] Hl H; try discriminate; [auto|]. cbn in *. injection Hl as Hl. injection H as -> H. destruct (IH c Hl H) as [-> ->]. auto. Qed.
  Lemma decl_ok base ds : forall first n ce st b rest ts' st' b' ce' T', ds <> [] -> Forall dgram ds -> wfs st b -> sco st (c_scopes ce) -> fine_decls base first ds (ctypes (c_scopes ce)) = Some T' ->
    read_declarators n first base ce (comma_separated (map dtokens ds) ++ (T_semicolon, []) :: rest) st b = Some (ts', st', b', ce') ->
    ts' = rest /\ sco st' (c_scopes ce') /\ ctypes (c_scopes ce') = T' /\ tl (c_scopes ce') = tl (c_scopes ce) /\
    chg (eq b) st st' /\ (b' = b \/ (p_blk st <= b')%nat) /\ (b' < p_blk st')%nat /\ (b' = b \/ (0 < p_pred st' b')%nat) /\
    exists new, c_locals ce' = new ++ c_locals ce /\ length (array_places ds) = length (arrays new) /\
      (incl new L -> array_places ds = map (fun v => place (vi_id v)) (arrays new) -> goes (c_scopes ce) (c_scopes ce') (declares base ds) st b st' b').
  Proof.
    induction ds as [|d ds IH]; intros first n ce st b rest ts' st' b' ce' T' Ne G W Sc Fi H; [congruence|]. clear Ne. inversion G as [|? ? Gd Gs]; subst.
    rewrite comma_cons in H. match type of H with context [dtokens d ++ ?m] => remember m as m0 eqn:Hm end. destruct n as [|n]; [discriminate|]. cbn [StmtParse.read_declarators] in H.
    destruct (require_var lim st) as [[id st1]|] eqn:E1; [|discriminate].
    assert (Fd : fine_decls base first [d] (ctypes (c_scopes ce)) <> None /\ fine_decls base false ds (declare (d_name d) (decl_type base d) (ctypes (c_scopes ce))) = Some T').
    { cbn [StmtSpec.fine_decls] in *. destruct (negb _ && _); [split; [discriminate|exact Fi]|discriminate]. }
    clear Fi. destruct Fd as [Fd Fi].
    assert (Tk : exists t w r, m0 = (t, w) :: r /\ stopper t = true /\
      ((ds = [] /\ t = T_semicolon /\ w = [] /\ r = rest) \/ (ds <> [] /\ t = T_comma /\ w = [] /\ r = comma_separated (map dtokens ds) ++ (T_semicolon, []) :: rest))).
    { destruct ds as [|d' ds']; do 3 eexists; (split; [exact Hm|split; [reflexivity|]]); [left; auto|right; split; [discriminate|auto]]. }
    destruct Tk as (t & w & r & Tke & St & Tk). clear Hm. subst m0.
    destruct (read_declarator id base (dtokens d ++ (t, w) :: r)) as [[[ts2 x] v]|] eqn:E2; [|discriminate].
    match type of H with match ?X with Some _ => _ | None => _ end = _ => destruct X as [[[ts3 st3] b3]|] eqn:E3; [|discriminate] end.
    destruct (one_ok base first d t w r n ce st b st1 id ts2 x v ts3 st3 b3 St Gd W Sc Fd E1 E2 E3) as (-> & Sc3 & -> & Hv & C3 & Cu3 & L3 & P3 & Na & Go).
    assert (W3 : wfs st3 b3) by (eapply wfs_chg; eauto). cbn [c_scopes] in Sc3, Go.
    destruct Tk as [(-> & -> & -> & ->)|(Ne & -> & -> & ->)].
    - change (lex_accept T_comma ((T_semicolon, @nil Z) :: rest)) with (@None toks) in H. change (lex_expect T_semicolon ((T_semicolon, @nil Z) :: rest)) with (Some rest) in H. cbn iota in H.
      apply some_inj in H. injection H as <- <- <- <-. cbn [c_scopes c_locals]. cbn [StmtSpec.fine_decls] in Fi. injection Fi as <-.
      split; [reflexivity|]. split; [exact Sc3|]. split; [rewrite ctypes_declare, Hv; reflexivity|]. split; [apply declare_tl|]. repeat (split; [assumption|]).
      exists [v]. split; [reflexivity|]. split; [exact Na|]. intros Hi Hp. apply Go; [apply Hi; left; reflexivity|exact Hp].
    - match type of H with match lex_accept ?a (?b :: ?c) with _ => _ end = _ => change (lex_accept a (b :: c)) with (Some c) in H end. cbn iota in H.
      rewrite <- Hv, <- ctypes_declare in Fi.
      destruct (IH false n (mkce (declare (d_name d) v (c_scopes ce)) (v :: c_locals ce)) _ _ _ _ _ _ _ _ Ne Gs W3 Sc3 Fi H) as (-> & Sc' & Ct & Tl & C' & Cu' & L' & P' & new & Nl & Na' & Go'). cbn [c_scopes c_locals] in *.
      pose proof (ch_blk _ _ _ C3).
      split; [reflexivity|]. split; [exact Sc'|]. split; [exact Ct|]. split; [rewrite Tl; apply declare_tl|]. 
      split. { eapply chg_trans; [exact C3|exact C'|]. intros c Hc [<-|<-]; [reflexivity|]. destruct Cu3; [congruence|lia]. }
      split; [destruct Cu' as [->|]; [exact Cu3|right; lia]|]. split; [exact L'|]. split; [eapply preds; [apply (ch_pred _ _ _ C')|exact P3|exact P']|].
      assert (Ap : array_places (d :: ds) = array_places [d] ++ array_places ds) by (unfold array_places; cbn [flat_map]; rewrite app_nil_r; reflexivity).
      exists (new ++ [v]). split; [rewrite Nl, <- app_assoc; reflexivity|]. rewrite Ap, arrays_app, !app_length, Na, Na'. split; [reflexivity|].
      intros Hi Hp. rewrite map_app in Hp. apply app_split in Hp; [|rewrite map_length; exact Na]. destruct Hp as [Hp1 Hp2].
      eapply goes_impl; [eapply goes_seq; [apply W|apply Go; [apply Hi, in_or_app; right; left; reflexivity|exact Hp1]|apply Go'; [intros q Hq; apply Hi, in_or_app; left; exact Hq|exact Hp2]]|].
      intros E w0 E' w' De. apply declares_cons. exact De.
  Qed.

  (** ** Blocks of a function. *)
  Notation none := (fun _ : nat => False).
  Lemma back1 x X a b : chg (eq x) a b -> chg X b F -> chg (fun q => x = q \/ X q) a F.
  Proof. intros A B. eapply chg_trans; [exact A|exact B|]. tauto. Qed.
  Lemma back0 X a b : chg none a b -> chg X b F -> chg X a F.
  Proof. intros A B. eapply chg_trans; [exact A|exact B|]. tauto. Qed.
  Lemma fw1 b st a x a' : chg (eq b) st a -> chg (eq x) a a' -> x = b \/ (p_blk st <= x)%nat -> chg (eq b) st a'.
  Proof. intros A B C. eapply chg_trans; [exact A|exact B|]. intros c Hc [Q|Q]; subst; [reflexivity|]. destruct C; [congruence|lia]. Qed.
  Lemma fw0 b st a a' : chg (eq b) st a -> chg none a a' -> chg (eq b) st a'.
  Proof. intros A B. eapply chg_trans; [exact A|exact B|]. intros c Hc [Q|[]]. exact Q. Qed.
  Lemma go_next X st b k s : chg X st F -> ~ X b -> (b < p_blk st)%nat -> p_next st b = Some k -> k <> exit -> leads b (len st b) s k 0 (reset s).
  Proof.
    intros C N Lb Hn Hk. destruct (ch_same _ _ _ C b Lb N) as (Q1 & Q2 & _). unfold len. rewrite <- Q1. apply leads_next; [congruence|exact Hk].
  Qed.
  Lemma code_same X st st' b : chg X st st' -> ~ X b -> (b < p_blk st)%nat -> p_code st' b = p_code st b.
  Proof. intros C N Lb. destruct (ch_same _ _ _ C b Lb N) as (Q1 & _). exact Q1. Qed.
  Lemma next_same X st st' b : chg X st st' -> ~ X b -> (b < p_blk st)%nat -> p_next st' b = p_next st b.
  Proof. intros C N Lb. destruct (ch_same _ _ _ C b Lb N) as (_ & Q1 & _). exact Q1. Qed.
  Lemma then_same X st st' b : chg X st st' -> ~ X b -> (b < p_blk st)%nat -> p_then st' b = p_then st b.
  Proof. intros C N Lb. destruct (ch_same _ _ _ C b Lb N) as (_ & _ & Q1 & _). exact Q1. Qed.
  Lemma else_same X st st' b : chg X st st' -> ~ X b -> (b < p_blk st)%nat -> p_else st' b = p_else st b.
  Proof. intros C N Lb. destruct (ch_same _ _ _ C b Lb N) as (_ & _ & _ & Q1). exact Q1. Qed.

  (** ** Conditions. *)
  Definition tests (cs : list (list (text * vinfo))) (R : env -> world -> Z -> world -> Prop) (st : pst) (b : nat) (st' : pst) (b' : nat) : Prop :=
    frame [b] st b st' b' /\ pl st st' /\ (b' = b \/ (0 < p_pred st' b')%nat) /\
    exists v, p_stack st' = v :: p_stack st /\
    forall O E s y w', chg O st' F -> closed O st b st' (Some b') -> s_args s = [] -> rel cs E (s_env s) -> R E (s_world s) y w' ->
      exists s', leads b (len st b) s b' (len st' b') s' /\ after st s s' w' /\ get s' v = Some y.
  Lemma evals_tests ce x st b st' b' : evals ce x st b st' b' -> tests (c_scopes ce) (fun E => cexp E x) st b st' b'.
  Proof. intros (A & _ & P & C & v & S & _ & H). split; [exact A|]. split; [exact P|]. split; [exact C|]. exists v. split; [exact S|exact H]. Qed.
  Lemma const_tests cs c st b st' : wfs st b -> load_constant lim c b st = Some st' -> tests cs (fun E w y w' => y = c /\ w' = w) st b st' b.
  Proof.
    intros W H. destruct (load_constant_adds _ _ _ _ _ H) as (A & S & N & I). split; [apply (adds_frame _ _ _ _ (ws_b _ _ W) A)|]. split; [eapply pl_const; eauto|]. split; [auto|].
    exists (p_var st). split; [exact S|]. intros O E s y w' CO Cl Ha R [-> ->]. exists (put s (p_var st) c). split; [|split; [apply put_go; lia|]].
    - eapply adds_go; [apply W|exact A|exact CO|]. eapply const_step; eauto. apply W.
    - unfold AllocSpec.get. rewrite Hglob by apply W. cbn. unfold Cfg.upd. rewrite Nat.eqb_refl. reflexivity.
  Qed.
  (** the branch at the end of a condition *)
  Lemma branch_ok cs R st k s1 c s2 s3 : wfs st k -> sco st cs -> tests cs R st k s1 c -> chg (eq c) s1 s2 -> p_code s2 = p_code s1 -> p_stack s2 = p_stack s1 -> p_blk s2 = p_blk s1 -> add_branch lim c s2 = Some s3 ->
    chg (eq c) s2 s3 /\ p_blk s3 = p_blk s2 /\ p_then s3 = p_then s2 /\ p_else s3 = p_else s2 /\ (forall q, q <> c -> p_code s3 q = p_code s2 q) /\
    forall X E s y w' t f, chg X s3 F -> closed X st k s3 (Some c) -> p_then F c = Some t -> p_else F c = Some f -> s_args s = [] -> rel cs E (s_env s) -> R E (s_world s) y w' ->
      exists s', leads k (len st k) s (if y =? 0 then f else t) 0 s' /\ s_args s' = [] /\ s_world s' = w' /\ rel cs E (s_env s').
  Proof.
    intros W Sc (Fr & P1 & Cu & v & Sv & Ev) C12 Hc Hs Hb H. unfold add_branch in H. destruct (opstack_pop s2) as [[x s21]|] eqn:E1; [|discriminate].
    destruct (label lim s21) as [s22|] eqn:E2; [|discriminate]. destruct (label lim s22) as [s23|] eqn:E3; [|discriminate]. apply some_inj in H.
    destruct (chg_pop none _ _ _ E1) as (D1 & S1 & K1 & V1 & G1). destruct (chg_label lim none _ _ E2) as (D2 & K2 & G2 & S2). destruct (chg_label lim none _ _ E3) as (D3 & K3 & G3 & S3).
    rewrite Hs, Sv in S1. injection S1 as <- S1.
    assert (Th : p_then s23 = p_then s2 /\ p_else s23 = p_else s2).
    { revert E1 E2 E3. unfold opstack_pop, label, require_var. destruct (p_stack s2); [discriminate|]. intros Q. injection Q as _ <-. destruct (_ <? _)%nat; [|discriminate]. intros Q. apply some_inj in Q. subst s22. destruct (_ <? _)%nat; [|discriminate]. intros Q. apply some_inj in Q. subst s23. split; reflexivity. }
    pose proof (fr_lt _ _ _ _ _ Fr (ws_b _ _ W)) as Lc. assert (Lc3 : (c < p_blk s23)%nat) by lia.
    assert (C23 : chg (eq c) s2 s3).
    { subst s3. assert (D : chg none s2 s23) by (eapply chg_trans; [exact D1|eapply chg_trans; [exact D2|exact D3|]|]; intros q _ [Q|Q]; exact Q).
      eapply chg_trans; [exact D|apply (chg_insn c OP_branch None (Some v) None 0 0); exact Lc3|]. intros q _ [[]|Q]. exact Q. }
    split; [exact C23|]. subst s3. cbn [add_insn p_blk p_then p_else p_code] in *. split; [lia|]. split; [apply Th|]. split; [apply Th|].
    split. { intros q Hq. unfold Cfg.upd. destruct (Nat.eqb_spec q c); [congruence|]. congruence. }
    intros X E s y w' t f CX Cl Ht Hf Ha Rl Hr.
    destruct (Ev (fun q => c = q \/ c = q \/ X q) E s y w') as (s' & Le & Af & Gv); auto.
    { apply (back1 c _ _ s2 C12). apply (back1 c _ _ _ C23 CX). }
    { intros q [<-|[<-|Hq]] Lq; [left; reflexivity|left; reflexivity|]. apply Cl; [exact Hq|]. cbn [add_insn p_blk]. lia. }
    exists (reset s'). destruct Af as (Ha' & Hw & Hu). split; [|split; [reflexivity|split; [exact Hw|]]].
    - eapply leads_trans; [exact Le|]. destruct (ch_pre _ _ _ CX c) as [l' Q]; [cbn [add_insn p_blk]; lia|]. cbn [add_insn p_code] in Q. unfold Cfg.upd in Q. rewrite Nat.eqb_refl, G3, G2, G1, Hc, <- app_assoc in Q.
      pose proof (leads_branch M V goff place exit void F c _ _ s' v None None 0 0 y t f Q Gv Ha' Ht Hf) as Lb. rewrite (c_truth _ HM) in Lb. unfold len. destruct (y =? 0); exact Lb.
    - cbn [s_env reset]. eapply rel_ext; [exact Rl|]. intros u Hu'. pose proof (sco_ids _ _ _ Sc Hu'). apply Hu. lia.
  Qed.

  (** ** Statements. *)
  Notation exec := (exec find_constant find_type gtype gget gput (m_read M) (m_write M) (do_call find_func M)).
  Notation loops := (loops find_constant find_type gtype gget gput (m_read M) (m_write M) (do_call find_func M)).
  Notation fine_stmt := (fine_stmt (is_constant find_constant) find_type gtype is_func special).
  Notation read_stmt := (read_stmt find_constant find_global find_type find_func special lim exit).
  Notation read_block := (read_block find_constant find_global find_type find_func special lim exit).
  Notation tail := (ExprRun.tail M V goff place exit void F).
  Definition cut {A} (seq : bool) (l : list A) : list A := if seq then tl l else l.
  (** from instruction i of block b, block b' is reached at i', with the environment E and the world w *)
  Definition gets (b i : nat) (s : state) (b' i' : nat) (cs : list (list (text * vinfo))) (E : env) (w : world) : Prop :=
    exists s', leads b i s b' i' s' /\ s_args s' = [] /\ s_world s' = w /\ rel cs E (s_env s').
  Definition reach (seq : bool) (cs cs' : list (list (text * vinfo))) (brk cnt : option nat) (st' : pst) (o : option nat) (b i : nat) (s : state) (out : outcome) (E' : env) (w' : world) : Prop :=
    match out with
    | ONormal => exists b', o = Some b' /\ gets b i s b' (len st' b') cs' E' w'
    | OBreak => exists k, brk = Some k /\ (0 < p_pred st' k)%nat /\ gets b i s k 0 (cut seq cs) (cut seq E') w'
    | OContinue => exists k, cnt = Some k /\ (0 < p_pred st' k)%nat /\ gets b i s k 0 (cut seq cs) (cut seq E') w'
    | OReturn r => tail b i s w' r
    end.
  Definition runs (seq : bool) (X : env -> world -> outcome -> env -> world -> Prop) (cs cs' : list (list (text * vinfo))) (brk cnt : option nat) (st : pst) (b : nat) (st' : pst) (o : option nat) : Prop :=
    forall O E s out E' w', chg O st' F -> closed O st b st' o -> s_args s = [] -> rel cs E (s_env s) -> X E (s_world s) out E' w' ->
      reach seq cs cs' brk cnt st' o b (len st b) s out E' w'.
  Notation pls := (map (fun v => place (vi_id v))).
  Record did_s (seq : bool) (p : stmt) (T' : tenv) (brk cnt : option nat) (ce : cenv) (st : pst) (b : nat) (st' : pst) (o : option nat) (ce' : cenv) : Prop := mkdid {
    ds_sco : sco st' (c_scopes ce');
    ds_types : ctypes (c_scopes ce') = T';
    ds_scopes : cut seq (c_scopes ce') = cut seq (c_scopes ce);
    ds_chg : chg (eq b) st st';
    ds_cur : forall b', o = Some b' -> (b' = b \/ (p_blk st <= b')%nat) /\ (b' < p_blk st')%nat;
    ds_falls : falls p = true -> o <> None;
    ds_run : exists new, c_locals ce' = new ++ c_locals ce /\ length (places p) = length (arrays new) /\
      (incl new L -> places p = pls (arrays new) -> runs seq (exec p) (c_scopes ce) (c_scopes ce') brk cnt st b st' o) }.
  Definition tgt (k : option nat) : Prop := forall q, k = Some q -> q <> exit.
  Definition is_decl (s : stmt) : bool := match s with SDecl _ _ => true | _ => false end.
  Definition stm (s : stmt) : Prop := sgram false s \/ exists t ds, s = SDecl t ds /\ ds <> [] /\ Forall dgram ds.
  Definition stmtOK (n : nat) : Prop := forall s brk cnt ce st b rest ts' st' o ce' T', stm s -> fine_stmt s (ctypes (c_scopes ce)) = Some T' ->
    (open_if s = true -> lex_accept T_else rest = None) -> wfs st b -> sco st (c_scopes ce) -> tgt brk -> tgt cnt ->
    read_stmt n brk cnt ce (stokens s ++ rest) st b = Some (ts', st', o, ce') -> ts' = rest /\ did_s (is_decl s) s T' brk cnt ce st b st' o ce'.
  Definition blockOK (n : nat) : Prop := forall s brk cnt ce st b rest ts' st' o ce' T', sgram true s -> fine_stmt s (ctypes (c_scopes ce)) = Some T' ->
    wfs st b -> sco st (c_scopes ce) -> tgt brk -> tgt cnt ->
    read_block n brk cnt ce (stokens s ++ (T_close_curly, []) :: rest) st (Some b) = Some (ts', st', o, ce') -> ts' = rest /\ did_s true s T' brk cnt ce st b st' o ce'.

  Lemma gets_from b0 i0 s0 b i s b' i' cs E w : leads b0 i0 s0 b i s -> gets b i s b' i' cs E w -> gets b0 i0 s0 b' i' cs E w.
  Proof. intros A (s' & B & C). exists s'. split; [eapply leads_trans; eauto|exact C]. Qed.
  Lemma gets_reset b i s b1 i1 b' i' cs E w : gets b i s b1 i1 cs E w -> (forall s1, leads b1 i1 s1 b' i' (reset s1)) -> gets b i s b' i' cs E w.
  Proof. intros (s1 & A & B & C & D) H. exists (reset s1). split; [eapply leads_trans; [exact A|apply H]|]. repeat split; auto. Qed.
  Lemma reach_from seq cs cs' brk cnt st' o b0 i0 s0 b i s out E w : leads b0 i0 s0 b i s -> reach seq cs cs' brk cnt st' o b i s out E w -> reach seq cs cs' brk cnt st' o b0 i0 s0 out E w.
  Proof.
    intros A H. destruct out as [| | |r]; cbn [reach] in *.
    - destruct H as (b' & Q & H). exists b'. split; [exact Q|eapply gets_from; eauto].
    - destruct H as (b' & Q & P & H). exists b'. split; [exact Q|split; [exact P|eapply gets_from; eauto]].
    - destruct H as (b' & Q & P & H). exists b'. split; [exact Q|split; [exact P|eapply gets_from; eauto]].
    - apply A. exact H.
  Qed.
  Lemma gets_cut b i s b' i' cs E w : gets b i s b' i' cs E w -> gets b i s b' i' (tl cs) (tl E) w.
  Proof. intros (s' & A & B & C & R). exists s'. repeat (split; [assumption|]). destruct R; [constructor|exact R]. Qed.
  (** what does not end normally ends the same way further on *)
  Lemma reach_later seq seq' cs cs1 cs' brk cnt st1 o1 st' o b i s out E w : out <> ONormal -> (seq' = seq \/ seq' = true /\ seq = false) -> pl st1 st' ->
    reach seq cs cs1 brk cnt st1 o1 b i s out E w -> reach seq' cs cs' brk cnt st' o b i s out E w.
  Proof.
    intros N Hs P H. assert (G : forall k, gets b i s k 0 (cut seq cs) (cut seq E) w -> gets b i s k 0 (cut seq' cs) (cut seq' E) w).
    { intros k Hk. destruct Hs as [->|[-> ->]]; [exact Hk|]. cbn [cut] in *. apply gets_cut. exact Hk. }
    destruct out as [| | |r]; cbn [reach] in *; [congruence| | |exact H].
    - destruct H as (k & Q & Hp & H). exists k. split; [exact Q|]. split; [specialize (P k); lia|auto].
    - destruct H as (k & Q & Hp & H). exists k. split; [exact Q|]. split; [specialize (P k); lia|auto].
  Qed.
  Lemma goes_runs (X : env -> world -> outcome -> env -> world -> Prop) R seq cs cs' brk cnt st b st' b' : goes cs cs' R st b st' b' ->
    (forall E w out E' w', X E w out E' w' -> out = ONormal /\ R E w E' w') -> runs seq X cs cs' brk cnt st b st' (Some b').
  Proof.
    intros (_ & _ & _ & _ & G) H O E s out E' w' CO Cl Ha Rl Hx. destruct (H _ _ _ _ _ Hx) as [-> HR]. cbn [reach]. exists b'. split; [reflexivity|]. apply (G O E s E' w'); assumption.
  Qed.

  Lemma read_stmt_S n brk cnt e ts st b : read_stmt (S n) brk cnt e ts st b =
        match ts with
        | (T_open_curly, _) :: ts =>
            do (ts, st, o, e1) <- read_block n brk cnt (open_scope e) ts st (Some b); Some (ts, st, o, close_scope e e1)
        | (T_return, _) :: ts =>
            match lex_accept T_semicolon ts with
            | Some ts => do st <- bb_connect b exit NEXT (add_insn b OP_return None None None 0 0 st); Some (ts, st, None, e)
            | None => do (ts, st) <- read_return find_constant (look e) find_func special lim n exit ts st b; Some (ts, st, None, e)
            end
        | (T_if, _) :: ts =>
            let '(k, st) := bb_create st in
            do st <- bb_connect b k NEXT st;
            do ts <- lex_expect T_open_bracket ts;
            do (ts, st, c) <- read_expr find_constant (look e) find_func special lim n ts st k;
            do ts <- lex_expect T_close_bracket ts;
            do st <- add_branch lim c st;
            do st <- label lim st;
            let '(t, st) := bb_create st in
            let '(f, st) := bb_create st in
            do st <- bb_connect c t THEN st;
            do st <- bb_connect c f ELSE st;
            do (ts, st, o, e) <- read_stmt n brk cnt e ts st t;
            do (p, st) <- after_body o st;
            match lex_accept T_else ts with
            | Some ts =>
                do st <- label lim st; do st <- label lim st;
                do (ts, st, o, e) <- read_stmt n brk cnt e ts st f;
                do (q, st) <- after_body o st;
                do st <- label lim st;
                match p, q with
                | Some p, Some q =>
                    let '(j, st) := bb_create st in
                    do st <- bb_connect p j NEXT st;
                    do st <- bb_connect q j NEXT st; Some (ts, st, Some j, e)
                | Some p, None => Some (ts, st, Some p, e)
                | None, _ => Some (ts, st, q, e)
                end
            | None =>
                do st <- label lim st;
                match p with
                | Some p => do st <- bb_connect f p NEXT st; Some (ts, st, Some p, e)
                | None => Some (ts, st, Some f, e)
                end
            end
        | (T_while, _) :: ts =>
            let '(k, st) := bb_create st in
            do st <- bb_connect b k NEXT st;
            do st <- label lim st; do st <- label lim st;
            let '(_, st) := bb_create st in
            do ts <- lex_expect T_open_bracket ts;
            do (ts, st, c) <- read_expr find_constant (look e) find_func special lim n ts st k;
            do ts <- lex_expect T_close_bracket ts;
            do st <- add_branch lim c st;
            do st <- label lim st;
            let '(t, st) := bb_create st in
            let '(f, st) := bb_create st in
            do st <- bb_connect c t THEN st;
            do st <- bb_connect c f ELSE st;
            do (ts, st, o, e) <- read_stmt n (Some f) (Some k) e ts st t;
            do st <- label lim st;
            do st <- connect_opt o k st;
            Some (ts, st, Some f, e)
        | (T_break, _) :: ts =>
            do k <- brk; do st <- bb_connect b k NEXT st; do ts <- lex_expect T_semicolon ts; Some (ts, st, None, e)
        | (T_continue, _) :: ts =>
            do k <- cnt; do st <- bb_connect b k NEXT st; do ts <- lex_expect T_semicolon ts; Some (ts, st, None, e)
        | (T_for, _) :: ts =>
            do ts <- lex_expect T_open_bracket ts;
            let e1 := open_scope e in
            let '(k, st) := bb_create st in
            do st <- bb_connect b k NEXT st;
            do (ts, st, k, e1) <-
              (match lex_accept T_semicolon ts with
               | Some ts => Some (ts, st, k, e1)
               | None =>
                   match ts with
                   | (T_identifier, x) :: r =>
                       match find_type x with
                       | Some size => read_declarators n true size e1 r st k
                       | None => do (ts, st, k) <- read_assignment n e1 None ts st k; do ts <- lex_expect T_semicolon ts; Some (ts, st, k, e1)
                       end
                   | _ => None
                   end
               end);
            let '(c0, st) := bb_create st in
            let '(f, st) := bb_create st in
            do st <- bb_connect k c0 NEXT st;
            do st <- label lim st;
            do (ts, st, c) <-
              (match lex_accept T_semicolon ts with
               | Some ts => do st <- load_constant lim 1 c0 st; Some (ts, st, c0)
               | None => do (ts, st, c) <- read_expr find_constant (look e1) find_func special lim n ts st c0; do ts <- lex_expect T_semicolon ts; Some (ts, st, c)
               end);
            do st <- bb_connect c f ELSE st;
            do st <- add_branch lim c st;
            do st <- label lim st;
            let '(i0, st) := bb_create st in
            do st <- label lim st;
            do (ts, st, i) <-
              (match lex_accept T_close_bracket ts with
               | Some ts => Some (ts, st, i0)
               | None =>
                   let '(prefix, ts) := match ts with (T_increment, _) :: r => (Some OP_add, r) | (T_decrement, _) :: r => (Some OP_sub, r) | _ => (None, ts) end in
                   do (ts, st, i) <- read_assignment n e1 prefix ts st i0; do ts <- lex_expect T_close_bracket ts; Some (ts, st, i)
               end);
            do st <- label lim st; do st <- label lim st;
            let '(t, st) := bb_create st in
            do st <- bb_connect c t THEN st;
            do (ts, st, o, e2) <- read_stmt n (Some f) (Some i0) e1 ts st t;
            do st <-
              (match o with
               | Some a => do st <- bb_connect a i NEXT st; bb_connect i c0 NEXT st
               | None => match p_code st i with [] => Some st | _ => bb_connect i c0 NEXT st end
               end);
            do st <- label lim st;
            Some (ts, st, Some f, close_scope e e2)
        | (T_do, _) :: ts =>
            let '(k, st) := bb_create st in
            do st <- bb_connect b k NEXT st;
            let '(c0, st) := bb_create st in
            let '(f, st) := bb_create st in
            do st <- label lim st; do st <- label lim st; do st <- label lim st;
            do (ts, st, o, e) <- read_stmt n (Some f) (Some c0) e ts st k;
            do st <- connect_opt o c0 st;
            do ts <- lex_expect T_while ts;
            do ts <- lex_expect T_open_bracket ts;
            do st <- label lim st;
            do (ts, st, c) <- read_expr find_constant (look e) find_func special lim n ts st c0;
            do ts <- lex_expect T_close_bracket ts;
            do st <- add_branch lim c st;
            do ts <- lex_expect T_semicolon ts;
            do st <- (if (p_pred st c =? 0)%nat then Some st else do st <- bb_connect c k THEN st; bb_connect c f ELSE st);
            Some (ts, st, Some f, e)
        | (T_semicolon, _) :: ts => Some (ts, st, Some b, e)
        | _ =>
            let '(prefix, ts) := match ts with (T_increment, _) :: r => (Some OP_add, r) | (T_decrement, _) :: r => (Some OP_sub, r) | _ => (None, ts) end in
            match ts with
            | (T_identifier, x) :: r =>
                match find_type x with
                | Some size => do (ts, st, b, e) <- read_declarators n true size e r st b; Some (ts, st, Some b, e)
                | None =>
                    if special x then None else
                    match find_func x with
                    | Some f =>
                        do ts <- lex_expect T_open_bracket r;
                        do (ts, st, b, l) <- read_args find_constant (look e) find_func special lim n [] ts st b;
                        do ts <- lex_expect T_semicolon ts;
                        Some (ts, add_insn b OP_call None None None 0 f (push_args b l st), Some b, e)
                    | None =>
                        do (ts, st, b) <- read_assignment n e prefix ts st b;
                        do ts <- lex_expect T_semicolon ts; Some (ts, st, Some b, e)
                    end
                end
            | _ => None
            end
        end.
  Proof. reflexivity. Qed.
  Lemma read_block_S n brk cnt e ts st o : read_block (S n) brk cnt e ts st o =
        match lex_accept T_close_curly ts with
        | Some ts => Some (ts, st, o, e)
        | None => do b <- o; do (ts, st, o, e) <- read_stmt n brk cnt e ts st b; read_block n brk cnt e ts st o
        end.
  Proof. reflexivity. Qed.
  Opaque StmtParse.read_stmt StmtParse.read_block.

  Lemma skip_did brk cnt ce st b : wfs st b -> sco st (c_scopes ce) -> did_s false SSkip (ctypes (c_scopes ce)) brk cnt ce st b st (Some b) ce.
  Proof.
    intros W Sc. constructor; auto.
    - apply chg_refl.
    - intros b' Q. injection Q as <-. split; [left; reflexivity|apply W].
    - discriminate.
    - exists []. split; [reflexivity|]. split; [reflexivity|]. intros _ _ O E s out E' w' CO Cl Ha R X. inversion X; subst. cbn [reach]. exists b. split; [reflexivity|].
      exists s. split; [apply leads_refl|]. auto.
  Qed.
  Lemma jump_did (x : outcome) p brk cnt k ce st b st' : (p = SBreak /\ brk = Some k \/ p = SContinue /\ cnt = Some k) -> wfs st b -> sco st (c_scopes ce) -> tgt brk -> tgt cnt ->
    bb_connect b k NEXT st = Some st' -> did_s false p (ctypes (c_scopes ce)) brk cnt ce st b st' None ce.
  Proof.
    intros Hp W Sc T1 T2 H. destruct (chg_connect _ _ _ _ _ (ws_b _ _ W) H) as [C P]. destruct (connect_next _ _ _ _ H) as (N & Co & _ & _ & K & Vr & _).
    assert (Hk : k <> exit) by (destruct Hp as [[_ Q]|[_ Q]]; [apply T1|apply T2]; exact Q).
    constructor; auto.
    - eapply sco_mono; [exact Sc|lia].
    - discriminate.
    - destruct Hp as [[-> _]|[-> _]]; discriminate.
    - exists []. split; [reflexivity|]. split; [destruct Hp as [[-> _]|[-> _]]; reflexivity|]. intros _ _ O E s out E' w' CO Cl Ha R X.
      assert (Lx : leads b (len st b) s k 0 (reset s)).
      { unfold len. rewrite <- Co. eapply go_next; [exact CO| | |exact N|exact Hk]; [|rewrite K; apply W]. intros Q. destruct (Cl b Q) as [Z|[_ Z]]; [rewrite K; apply W|discriminate|congruence]. }
      assert (G : gets b (len st b) s k 0 (c_scopes ce) E (s_world s)) by (exists (reset s); auto).
      destruct Hp as [[-> Q]|[-> Q]]; inversion X; subst; cbn [reach cut]; exists k; auto.
  Qed.
  Lemma return_did brk cnt ce st b st' : wfs st b -> sco st (c_scopes ce) ->
    bb_connect b exit NEXT (add_insn b OP_return None None None 0 0 st) = Some st' -> did_s false (SReturn None) (ctypes (c_scopes ce)) brk cnt ce st b st' None ce.
  Proof.
    intros W Sc H. assert (Lb : (b < p_blk (add_insn b OP_return None None None 0 0 st))%nat) by apply W. destruct (chg_connect _ _ _ _ _ Lb H) as [C P]. destruct (connect_next _ _ _ _ H) as (N & Co & _ & _ & K & Vr & _).
    assert (C1 : chg (eq b) st st'). { eapply chg_trans; [apply (chg_insn b OP_return None None None 0 0 st); apply W|exact C|]. intros c _ [Q|Q]; exact Q. }
    constructor; auto.
    - eapply sco_mono; [exact Sc|rewrite Vr; apply le_n].
    - discriminate.
    - discriminate.
    - exists []. split; [reflexivity|]. split; [reflexivity|]. intros _ _ O E s out E' w' CO Cl Ha R X. inversion X; subst. cbn [reach].
      exists (SRet None (s_world s)). split; [|split; reflexivity]. destruct (ch_pre _ _ _ CO b) as [l Q]; [rewrite K; apply W|].
      rewrite Q, Co. cbn [add_insn p_code]. unfold Cfg.upd. rewrite Nat.eqb_refl. unfold len. rewrite <- app_assoc, skipn_app, skipn_all, Nat.sub_diag. cbn [List.app skipn]. apply sb_return_void. exact Ha.
  Qed.
  Lemma value_did brk cnt ce n e w r st b ts' st' : wfs st b -> sco st (c_scopes ce) -> rgram 3 e -> fine_expr (ctypes (c_scopes ce)) e = true ->
    read_return find_constant (look ce) find_func special lim n exit (rtokens e ++ (T_semicolon, w) :: r) st b = Some (ts', st') ->
    ts' = r /\ did_s false (SReturn (Some e)) (ctypes (c_scopes ce)) brk cnt ce st b st' None ce.
  Proof.
    intros W Sc G Fi H. unfold read_return in H.
    destruct (read_expr _ _ _ _ _ n _ st b) as [[[ts1 st1] b1]|] eqn:E1; [|discriminate].
    destruct (read_ternary _ _ _ _ _ n ts1 st1 b1) as [[[ts2 st2] b2]|] eqn:E2; [|discriminate].
    destruct (ev_full ce n e T_semicolon w r st b ts1 st1 b1 ts2 st2 b2 W Sc G Fi eq_refl E1 E2) as [-> (Fr & _ & P2 & _ & v & Sv & Gv & Ev)].
    change (lex_expect T_semicolon ((T_semicolon, w) :: r)) with (Some r) in H. cbn iota in H.
    destruct (opstack_pop st2) as [[v' st3]|] eqn:E3; [|discriminate]. destruct (bb_connect b2 exit NEXT _) as [st4|] eqn:E4; [|discriminate]. apply some_inj in H. injection H as <- <-. split; [reflexivity|].
    destruct (chg_pop none _ _ _ E3) as (D3 & S3 & K3 & V3 & Co3). rewrite Sv in S3. injection S3 as <- _.
    pose proof (fr_lt _ _ _ _ _ Fr (ws_b _ _ W)) as Lb2. assert (Lb3 : (b2 < p_blk st3)%nat) by lia.
    assert (Lb : (b2 < p_blk (add_insn b2 OP_return None (Some v) None 0 0 st3))%nat) by exact Lb3.
    destruct (chg_connect _ _ _ _ _ Lb E4) as [C4 P4]. destruct (connect_next _ _ _ _ E4) as (N & Co & _ & _ & K & Vr & _). cbn [add_insn p_blk p_var] in K, Vr.
    assert (C24 : chg (eq b2) st2 st4). { eapply chg_trans; [exact D3|eapply chg_trans; [apply (chg_insn b2 OP_return None (Some v) None 0 0 st3); exact Lb3|exact C4|]|]; [intros c _ [Q|Q]; exact Q|intros c _ [[]|Q]; exact Q]. }
    pose proof (fr_cur _ _ _ _ _ Fr) as Cu. pose proof (fr_var _ _ _ _ _ Fr). pose proof (fr_blk _ _ _ _ _ Fr).
    constructor; auto.
    - eapply sco_mono; [exact Sc|lia].
    - apply (fw1 _ _ st2 b2); [apply (chg_frame _ _ _ b2); assumption|exact C24|exact Cu].
    - discriminate.
    - discriminate.
    - exists []. split; [reflexivity|]. split; [reflexivity|]. intros _ _ O E s out E' w' CO Cl Ha R X. inversion X; subst. cbn [reach].
      destruct (Ev (fun q => b2 = q \/ O q) E' s v0 w') as (s' & Le & (Ha' & Hw' & _) & Gx); auto.
      { apply (back1 b2 _ _ st4 C24 CO). }
      { intros q [<-|Hq] Lq; [left; reflexivity|]. destruct (Cl q Hq) as [Q|Q]; [lia|discriminate|right; exact Q]. }
      apply Le. exists (SRet (Some v0) w'). split; [|split; reflexivity]. destruct (ch_pre _ _ _ CO b2) as [l Q]; [lia|].
      rewrite Q, Co. cbn [add_insn p_code]. unfold Cfg.upd. rewrite Nat.eqb_refl, Co3. unfold len. rewrite <- app_assoc, skipn_app, skipn_all, Nat.sub_diag. cbn [List.app skipn]. rewrite <- Hw'. apply sb_return; assumption.
  Qed.
  Lemma goes_did seq p R brk cnt ce st b st' b' : sco st (c_scopes ce) -> goes (c_scopes ce) (c_scopes ce) R st b st' b' -> places p = [] ->
    (forall E w out E' w', exec p E w out E' w' -> out = ONormal /\ R E w E' w') -> did_s seq p (ctypes (c_scopes ce)) brk cnt ce st b st' (Some b') ce.
  Proof.
    intros Sc G Hp Hx. pose proof G as (A & B & C & D & _). constructor; auto.
    - eapply sco_mono; [exact Sc|apply (ch_var _ _ _ A)].
    - intros q Q. injection Q as <-. auto.
    - discriminate.
    - exists []. split; [reflexivity|]. rewrite Hp. split; [reflexivity|]. intros _ _. eapply goes_runs; eauto.
  Qed.
  Lemma decl_did t n ds brk cnt ce st b st' b' ce' T' new : find_type t = Some n -> sco st' (c_scopes ce') -> ctypes (c_scopes ce') = T' -> tl (c_scopes ce') = tl (c_scopes ce) ->
    chg (eq b) st st' -> (b' = b \/ (p_blk st <= b')%nat) -> (b' < p_blk st')%nat -> c_locals ce' = new ++ c_locals ce -> length (array_places ds) = length (arrays new) ->
    (incl new L -> array_places ds = pls (arrays new) -> goes (c_scopes ce) (c_scopes ce') (declares n ds) st b st' b') ->
    did_s true (SDecl t ds) T' brk cnt ce st b st' (Some b') ce'.
  Proof.
    intros Ht Sc Ct Tl C Cu Lt Nl Na Go. constructor; auto.
    - intros q Q. injection Q as <-. auto.
    - discriminate.
    - exists new. split; [exact Nl|]. split; [exact Na|]. intros Hi Hp. eapply goes_runs; [apply Go; assumption|]. intros E w out E' w' X. inversion X; subst. split; [reflexivity|]. congruence.
  Qed.
  Lemma block_did q brk cnt ce st b st' o ce' T' : did_s true q T' brk cnt (open_scope ce) st b st' o ce' -> sco st (c_scopes ce) ->
    did_s false (SBlock q) (ctypes (c_scopes ce)) brk cnt ce st b st' o (close_scope ce ce').
  Proof.
    intros [A1 A2 A3 A4 A5 A6 (new & A7 & A8 & A9)] Sc. cbn [open_scope c_scopes c_locals cut tl] in *. constructor; cbn [close_scope c_scopes c_locals cut]; auto.
    - eapply sco_mono; [exact Sc|apply (ch_var _ _ _ A4)].
    - exists new. split; [exact A7|]. split; [exact A8|]. intros Hi Hp O E s out E' w' CO Cl Ha R X. inversion X; subst.
      pose proof (A9 Hi Hp O ([] :: E) s out (l :: E') w' CO Cl Ha ltac:(constructor; [constructor|exact R]) ltac:(assumption)) as H.
      destruct out as [| | |r]; cbn [reach cut tl] in *; try exact H. destruct H as (b' & Q & H). exists b'. split; [exact Q|]. apply gets_cut in H. rewrite A3 in H. exact H.
  Qed.
  (** how statements begin *)
  Lemma stm_head s : stm s -> exists t w r, stokens s = (t, w) :: r /\ t <> T_close_curly /\ t <> T_else.
  Proof.
    intros [G|(t & ds & -> & _)].
    - destruct s as [|p|f args|t ds|q| |a q|c a|c a b|c a|a c|i c p a| | |[e|]]; cbn [sgram] in G; try discriminate G; try (destruct G as [G _]; discriminate G); try (destruct G as [_ G]; destruct G; fail); try (do 3 eexists; split; [reflexivity|split; discriminate]).
      destruct p as [l e|l o e|l o|l o]; cbn [stokens ptokens]; rewrite ?ltokens_eq; cbn [List.app].
      1-3: do 3 eexists; split; [reflexivity|split; discriminate]. do 3 eexists; split; [reflexivity|]. destruct o; split; discriminate.
    - do 3 eexists. split; [reflexivity|split; discriminate].
  Qed.
  Lemma seq_did a q brk cnt ce st b s1 b1 e1 st' o ce' T1 T' : (b < p_blk st)%nat -> (is_decl a = true \/ sgram false a) -> did_s (is_decl a) a T1 brk cnt ce st b s1 (Some b1) e1 -> did_s true q T' brk cnt e1 s1 b1 st' o ce' ->
    did_s true (SCons a q) T' brk cnt ce st b st' o ce'.
  Proof.
    intros Lb Ga [A1 A2 A3 A4 A5 A6 (new & A7 & A8 & A9)] [B1 B2 B3 B4 B5 B6 (new' & B7 & B8 & B9)]. destruct (A5 b1 eq_refl) as [Cu Lt]. pose proof (ch_blk _ _ _ A4) as K.
    assert (Tl : tl (c_scopes e1) = tl (c_scopes ce)) by (destruct (is_decl a); cbn [cut] in A3; congruence).
    assert (P : places (SCons a q) = places a ++ places q) by reflexivity.
    constructor; auto.
    - cbn [cut] in *. congruence.
    - eapply fw1; eauto.
    - intros b' Q. destruct (B5 b' Q) as [Q1 Q2]. split; [|exact Q2]. destruct Q1 as [->|]; [exact Cu|right; lia].
    - intros Hf. cbn [falls] in Hf. destruct q; try (apply B6; exact Hf). apply B6. reflexivity.
    - exists (new' ++ new). split; [rewrite B7, A7, app_assoc; reflexivity|]. rewrite P, arrays_app, !app_length, A8, B8. split; [reflexivity|].
      intros Hi Hp. rewrite map_app in Hp. apply app_split in Hp; [|rewrite map_length; exact A8]. destruct Hp as [Hp1 Hp2].
      specialize (A9 (fun v Hv => Hi v (in_or_app _ _ _ (or_intror Hv))) Hp1). specialize (B9 (fun v Hv => Hi v (in_or_app _ _ _ (or_introl Hv))) Hp2).
      intros O E s out E' w' CO Cl Ha R X. destruct (seq_back O st b s1 b1 st' o CO Cl Lb A4 Cu Lt B4) as (CO1 & Cl1 & Cl2). { intros b2 Q. apply (B5 b2 Q). }
      inversion X; subst.
      + match goal with Hx : exec a _ _ ONormal _ _, Hq : exec q _ _ _ _ _ |- _ => pose proof (A9 _ _ _ _ _ _ CO1 Cl1 Ha R Hx) as G; rename Hq into Xq end.
        cbn [reach] in G. destruct G as (b' & Q & s' & Le & Ha' & Hw' & R'). injection Q as <-. subst w1. pose proof (B9 _ _ _ _ _ _ CO Cl2 Ha' R' Xq) as G. eapply reach_from in G; [|exact Le].
        destruct out as [| | |r]; cbn [reach cut] in *; rewrite <- ?Tl; exact G.
      + match goal with Hx : exec a _ _ _ _ _ |- _ => pose proof (A9 _ _ _ _ _ _ CO1 Cl1 Ha R Hx) as G end.
        eapply reach_later; [assumption| |apply (ch_pred _ _ _ B4)|exact G]. destruct (is_decl a); auto.
  Qed.
  Lemma nil_did brk cnt ce st b : wfs st b -> sco st (c_scopes ce) -> did_s true SNil (ctypes (c_scopes ce)) brk cnt ce st b st (Some b) ce.
  Proof.
    intros W Sc. constructor; auto.
    - apply chg_refl.
    - intros b' Q. injection Q as <-. split; [left; reflexivity|apply W].
    - discriminate.
    - exists []. split; [reflexivity|]. split; [reflexivity|]. intros _ _ O E s out E' w' CO Cl Ha R X. inversion X; subst. cbn [reach]. exists b. split; [reflexivity|].
      exists s. split; [apply leads_refl|]. auto.
  Qed.
  (** a statement that ends its block without a successor: nothing can follow *)
  Lemma last_did a brk cnt ce st b st' ce' T' : did_s (is_decl a) a T' brk cnt ce st b st' None ce' -> did_s true (SCons a SNil) T' brk cnt ce st b st' None ce'.
  Proof.
    intros [A1 A2 A3 A4 A5 A6 (new & A7 & A8 & A9)]. assert (P : places (SCons a SNil) = places a) by (cbn [places]; apply app_nil_r). constructor; auto.
    - destruct (is_decl a); cbn [cut] in *; congruence.
    - exists new. split; [exact A7|]. rewrite P. split; [exact A8|]. intros Hi Hp. specialize (A9 Hi Hp). intros O E s out E' w' CO Cl Ha R X. inversion X; subst.
      + match goal with Hx : exec a _ _ ONormal _ _ |- _ => pose proof (A9 _ _ _ _ _ _ CO Cl Ha R Hx) as G end. cbn [reach] in G. destruct G as (b' & Q & _). discriminate.
      + match goal with Hx : exec a _ _ _ _ _ |- _ => pose proof (A9 _ _ _ _ _ _ CO Cl Ha R Hx) as G end.
        eapply reach_later; [assumption| |apply pl_refl|exact G]. destruct (is_decl a); auto.
  Qed.
  Lemma block_step n : stmtOK n -> blockOK n -> blockOK (S n).
  Proof.
    intros IHs IHb s brk cnt ce st b rest ts' st' o ce' T' G Fi W Sc T1 T2 H. rewrite read_block_S in H. destruct s as [|p|f args|t ds|q| |a q|c a|c a b'|c a|a c|i c p a| | |e]; cbn [sgram] in G; try discriminate G; try (destruct G as [G _]; discriminate G).
    - cbn [stokens List.app] in H. change (lex_accept T_close_curly ((T_close_curly, @nil Z) :: rest)) with (Some rest) in H. cbn iota in H. apply some_inj in H. injection H as <- <- <- <-. split; [reflexivity|].
      cbn [StmtSpec.fine_stmt] in Fi. injection Fi as <-. apply nil_did; assumption.
    - destruct G as (_ & Ga & Gq). cbn [stokens] in H. rewrite <- app_assoc in H. cbn [StmtSpec.fine_stmt] in Fi. destruct (fine_stmt a (ctypes (c_scopes ce))) as [T3|] eqn:Fa; [|discriminate].
      assert (Sa : stm a). { destruct a; try (left; exact Ga). right. do 2 eexists. split; [reflexivity|exact Ga]. }
      destruct (stm_head a Sa) as (t & w & r & Et & Nt & _). rewrite Et in H. cbn [List.app] in H.
      assert (Na : lex_accept T_close_curly ((t, w) :: r ++ stokens q ++ (T_close_curly, []) :: rest) = None) by (destruct t; try reflexivity; congruence). rewrite Na in H.
      change ((t, w) :: r ++ stokens q ++ (T_close_curly, []) :: rest) with (((t, w) :: r) ++ stokens q ++ (T_close_curly, []) :: rest) in H. rewrite <- Et in H.
      destruct (read_stmt n brk cnt ce _ st b) as [[[[ts1 s1] o1] e1]|] eqn:E1; [|discriminate].
      assert (Hq : q = SNil \/ exists a' q', q = SCons a' q' /\ stm a').
      { destruct q; cbn [sgram] in Gq; try discriminate Gq; try (destruct Gq as [Gq _]; discriminate Gq); [left; reflexivity|right; do 2 eexists; split; [reflexivity|]]. destruct Gq as (_ & Gq & _). destruct q1; try (left; exact Gq). right. do 2 eexists. split; [reflexivity|exact Gq]. }
      assert (Nc : forall a' q' z, stm a' -> exists t w r, stokens (SCons a' q') ++ z = (t, w) :: r /\ t <> T_close_curly /\ t <> T_else).
      { intros a' q' z S'. cbn [stokens]. destruct (stm_head a' S') as (t2 & w2 & r2 & -> & N3 & N4). cbn [List.app]. do 3 eexists. split; [reflexivity|auto]. }
      destruct (IHs a brk cnt ce st b (stokens q ++ (T_close_curly, []) :: rest) ts1 s1 o1 e1 T3 Sa Fa) as [-> D]; auto.
      { intros _. destruct Hq as [->|(a' & q' & -> & S')]; [reflexivity|]. destruct (Nc a' q' ((T_close_curly, []) :: rest) S') as (t1 & w1 & r1 & -> & _ & N). destruct t1; try reflexivity; congruence. }
      destruct o1 as [b1|].
      + pose proof (ds_cur _ _ _ _ _ _ _ _ _ _ _ D b1 eq_refl) as [Cu Lt]. assert (W1 : wfs s1 b1) by (eapply wfs_chg; [exact W|apply (ds_chg _ _ _ _ _ _ _ _ _ _ _ D)|exact Lt]).
        destruct (IHb q brk cnt e1 s1 b1 rest ts' st' o ce' T' Gq) as [-> Dq]; auto.
        { rewrite (ds_types _ _ _ _ _ _ _ _ _ _ _ D). exact Fi. }
        { apply (ds_sco _ _ _ _ _ _ _ _ _ _ _ D). }
        split; [reflexivity|]. eapply seq_did; [apply W| |exact D|exact Dq]. destruct Sa as [Sa|(? & ? & -> & _)]; [right; exact Sa|left; reflexivity].
      + destruct n as [|n]; [discriminate|]. rewrite read_block_S in H. destruct Hq as [->|(a' & q' & -> & S')].
        * cbn [stokens List.app] in H. change (lex_accept T_close_curly ((T_close_curly, @nil Z) :: rest)) with (Some rest) in H. cbn iota in H. apply some_inj in H. injection H as <- <- <- <-. split; [reflexivity|].
          cbn [StmtSpec.fine_stmt] in Fi. injection Fi as <-. apply last_did. exact D.
        * destruct (Nc a' q' ((T_close_curly, []) :: rest) S') as (t1 & w1 & r1 & Q & N & _). rewrite Q in H. assert (Nn : lex_accept T_close_curly ((t1, w1) :: r1) = None) by (destruct t1; try reflexivity; congruence). rewrite Nn in H. discriminate.
  Qed.
  (** ** A new block, a condition, the end of a part. *)
  Lemma chg_conn p d t st st' : bb_connect p d t st = Some st' -> (p < p_blk st)%nat -> chg (eq p) st st' /\ (0 < p_pred st' d)%nat.
  Proof. intros H Lp. exact (chg_connect p d t st st' Lp H). Qed.
  Lemma enter_ok st b k s1 s2 : wfs st b -> bb_create st = (k, s1) -> bb_connect b k NEXT s1 = Some s2 ->
    k = p_blk st /\ p_blk s2 = S (p_blk st) /\ p_var s2 = p_var st /\ chg (eq b) st s2 /\ wfs s2 k /\ p_code s2 k = [] /\ p_next s2 b = Some k /\ p_code s2 = p_code st /\ (0 < p_pred s2 k)%nat.
  Proof.
    intros W H1 H2. destruct (chg_create none _ _ _ H1) as (C1 & -> & K1 & V1 & G1 & _). destruct (chg_conn _ _ _ _ _ H2 ltac:(pose proof (ws_b _ _ W); lia)) as [C2 P]. destruct (connect_next _ _ _ _ H2) as (N & G2 & _ & _ & K2 & V2 & _).
    assert (C : chg (eq b) st s2) by (eapply chg_trans; [exact C1|exact C2|]; intros c _ [[]|Q]; exact Q). assert (W2 : wfs s2 (p_blk st)) by (eapply wfs_chg; [exact W|exact C|lia]).
    destruct (ws_empty _ _ W (p_blk st) ltac:(lia)) as (Q & _). repeat (split; [first [reflexivity|assumption|lia|congruence]|]). exact P.
  Qed.
  Lemma head_ok cs R st k s1 c s2 s3 t s4 f s5 s6 s7 : wfs st k -> sco st cs -> tests cs R st k s1 c -> add_branch lim c s1 = Some s2 -> label lim s2 = Some s3 ->
    bb_create s3 = (t, s4) -> bb_create s4 = (f, s5) -> bb_connect c t THEN s5 = Some s6 -> bb_connect c f ELSE s6 = Some s7 ->
    t = p_blk s1 /\ f = S (p_blk s1) /\ p_blk s7 = S (S (p_blk s1)) /\ (p_blk st <= p_blk s1)%nat /\ chg (eq k) st s7 /\ p_code s7 t = [] /\ p_code s7 f = [] /\ wfs s7 t /\ sco s7 cs /\
    forall X E s y w', chg X s7 F -> (forall q, X q -> (q < p_blk s1)%nat -> (q < p_blk st)%nat /\ q <> k) -> s_args s = [] -> rel cs E (s_env s) -> R E (s_world s) y w' ->
      exists s', leads k (len st k) s (if y =? 0 then f else t) 0 s' /\ s_args s' = [] /\ s_world s' = w' /\ rel cs E (s_env s').
  Proof.
    intros W Sc Te E2 E3 E4 E5 E6 E7. destruct (branch_ok cs R st k s1 c s1 s2 W Sc Te (chg_refl _ _) eq_refl eq_refl eq_refl E2) as (C2 & K2 & _ & _ & Co2 & Br).
    destruct Te as (Fr & Pl & _). destruct (chg_label lim none _ _ E3) as (C3 & K3 & G3 & _). destruct (chg_create none _ _ _ E4) as (C4 & -> & K4 & _ & G4 & _). destruct (chg_create none _ _ _ E5) as (C5 & -> & K5 & _ & G5 & _).
    pose proof (fr_lt _ _ _ _ _ Fr (ws_b _ _ W)) as Lc. pose proof (fr_cur _ _ _ _ _ Fr) as Cu. pose proof (fr_blk _ _ _ _ _ Fr) as K1.
    destruct (chg_conn _ _ _ _ _ E6 ltac:(lia)) as [C6 _]. destruct (connect_then _ _ _ _ E6) as (T6 & G6 & _ & _ & K6 & _ & _).
    destruct (chg_conn _ _ _ _ _ E7 ltac:(lia)) as [C7 _]. destruct (connect_else _ _ _ _ E7) as (T7 & G7 & _ & Th7 & K7 & _ & _).
    assert (C25 : chg none s2 s5) by (eapply chg_trans; [exact C3|eapply chg_trans; [exact C4|exact C5|]|]; intros q _ [Q|Q]; exact Q).
    assert (C27 : chg (eq c) s2 s7). { eapply chg_trans; [exact C25|eapply chg_trans; [exact C6|exact C7|]|]; [intros q _ [Q|Q]; exact Q|intros q _ [[]|Q]; exact Q]. }
    assert (C07 : chg (eq k) st s7). { apply (fw1 _ _ s2 c); [apply (fw1 _ _ s1 c); [apply (chg_frame _ _ _ c); assumption|exact C2|exact Cu]|exact C27|exact Cu]. }
    assert (Em : forall q, (p_blk s1 <= q)%nat -> p_code s7 q = []).
    { intros q Hq. destruct (ws_empty _ _ W q ltac:(lia)) as (Q & _). rewrite G7, G6, G5, G4, G3, (Co2 q) by lia. pose proof (fr_empty _ _ _ _ _ Fr (ws_empty _ _ W) q Hq) as (Q' & _). exact Q'. }
    assert (B1 : p_blk s3 = p_blk s1) by lia. assert (B2 : p_blk s4 = S (p_blk s1)) by lia. rewrite B1, B2 in *.
    split; [reflexivity|]. split; [reflexivity|]. split; [lia|]. split; [lia|]. split; [exact C07|]. split; [apply Em; lia|]. split; [apply Em; lia|].
    split; [eapply wfs_chg; [exact W|exact C07|lia]|]. split; [eapply sco_mono; [exact Sc|apply (ch_var _ _ _ C07)]|].
    intros X E s y w' CX HX Ha Rl Hr. assert (Nc : ~ X c). { intros Q. destruct (HX c Q Lc). destruct Cu; [congruence|lia]. }
    apply (Br (fun q => c = q \/ X q)) with (t := p_blk s1) (f := S (p_blk s1)); auto.
    - apply (back1 c _ _ s7 C27 CX).
    - intros q [<-|Hq] Lq; [left; reflexivity|right]. apply HX; [exact Hq|lia].
    - rewrite (then_same _ _ _ _ CX Nc) by lia. rewrite Th7. exact T6.
    - rewrite (else_same _ _ _ _ CX Nc) by lia. exact T7.
  Qed.
  Lemma after_ok o s p s' : after_body o s = Some (p, s') -> (forall x, o = Some x -> (x < p_blk s)%nat) ->
    (o = None /\ p = None /\ s' = s) \/ exists x, o = Some x /\ p = Some (p_blk s) /\ (x < p_blk s)%nat /\ p_blk s' = S (p_blk s) /\ chg (eq x) s s' /\ p_next s' x = Some (p_blk s) /\ p_code s' = p_code s.
  Proof.
    intros H Hx. unfold after_body in H. destruct o as [x|]; [|apply some_inj in H; injection H as <- <-; left; auto]. right. exists x. split; [reflexivity|].
    destruct (bb_create s) as [k s1] eqn:E1. destruct (bb_connect x k NEXT s1) as [s2|] eqn:E2; [|discriminate]. apply some_inj in H. injection H as <- <-.
    destruct (chg_create none _ _ _ E1) as (C1 & -> & K1 & V1 & G1 & _). specialize (Hx x eq_refl). destruct (chg_conn _ _ _ _ _ E2 ltac:(lia)) as [C2 P]. destruct (connect_next _ _ _ _ E2) as (N & G2 & _ & _ & K2 & V2 & _).
    split; [reflexivity|]. split; [exact Hx|]. split; [lia|]. split; [eapply chg_trans; [exact C1|exact C2|]; intros c _ [[]|Q]; exact Q|]. split; [exact N|congruence].
  Qed.
  Lemma closed_num O st b st' y : closed O st b st' (Some y) -> forall q, O q -> (q < p_blk st')%nat -> q = y \/ ((q < p_blk st)%nat /\ q <> b).
  Proof. intros H q Hq Lq. destruct (H q Hq Lq) as [Q|Q]; [left; congruence|right; exact Q]. Qed.
  Lemma closed_num0 O st b st' : closed O st b st' None -> forall q, O q -> (q < p_blk st')%nat -> (q < p_blk st)%nat /\ q <> b.
  Proof. intros H q Hq Lq. destruct (H q Hq Lq) as [Q|Q]; [congruence|exact Q]. Qed.
  Ltac num := repeat match goal with
    | H : _ \/ _ |- _ => destruct H as [H|H]
    | HO : (forall q, ?O q -> (q < _)%nat -> _), H : ?O ?x |- _ => let Q := fresh "Q" in pose proof (HO x H ltac:(lia)) as Q; clear H
    end; try (exfalso; lia); try lia.
  Ltac nox := let H := fresh "H" in intros H; num.
  Lemma len_nil st b : p_code st b = [] -> len st b = 0%nat.
  Proof. unfold len. intros ->. reflexivity. Qed.

  Lemma if_did n c a brk cnt ce st b k s1 s2 w r ts3 s3 c' s4 s5 t s6 f s7 s8 s9 s10 o e1 p s11 s12 st' o' Ta : wfs st b -> sco st (c_scopes ce) ->
    no_cond c = true -> fine_expr (ctypes (c_scopes ce)) c = true -> rgram 3 c ->
    bb_create st = (k, s1) -> bb_connect b k NEXT s1 = Some s2 -> read_expr find_constant (look ce) find_func special lim n (rtokens c ++ (T_close_bracket, w) :: r) s2 k = Some (ts3, s3, c') ->
    add_branch lim c' s3 = Some s4 -> label lim s4 = Some s5 -> bb_create s5 = (t, s6) -> bb_create s6 = (f, s7) -> bb_connect c' t THEN s7 = Some s8 -> bb_connect c' f ELSE s8 = Some s9 ->
    (wfs s9 t -> sco s9 (c_scopes ce) -> did_s false a Ta brk cnt ce s9 t s10 o e1) -> after_body o s10 = Some (p, s11) -> label lim s11 = Some s12 ->
    match p with Some p => match bb_connect f p NEXT s12 with Some s => Some (s, Some p) | None => None end | None => Some (s12, Some f) end = Some (st', o') ->
    ts3 = (T_close_bracket, w) :: r /\ did_s false (SIf c a) (ctypes (c_scopes ce)) brk cnt ce st b st' o' e1.
  Proof.
    intros W Sc Nc Fc Gc E1 E2 E3 E4 E5 E6 E7 E8 E9 D E11 E12 E13.
    destruct (enter_ok _ _ _ _ _ W E1 E2) as (-> & K2 & V2 & C2 & W2 & Z2 & N2 & G2 & _). assert (Sc2 : sco s2 (c_scopes ce)) by (eapply sco_mono; [exact Sc|lia]).
    destruct (ev_expr ce n c T_close_bracket w r _ _ _ _ _ W2 Sc2 Gc Nc Fc eq_refl E3) as [-> Ev]. split; [reflexivity|].
    destruct (head_ok _ _ _ _ _ _ _ _ _ _ _ _ _ _ W2 Sc2 (evals_tests _ _ _ _ _ _ Ev) E4 E5 E6 E7 E8 E9) as (-> & -> & K9 & K3 & C9 & Zt & Zf & W9 & Sc9 & Hd).
    destruct (D W9 Sc9) as [A1 A2 A3 A4 A5 A6 (new & A7 & A8 & A9)]. clear D. cbn [cut] in A3. pose proof (ch_blk _ _ _ A4) as K10.
    assert (W10 : wfs s10 (p_blk s3)) by (eapply wfs_chg; [exact W9|exact A4|lia]). pose proof (ws_b _ _ W) as Lb. pose proof (ws_exit _ _ W) as Lx.
    destruct (after_ok _ _ _ _ E11) as [(-> & -> & ->)|(x & -> & -> & Lx' & K11 & C11 & N11 & G11)]. { intros q Q. apply (A5 q Q). }
    - apply some_inj in E13. injection E13 as -> <-. destruct (chg_label lim none _ _ E12) as (C12 & K12 & G12 & _).
      assert (Cf : chg (eq b) st st'). { apply (fw0 _ _ s10); [|exact C12]. apply (fw1 _ _ s9 (p_blk s3)); [|exact A4|lia]. apply (fw1 _ _ s2 (p_blk st)); [exact C2|exact C9|lia]. }
      constructor; auto.
      + rewrite A3. eapply sco_mono; [exact Sc|apply (ch_var _ _ _ Cf)].
      + congruence.
      + intros b' Q. injection Q as <-. lia.
      + discriminate.
      + exists new. split; [exact A7|]. split; [exact A8|]. intros Hi Hp. specialize (A9 Hi Hp). intros O E s out E' w' CO Cl Ha R X. pose proof (closed_num _ _ _ _ _ Cl) as HO.
        pose proof (back0 _ _ _ C12 CO) as X10. pose proof (back1 _ _ _ _ A4 X10) as X9. pose proof (back1 _ _ _ _ C9 X9) as X2.
        assert (L0 : leads b (len st b) s (p_blk st) 0 (reset s)). { unfold len. rewrite <- G2. eapply go_next; [exact X2| |lia|exact N2|lia]. nox. }
        assert (Rs : rel (c_scopes ce) E (s_env (reset s))) by exact R.
        assert (Hd' : forall y w1, cexp E c (s_world s) y w1 -> exists s', leads b (len st b) s (if y =? 0 then S (p_blk s3) else p_blk s3) 0 s' /\ s_args s' = [] /\ s_world s' = w1 /\ rel (c_scopes ce) E (s_env s')).
        { intros y w1 Hy. destruct (Hd _ E (reset s) y w1 X9) as (s' & Le & Q); auto; [intros q Hq Lq; num; auto|]. exists s'. split; [|exact Q]. eapply leads_trans; [exact L0|]. rewrite (len_nil _ _ Z2) in Le. exact Le. }
        inversion X; subst.
        * match goal with Hy : cexp _ c _ _ _ |- _ => destruct (Hd' _ _ Hy) as (s' & Le & Ha' & Hw' & R') end. rewrite (proj2 (Z.eqb_neq _ _)) in Le by assumption. subst w1.
          match goal with Hx : exec a _ _ _ _ _ |- _ => pose proof (A9 _ _ s' _ _ _ X10 ltac:(intros q Hq Lq; num; right; lia) Ha' R' Hx) as G end. rewrite (len_nil _ _ Zt) in G.
          apply (reach_from _ _ _ _ _ _ _ _ _ _ _ _ _ _ _ _ Le) in G. destruct out; [cbn [reach] in G; destruct G as (b' & Q & _); discriminate| | |]; (eapply reach_later; [discriminate|left; reflexivity|apply (ch_pred _ _ _ C12)|exact G]).
        * match goal with Hy : cexp _ c _ _ _ |- _ => destruct (Hd' _ _ Hy) as (s' & Le & Ha' & Hw' & R') end. cbn [Z.eqb] in Le. cbn [reach]. exists (S (p_blk s3)). split; [reflexivity|]. exists s'.
          assert (Zl : len st' (S (p_blk s3)) = 0%nat). { apply len_nil. rewrite G12, (code_same _ _ _ _ A4) by lia. exact Zf. } rewrite Zl, A3. auto.
    - destruct (bb_connect (S (p_blk s3)) (p_blk s10) NEXT s12) as [s13|] eqn:E14; [|discriminate]. apply some_inj in E13. injection E13 as -> <-. destruct (chg_label lim none _ _ E12) as (C12 & K12 & G12 & _).
      destruct (chg_conn _ _ _ _ _ E14 ltac:(lia)) as [C13 P13]. destruct (connect_next _ _ _ _ E14) as (N13 & G13 & _ & _ & K13 & V13 & _). pose proof (A5 x eq_refl) as [Cx _].
      assert (Cf : chg (eq b) st st'). { apply (fw1 _ _ s12 (S (p_blk s3))); [|exact C13|lia]. apply (fw0 _ _ s11); [|exact C12]. apply (fw1 _ _ s10 x); [|exact C11|lia]. apply (fw1 _ _ s9 (p_blk s3)); [|exact A4|lia]. apply (fw1 _ _ s2 (p_blk st)); [exact C2|exact C9|lia]. }
      constructor; auto.
      + rewrite A3. eapply sco_mono; [exact Sc|apply (ch_var _ _ _ Cf)].
      + congruence.
      + intros b' Q. injection Q as <-. lia.
      + discriminate.
      + exists new. split; [exact A7|]. split; [exact A8|]. intros Hi Hp. specialize (A9 Hi Hp). intros O E s out E' w' CO Cl Ha R X. pose proof (closed_num _ _ _ _ _ Cl) as HO.
        pose proof (back1 _ _ _ _ C13 CO) as X12. pose proof (back0 _ _ _ C12 X12) as X11. pose proof (back1 _ _ _ _ C11 X11) as X10. pose proof (back1 _ _ _ _ A4 X10) as X9. pose proof (back1 _ _ _ _ C9 X9) as X2.
        assert (L0 : leads b (len st b) s (p_blk st) 0 (reset s)). { unfold len. rewrite <- G2. eapply go_next; [exact X2| |lia|exact N2|lia]. nox. }
        assert (Rs : rel (c_scopes ce) E (s_env (reset s))) by exact R.
        assert (Hd' : forall y w1, cexp E c (s_world s) y w1 -> exists s', leads b (len st b) s (if y =? 0 then S (p_blk s3) else p_blk s3) 0 s' /\ s_args s' = [] /\ s_world s' = w1 /\ rel (c_scopes ce) E (s_env s')).
        { intros y w1 Hy. destruct (Hd _ E (reset s) y w1 X9) as (s' & Le & Q); auto; [intros q Hq Lq; num; auto|]. exists s'. split; [|exact Q]. eapply leads_trans; [exact L0|]. rewrite (len_nil _ _ Z2) in Le. exact Le. }
        assert (Zp : len st' (p_blk s10) = 0%nat). { apply len_nil. rewrite G13, G12, G11. apply (ws_empty _ _ W10). lia. }
        inversion X; subst.
        * match goal with Hy : cexp _ c _ _ _ |- _ => destruct (Hd' _ _ Hy) as (s' & Le & Ha' & Hw' & R') end. rewrite (proj2 (Z.eqb_neq _ _)) in Le by assumption. subst w1.
          match goal with Hx : exec a _ _ _ _ _ |- _ => pose proof (A9 _ _ s' _ _ _ X10 ltac:(intros q Hq Lq; num; first [left; congruence|right; lia]) Ha' R' Hx) as G end. rewrite (len_nil _ _ Zt) in G.
          apply (reach_from _ _ _ _ _ _ _ _ _ _ _ _ _ _ _ _ Le) in G. destruct out; [|(eapply reach_later; [discriminate|left; reflexivity| |exact G]; eapply pl_trans; [apply (ch_pred _ _ _ C11)|]; eapply pl_trans; [apply (ch_pred _ _ _ C12)|apply (ch_pred _ _ _ C13)])..].
          cbn [reach] in *. destruct G as (b' & Q & G). injection Q as <-. exists (p_blk s10). split; [reflexivity|]. rewrite Zp. eapply gets_reset; [exact G|]. intros s1'. replace (len s10 x) with (len s11 x) by (unfold len; rewrite G11; reflexivity).
          eapply go_next; [exact X11| |lia|exact N11|lia]. nox.
        * match goal with Hy : cexp _ c _ _ _ |- _ => destruct (Hd' _ _ Hy) as (s' & Le & Ha' & Hw' & R') end. cbn [Z.eqb] in Le. cbn [reach]. exists (p_blk s10). split; [reflexivity|]. rewrite Zp, A3.
          eapply gets_reset; [exists s'; split; [exact Le|auto]|]. intros s1'. assert (Zl : len st' (S (p_blk s3)) = 0%nat).
          { apply len_nil. rewrite G13, G12, G11, (code_same _ _ _ _ A4) by lia. exact Zf. }
          rewrite <- Zl at 1. eapply go_next; [exact CO| |lia|exact N13|lia]. nox.
  Qed.
  Lemma after_all o s p s' : after_body o s = Some (p, s') -> (forall x, o = Some x -> (x < p_blk s)%nat) ->
    chg (fun q => o = Some q) s s' /\ (p_blk s <= p_blk s')%nat /\ p_code s' = p_code s /\ (o = None -> p = None) /\
    (forall x, Some x = o -> p = Some (p_blk s) /\ p_next s' x = Some (p_blk s)) /\ (forall y, p = Some y -> y = p_blk s /\ p_blk s' = S (p_blk s)).
  Proof.
    intros H Hx. destruct (after_ok _ _ _ _ H Hx) as [(-> & -> & ->)|(x & -> & -> & Lx & K & C & N & G)].
    - split; [apply chg_refl|]. split; [lia|]. split; [reflexivity|]. split; [auto|]. split; discriminate.
    - split; [eapply chg_weaken; [exact C|]; intros c _ ->; reflexivity|]. split; [lia|]. split; [exact G|]. split; [discriminate|]. split; [|intros y Q; injection Q as <-; auto]. intros y Q. injection Q as <-. auto.
  Qed.
  Ltac num2 := repeat match goal with
    | H : _ \/ _ |- _ => destruct H as [H|H]
    | HO : (forall q, ?O q -> (q < _)%nat -> _), H : ?O ?x |- _ => let Q := fresh "Q" in pose proof (HO x H ltac:(lia)) as Q; clear H
    | H : ?o = Some ?x, B : forall y, ?o = Some y -> _ |- _ => apply B in H
    end; try (exfalso; lia); try lia.
  Lemma ifelse_did n c a b2 brk cnt ce st b k s1 s2 w r ts3 s3 c' s4 s5 t s6 f s7 s8 s9 s10 o e1 p s11 s12 s13 s14 o2 e2 p2 s15 s16 st' o' Ta Tb : wfs st b -> sco st (c_scopes ce) ->
    no_cond c = true -> fine_expr (ctypes (c_scopes ce)) c = true -> rgram 3 c ->
    bb_create st = (k, s1) -> bb_connect b k NEXT s1 = Some s2 -> read_expr find_constant (look ce) find_func special lim n (rtokens c ++ (T_close_bracket, w) :: r) s2 k = Some (ts3, s3, c') ->
    add_branch lim c' s3 = Some s4 -> label lim s4 = Some s5 -> bb_create s5 = (t, s6) -> bb_create s6 = (f, s7) -> bb_connect c' t THEN s7 = Some s8 -> bb_connect c' f ELSE s8 = Some s9 ->
    (wfs s9 t -> sco s9 (c_scopes ce) -> did_s false a Ta brk cnt ce s9 t s10 o e1) -> after_body o s10 = Some (p, s11) -> label lim s11 = Some s12 -> label lim s12 = Some s13 ->
    (wfs s13 f -> sco s13 (c_scopes e1) -> did_s false b2 Tb brk cnt e1 s13 f s14 o2 e2) -> after_body o2 s14 = Some (p2, s15) -> label lim s15 = Some s16 ->
    match p, p2 with
    | Some p, Some q => let '(j, st) := bb_create s16 in do st <- bb_connect p j NEXT st; do st <- bb_connect q j NEXT st; Some (st, Some j)
    | Some p, None => Some (s16, Some p)
    | None, _ => Some (s16, p2)
    end = Some (st', o') ->
    ts3 = (T_close_bracket, w) :: r /\ did_s false (SIfElse c a b2) (ctypes (c_scopes ce)) brk cnt ce st b st' o' e2.
  Proof.
    intros W Sc Nc Fc Gc E1 E2 E3 E4 E5 E6 E7 E8 E9 D E11 E12 E13 D2 E15 E16 E17.
    destruct (enter_ok _ _ _ _ _ W E1 E2) as (-> & K2 & V2 & C2 & W2 & Z2 & N2 & G2 & _). assert (Sc2 : sco s2 (c_scopes ce)) by (eapply sco_mono; [exact Sc|lia]).
    destruct (ev_expr ce n c T_close_bracket w r _ _ _ _ _ W2 Sc2 Gc Nc Fc eq_refl E3) as [-> Ev]. split; [reflexivity|].
    destruct (head_ok _ _ _ _ _ _ _ _ _ _ _ _ _ _ W2 Sc2 (evals_tests _ _ _ _ _ _ Ev) E4 E5 E6 E7 E8 E9) as (-> & -> & K9 & K3 & C9 & Zt & Zf & W9 & Sc9 & Hd).
    destruct (D W9 Sc9) as [A1 A2 A3 A4 A5 A6 (new & A7 & A8 & A9)]. clear D. cbn [cut] in A3. pose proof (ch_blk _ _ _ A4) as K10.
    assert (W10 : wfs s10 (p_blk s3)) by (eapply wfs_chg; [exact W9|exact A4|lia]). pose proof (ws_b _ _ W) as Lb. pose proof (ws_exit _ _ W) as Lx.
    destruct (after_all _ _ _ _ E11) as (C11 & K11 & G11 & Bn & Bo & Bp). { intros q Q. apply (A5 q Q). }
    destruct (chg_label lim none _ _ E12) as (C12 & K12 & G12 & _). destruct (chg_label lim none _ _ E13) as (C13 & K13 & G13 & _).
    assert (C10' : chg (fun q => o = Some q) s10 s13). { eapply chg_trans; [exact C11|eapply chg_trans; [exact C12|exact C13|]|]; [intros q _ [Q|Q]; exact Q|]. intros q _ [Q|[]]. exact Q. }
    assert (W13 : wfs s13 (S (p_blk s3))) by (eapply wfs_chg; [exact W10|exact C10'|lia]). assert (Sc13 : sco s13 (c_scopes e1)) by (eapply sco_mono; [exact A1|apply (ch_var _ _ _ C10')]).
    destruct (D2 W13 Sc13) as [B1 B2 B3 B4 B5 B6 (new2 & B7 & B8 & B9)]. clear D2. cbn [cut] in B3. pose proof (ch_blk _ _ _ B4) as K14.
    destruct (after_all _ _ _ _ E15) as (C15 & K15 & G15 & Bn2 & Bo2 & Bp2). { intros q Q. apply (B5 q Q). }
    destruct (chg_label lim none _ _ E16) as (C16 & K16 & G16 & _).
    assert (W14 : wfs s14 (S (p_blk s3))) by (eapply wfs_chg; [exact W13|exact B4|lia]).
    assert (J : chg (fun q => p = Some q \/ p2 = Some q) s16 st' /\ p_code st' = p_code s16 /\ (p_blk s16 <= p_blk st')%nat /\
      (forall q, o' = Some q -> ((q = p_blk s10 /\ (p_blk s10 < p_blk s11)%nat) \/ (p_blk s14 <= q)%nat) /\ (q < p_blk st')%nat) /\
      (forall y, Some y = p -> o' = Some y \/ exists j, o' = Some j /\ p_next st' y = Some j /\ j = p_blk s16) /\ (forall y, Some y = p2 -> o' = Some y \/ exists j, o' = Some j /\ p_next st' y = Some j /\ j = p_blk s16) /\
      (o' = None -> p = None /\ p2 = None)).
    { destruct p as [y|]; [destruct p2 as [y2|]|].
      - destruct (Bp y eq_refl) as [-> Kp]. destruct (Bp2 y2 eq_refl) as [-> Kp2]. destruct (bb_create s16) as [j s17] eqn:E18. destruct (chg_create none _ _ _ E18) as (C17 & -> & K17 & _ & G17 & _).
        destruct (bb_connect (p_blk s10) (p_blk s16) NEXT s17) as [s18|] eqn:E19; [|discriminate]. destruct (bb_connect (p_blk s14) (p_blk s16) NEXT s18) as [s19|] eqn:E20; [|discriminate]. apply some_inj in E17. injection E17 as <- <-.
        destruct (chg_conn _ _ _ _ _ E19 ltac:(lia)) as [C19 _]. destruct (connect_next _ _ _ _ E19) as (N19 & G19 & _ & _ & K19 & _). destruct (chg_conn _ _ _ _ _ E20 ltac:(lia)) as [C20 _]. destruct (connect_next _ _ _ _ E20) as (N20 & G20 & _ & _ & K20 & _).
        split. { eapply chg_trans; [exact C17|eapply chg_trans; [exact C19|exact C20|]|]; [intros q _ Q; exact Q|]. intros q _ [[]|[<-|<-]]; auto. }
        split; [congruence|]. split; [lia|]. split; [intros q Q; injection Q as <-; lia|]. split; [intros y Q; injection Q as ->; right; eexists; split; [reflexivity|]|split; [intros y Q; injection Q as ->; right; eexists; split; [reflexivity|split; [exact N20|reflexivity]]|discriminate]].
        split; [|reflexivity]. rewrite (next_same _ _ _ _ C20) by lia. exact N19.
      - apply some_inj in E17. injection E17 as <- <-. destruct (Bp y eq_refl) as [-> Kp]. split; [apply chg_refl|]. split; [reflexivity|]. split; [lia|]. split; [intros q Q; injection Q as <-; lia|]. split; [intros y Q; left; symmetry; exact Q|]. split; discriminate.
      - apply some_inj in E17. injection E17 as <- <-. split; [apply chg_refl|]. split; [reflexivity|]. split; [lia|]. split; [intros q Q; destruct (Bp2 q Q); lia|]. split; [discriminate|]. split; [intros y Q; left; symmetry; exact Q|]. auto. }
    clear E17. destruct J as (CJ & GJ & KJ & Bo' & JA & JB & Jn).
    assert (Cf : chg (eq b) st st').
    { assert (C' : chg (eq b) st s10). { apply (fw1 _ _ s9 (p_blk s3)); [|exact A4|lia]. apply (fw1 _ _ s2 (p_blk st)); [exact C2|exact C9|lia]. }
      assert (C'' : chg (eq b) st s14). { apply (fw1 _ _ s13 (S (p_blk s3))); [|exact B4|lia]. eapply chg_trans; [exact C'|exact C10'|]. intros q Hq [Q|Q]; [exact Q|]. destruct (A5 q Q). lia. }
      eapply chg_trans; [eapply chg_trans; [exact C''|eapply chg_trans; [exact C15|exact C16|]|]|exact CJ|].
      - intros q Hq Q. exact Q. - intros q Hq [Q|[Q|[]]]; [exact Q|]. destruct (B5 q Q). lia.
      - intros q Hq [Q|[Q|Q]]; [exact Q| |]; [destruct (Bp q Q)|destruct (Bp2 q Q)]; lia. }
    constructor; auto.
    - rewrite B3, A3. eapply sco_mono; [exact Sc|apply (ch_var _ _ _ Cf)].
    - congruence.
    - cbn [cut]. congruence.
    - intros b' Q. destruct (Bo' b' Q). lia.
    - intros Hf Q. destruct (Jn Q) as [-> ->]. cbn [falls] in Hf. apply orb_true_iff in Hf. destruct Hf as [Hf|Hf].
      + destruct o as [x|]; [destruct (Bo x eq_refl); discriminate|apply A6; auto].
      + destruct o2 as [x|]; [destruct (Bo2 x eq_refl); discriminate|apply B6; auto].
    - exists (new2 ++ new). split; [rewrite B7, A7, app_assoc; reflexivity|]. assert (P : places (SIfElse c a b2) = places a ++ places b2) by reflexivity. rewrite P, arrays_app, !app_length, A8, B8. split; [reflexivity|].
      intros Hi Hp. rewrite map_app in Hp. apply app_split in Hp; [|rewrite map_length; exact A8]. destruct Hp as [Hp1 Hp2].
      specialize (A9 (fun v Hv => Hi v (in_or_app _ _ _ (or_intror Hv))) Hp1). specialize (B9 (fun v Hv => Hi v (in_or_app _ _ _ (or_introl Hv))) Hp2).
      intros O E s out E' w' CO HO Ha R X. unfold closed in HO.
      assert (X16 : chg (fun q => (p = Some q \/ p2 = Some q) \/ O q) s16 F) by (eapply chg_trans; [exact CJ|exact CO|tauto]).
      pose proof (back0 _ _ _ C16 X16) as X15. assert (X14 : chg (fun q => o2 = Some q \/ (p = Some q \/ p2 = Some q) \/ O q) s14 F) by (eapply chg_trans; [exact C15|exact X15|tauto]).
      pose proof (back1 _ _ _ _ B4 X14) as X13. pose proof (back0 _ _ _ C12 (back0 _ _ _ C13 X13)) as X11.
      assert (X10 : chg (fun q => o = Some q \/ S (p_blk s3) = q \/ o2 = Some q \/ (p = Some q \/ p2 = Some q) \/ O q) s10 F) by (eapply chg_trans; [exact C11|exact X11|tauto]).
      pose proof (back1 _ _ _ _ A4 X10) as X9. pose proof (back1 _ _ _ _ C9 X9) as X2.
      assert (L0 : leads b (len st b) s (p_blk st) 0 (reset s)). { unfold len. rewrite <- G2. eapply go_next; [exact X2| |lia|exact N2|lia]. intros HH. num2. }
      assert (Rs : rel (c_scopes ce) E (s_env (reset s))) by exact R.
      assert (Hd' : forall y w1, cexp E c (s_world s) y w1 -> exists s', leads b (len st b) s (if y =? 0 then S (p_blk s3) else p_blk s3) 0 s' /\ s_args s' = [] /\ s_world s' = w1 /\ rel (c_scopes ce) E (s_env s')).
      { intros y w1 Hy. destruct (Hd _ E (reset s) y w1 X9) as (s' & Le & Q); auto; [intros q Hq Lq; num2; auto|]. exists s'. split; [|exact Q]. eapply leads_trans; [exact L0|]. rewrite (len_nil _ _ Z2) in Le. exact Le. }
      (* the ends of the two parts *)
      assert (ZJ : forall y, (p_blk s14 <= y)%nat -> len st' y = 0%nat). { intros y Hy. apply len_nil. rewrite GJ, G16, G15. apply (ws_empty _ _ W14). exact Hy. }
      assert (ZA : (p_blk s10 < p_blk s11)%nat -> len st' (p_blk s10) = 0%nat).
      { intros Lt. apply len_nil. rewrite GJ, G16, G15, (code_same _ _ _ _ B4) by lia. rewrite G13, G12, G11. apply (ws_empty _ _ W10). lia. }
      assert (ClA : closed (fun q => o = Some q \/ S (p_blk s3) = q \/ o2 = Some q \/ (p = Some q \/ p2 = Some q) \/ O q) s9 (p_blk s3) s10 o). { intros q [Hq|Hq] Lq; [left; exact Hq|]. right. num2. }
      assert (ClB : closed (fun q => o2 = Some q \/ (p = Some q \/ p2 = Some q) \/ O q) s13 (S (p_blk s3)) s14 o2). { intros q [Hq|Hq] Lq; [left; exact Hq|]. right. num2. }
      assert (LA : forall x, o = Some x -> exists j, o' = Some j /\ forall s1, leads x (len s10 x) s1 j (len st' j) (reset s1)).
      { intros x Q. destruct (Bo x (eq_sym Q)) as [Q1 Q2]. destruct (Bp _ Q1) as [_ Kp]. destruct (A5 x Q) as [Q3 Q4].
        assert (L1 : forall s1, leads x (len s10 x) s1 (p_blk s10) 0 (reset s1)). { intros s1'. unfold len. rewrite <- G11. eapply go_next; [exact X11| |lia|exact Q2|lia]. intros HH. num2. }
        destruct (JA _ (eq_sym Q1)) as [J|(j & J & N & ->)]; (eexists; split; [exact J|]); intros s1'; [rewrite ZA by lia; apply L1|]. rewrite ZJ by lia. eapply leads_trans; [apply L1|].
        assert (NO : ~ O (p_blk s10)). { intros HH. destruct (HO _ HH ltac:(lia)) as [H1|H1]; [|lia]. rewrite J in H1. injection H1 as H1. lia. }
        pose proof (go_next O st' (p_blk s10) (p_blk s16) (reset s1') CO NO ltac:(lia) N ltac:(lia)) as Lq. rewrite (ZA ltac:(lia)) in Lq. exact Lq. }
      assert (LB : forall x, o2 = Some x -> exists j, o' = Some j /\ forall s1, leads x (len s14 x) s1 j (len st' j) (reset s1)).
      { intros x Q. destruct (Bo2 x (eq_sym Q)) as [Q1 Q2]. destruct (Bp2 _ Q1) as [_ Kp]. destruct (B5 x Q) as [Q3 Q4].
        assert (L1 : forall s1, leads x (len s14 x) s1 (p_blk s14) 0 (reset s1)). { intros s1'. unfold len. rewrite <- G15. eapply go_next; [exact X15| |lia|exact Q2|lia]. intros HH. num2. }
        destruct (JB _ (eq_sym Q1)) as [J|(j & J & N & ->)]; (eexists; split; [exact J|]); intros s1'; [rewrite ZJ by lia; apply L1|]. rewrite ZJ by lia. eapply leads_trans; [apply L1|].
        assert (NO : ~ O (p_blk s14)). { intros HH. destruct (HO _ HH ltac:(lia)) as [H1|H1]; [|lia]. rewrite J in H1. injection H1 as H1. lia. }
        pose proof (go_next O st' (p_blk s14) (p_blk s16) (reset s1') CO NO ltac:(lia) N ltac:(lia)) as Lq. rewrite (ZJ (p_blk s14) ltac:(lia)) in Lq. exact Lq. }
      inversion X; subst.
      + match goal with Hy : cexp _ c _ _ _ |- _ => destruct (Hd' _ _ Hy) as (s' & Le & Ha' & Hw' & R') end. rewrite (proj2 (Z.eqb_neq _ _)) in Le by assumption. subst w1.
        match goal with Hx : exec a _ _ _ _ _ |- _ => pose proof (A9 _ _ s' _ _ _ X10 ClA Ha' R' Hx) as G end. rewrite (len_nil _ _ Zt) in G.
        apply (reach_from _ _ _ _ _ _ _ _ _ _ _ _ _ _ _ _ Le) in G. destruct out; [|(eapply reach_later; [discriminate|left; reflexivity| |exact G]; eapply pl_trans; [apply (ch_pred _ _ _ C10')|]; eapply pl_trans; [apply (ch_pred _ _ _ B4)|]; eapply pl_trans; [apply (ch_pred _ _ _ C15)|]; eapply pl_trans; [apply (ch_pred _ _ _ C16)|apply (ch_pred _ _ _ CJ)])..].
        cbn [reach] in *. destruct G as (b' & Q & G). destruct (LA b' Q) as (j & J & Lj). exists j. split; [exact J|]. rewrite B3. eapply gets_reset; [exact G|exact Lj].
      + match goal with Hy : cexp _ c _ _ _ |- _ => destruct (Hd' _ _ Hy) as (s' & Le & Ha' & Hw' & R') end. cbn [Z.eqb] in Le. subst w1. rewrite <- A3 in R'.
        match goal with Hx : exec b2 _ _ _ _ _ |- _ => pose proof (B9 _ _ s' _ _ _ X14 ClB Ha' R' Hx) as G end.
        assert (Zf' : len s13 (S (p_blk s3)) = 0%nat). { apply len_nil. rewrite G13, G12, G11, (code_same _ _ _ _ A4) by lia. exact Zf. } rewrite Zf' in G.
        apply (reach_from _ _ _ _ _ _ _ _ _ _ _ _ _ _ _ _ Le) in G. rewrite A3 in G. destruct out; [|(eapply reach_later; [discriminate|left; reflexivity| |exact G]; eapply pl_trans; [apply (ch_pred _ _ _ C15)|]; eapply pl_trans; [apply (ch_pred _ _ _ C16)|apply (ch_pred _ _ _ CJ)])..].
        cbn [reach] in *. destruct G as (b' & Q & G). destruct (LB b' Q) as (j & J & Lj). exists j. split; [exact J|]. eapply gets_reset; [exact G|exact Lj].
  Qed.
  Lemma connect_all o k s s' : connect_opt o k s = Some s' -> (forall x, o = Some x -> (x < p_blk s)%nat) ->
    chg (fun q => o = Some q) s s' /\ p_blk s' = p_blk s /\ p_var s' = p_var s /\ p_code s' = p_code s /\ (forall x, Some x = o -> p_next s' x = Some k /\ (0 < p_pred s' k)%nat).
  Proof.
    intros H Hx. unfold connect_opt in H. destruct o as [x|].
    - destruct (chg_conn _ _ _ _ _ H (Hx x eq_refl)) as [C P]. destruct (connect_next _ _ _ _ H) as (N & G & _ & _ & K & V1 & _). split; [eapply chg_weaken; [exact C|]; intros c _ ->; reflexivity|]. split; [exact K|]. split; [exact V1|]. split; [exact G|]. intros y Q. injection Q as ->. auto.
    - apply some_inj in H. subst s'. split; [apply chg_refl|]. split; [reflexivity|]. split; [reflexivity|]. split; [reflexivity|]. discriminate.
  Qed.
  Lemma while_did n c a brk cnt ce st b k s1 s2 s3 s4 g s5 w r ts6 s6 c' s7 s8 t s9 f s10 s11 s12 s13 o e1 s14 st' Ta : wfs st b -> sco st (c_scopes ce) ->
    no_cond c = true -> fine_expr (ctypes (c_scopes ce)) c = true -> rgram 3 c ->
    bb_create st = (k, s1) -> bb_connect b k NEXT s1 = Some s2 -> label lim s2 = Some s3 -> label lim s3 = Some s4 -> bb_create s4 = (g, s5) ->
    read_expr find_constant (look ce) find_func special lim n (rtokens c ++ (T_close_bracket, w) :: r) s5 k = Some (ts6, s6, c') ->
    add_branch lim c' s6 = Some s7 -> label lim s7 = Some s8 -> bb_create s8 = (t, s9) -> bb_create s9 = (f, s10) -> bb_connect c' t THEN s10 = Some s11 -> bb_connect c' f ELSE s11 = Some s12 ->
    (wfs s12 t -> sco s12 (c_scopes ce) -> tgt (Some f) -> tgt (Some k) -> did_s false a Ta (Some f) (Some k) ce s12 t s13 o e1) -> label lim s13 = Some s14 -> connect_opt o k s14 = Some st' ->
    ts6 = (T_close_bracket, w) :: r /\ did_s false (SWhile c a) (ctypes (c_scopes ce)) brk cnt ce st b st' (Some f) e1.
  Proof.
    intros W Sc Nc Fc Gc E1 E2 E3 E4 E5 E6 E7 E8 E9 E10 E11 E12 D E14 E15.
    destruct (enter_ok _ _ _ _ _ W E1 E2) as (-> & K2 & V2 & C2 & W2 & Z2 & N2 & G2 & _).
    destruct (chg_label lim none _ _ E3) as (C3 & K3 & G3 & _). destruct (chg_label lim none _ _ E4) as (C4 & K4 & G4 & _). destruct (chg_create none _ _ _ E5) as (C5 & _ & K5 & _ & G5 & _).
    assert (C25 : chg none s2 s5) by (eapply chg_trans; [exact C3|eapply chg_trans; [exact C4|exact C5|]|]; intros q _ [Q|Q]; exact Q).
    assert (W5 : wfs s5 (p_blk st)) by (eapply wfs_chg; [exact W2|exact C25|lia]). assert (Sc5 : sco s5 (c_scopes ce)) by (eapply sco_mono; [exact Sc|pose proof (ch_var _ _ _ C25); lia]).
    assert (Z5 : len s5 (p_blk st) = 0%nat) by (apply len_nil; rewrite G5, G4, G3; exact Z2).
    destruct (ev_expr ce n c T_close_bracket w r _ _ _ _ _ W5 Sc5 Gc Nc Fc eq_refl E6) as [-> Ev]. split; [reflexivity|].
    destruct (head_ok _ _ _ _ _ _ _ _ _ _ _ _ _ _ W5 Sc5 (evals_tests _ _ _ _ _ _ Ev) E7 E8 E9 E10 E11 E12) as (-> & -> & K12 & K6 & C12 & Zt & Zf & W12 & Sc12 & Hd).
    pose proof (ws_b _ _ W) as Lb. pose proof (ws_exit _ _ W) as Lx.
    destruct (D W12 Sc12) as [A1 A2 A3 A4 A5 A6 (new & A7 & A8 & A9)]. { intros q Q. injection Q as <-. lia. } { intros q Q. injection Q as <-. lia. } clear D. cbn [cut] in A3. pose proof (ch_blk _ _ _ A4) as K13.
    destruct (chg_label lim none _ _ E14) as (C14 & K14 & G14 & _). destruct (connect_all _ _ _ _ E15) as (C15 & K15 & _ & G15 & Bo). { intros q Q. rewrite K14. apply (A5 q Q). }
    assert (Cf : chg (eq b) st st').
    { assert (C' : chg (eq b) st s14). { apply (fw0 _ _ s13); [|exact C14]. apply (fw1 _ _ s12 (p_blk s6)); [|exact A4|lia]. apply (fw1 _ _ s5 (p_blk st)); [|exact C12|lia]. apply (fw0 _ _ s2); assumption. }
      eapply chg_trans; [exact C'|exact C15|]. intros q Hq [Q|Q]; [exact Q|]. destruct (A5 q Q). lia. }
    constructor; auto.
    - rewrite A3. eapply sco_mono; [exact Sc|apply (ch_var _ _ _ Cf)].
    - congruence.
    - intros b' Q. injection Q as <-. lia.
    - discriminate.
    - exists new. split; [exact A7|]. split; [exact A8|]. intros Hi Hp. specialize (A9 Hi Hp). intros O E s out E' w' CO Cl Ha R X. pose proof (closed_num _ _ _ _ _ Cl) as HO.
      assert (X13 : chg (fun q => o = Some q \/ O q) s13 F) by (apply (back0 _ _ _ C14); eapply chg_trans; [exact C15|exact CO|tauto]).
      pose proof (back1 _ _ _ _ A4 X13) as X12. pose proof (back1 _ _ _ _ C12 X12) as X5. pose proof (back0 _ _ _ C25 X5) as X2.
      assert (L0 : leads b (len st b) s (p_blk st) 0 (reset s)). { unfold len. rewrite <- G2. eapply go_next; [exact X2| |lia|exact N2|lia]. intros HH. num2. }
      assert (ClA : closed (fun q => o = Some q \/ O q) s12 (p_blk s6) s13 o). { intros q [Hq|Hq] Lq; [left; exact Hq|]. right. num2. }
      assert (Zf' : len st' (S (p_blk s6)) = 0%nat). { apply len_nil. rewrite G15, G14, (code_same _ _ _ _ A4) by lia. exact Zf. }
      assert (Hd' : forall E s y w1, s_args s = [] -> rel (c_scopes ce) E (s_env s) -> cexp E c (s_world s) y w1 ->
        exists s', leads (p_blk st) 0 s (if y =? 0 then S (p_blk s6) else p_blk s6) 0 s' /\ s_args s' = [] /\ s_world s' = w1 /\ rel (c_scopes ce) E (s_env s')).
      { intros E0 s0 y w1 Ha0 R0 Hy. destruct (Hd _ E0 s0 y w1 X12) as (s' & Le & Q); auto; [intros q Hq Lq; num2; auto|]. exists s'. split; [|exact Q]. rewrite Z5 in Le. exact Le. }
      assert (Hb : forall E s o1 E1 w1, s_args s = [] -> rel (c_scopes ce) E (s_env s) -> exec a E (s_world s) o1 E1 w1 -> 
        match o1 with ONormal | OContinue => gets (p_blk s6) 0 s (p_blk st) 0 (c_scopes ce) E1 w1 | OBreak => gets (p_blk s6) 0 s (S (p_blk s6)) 0 (c_scopes ce) E1 w1 | OReturn r => tail (p_blk s6) 0 s w1 r end).
      { intros E0 s0 o1 Ex w1 Ha0 R0 Hx. pose proof (A9 _ _ s0 _ _ _ X13 ClA Ha0 R0 Hx) as G. rewrite (len_nil _ _ Zt) in G. destruct o1 as [| | |r1]; cbn [reach cut] in G.
        - destruct G as (x & Q & G). rewrite A3 in G. eapply gets_reset; [exact G|]. intros s1'. destruct (A5 x Q) as [Q1 Q2]. destruct (Bo x (eq_sym Q)) as [Q3 _]. replace (len s13 x) with (len st' x) by (unfold len; rewrite G15, G14; reflexivity).
          eapply go_next; [exact CO| |lia|exact Q3|lia]. clear Bo. intros HH. num2.
        - destruct G as (x & Q & _ & G). injection Q as <-. exact G.
        - destruct G as (x & Q & _ & G). injection Q as <-. exact G.
        - exact G. }
      clear A9 ClA HO Hp A8 A7. eapply reach_from; [exact L0|]. assert (Ha1 : s_args (reset s) = []) by reflexivity. assert (R1 : rel (c_scopes ce) E (s_env (reset s))) by exact R. change (s_world s) with (s_world (reset s)) in X. revert Ha1 R1 X. generalize (reset s). clear L0 Ha R s.
      intros s Ha R X. remember (SWhile c a) as p eqn:Ep. remember (s_world s) as w0 eqn:Ew. revert s Ha R Ew. induction X; try discriminate Ep; injection Ep as -> ->; intros s Ha R ->.
      + destruct (Hd' E s 0 w1 Ha R H) as (s' & Le & Q). cbn [reach]. exists (S (p_blk s6)). split; [reflexivity|]. rewrite Zf', A3. exists s'. split; [exact Le|exact Q].
      + destruct (Hd' E s v w1 Ha R H) as (s' & Le & Ha' & <- & R'). rewrite (proj2 (Z.eqb_neq _ _)) in Le by assumption. pose proof (Hb _ s' _ _ _ Ha' R' X1) as G.
        match type of X1 with exec _ _ _ _ ?Ey ?wy => assert (G' : gets (p_blk s6) 0 s' (p_blk st) 0 (c_scopes ce) Ey wy) by (destruct H1 as [-> | ->]; exact G) end. destruct G' as (s'' & Le2 & Ha2 & Hw2 & R2).
        eapply reach_from; [exact Le|]. eapply reach_from; [exact Le2|]. apply (IHX2 eq_refl s'' Ha2 R2). congruence.
      + destruct (Hd' E s v w1 Ha R H) as (s' & Le & Ha' & <- & R'). rewrite (proj2 (Z.eqb_neq _ _)) in Le by assumption. pose proof (Hb _ s' _ _ _ Ha' R' X) as G. cbn [reach]. exists (S (p_blk s6)). split; [reflexivity|]. rewrite Zf', A3. eapply gets_from; [exact Le|exact G].
      + destruct (Hd' E s v w1 Ha R H) as (s' & Le & Ha' & <- & R'). rewrite (proj2 (Z.eqb_neq _ _)) in Le by assumption. pose proof (Hb _ s' _ _ _ Ha' R' X) as G. cbn [reach]. apply Le. exact G.
  Qed.
  Lemma do_did n c a brk cnt ce st b k s1 s2 c0 s3 f s4 s5 s6 s7 s8 o e1 s9 s10 w r ts11 s11 c' s12 st' Ta : wfs st b -> sco st (c_scopes ce) ->
    no_cond c = true -> fine_expr (ctypes (c_scopes ce)) c = true -> rgram 3 c ->
    bb_create st = (k, s1) -> bb_connect b k NEXT s1 = Some s2 -> bb_create s2 = (c0, s3) -> bb_create s3 = (f, s4) -> label lim s4 = Some s5 -> label lim s5 = Some s6 -> label lim s6 = Some s7 ->
    (wfs s7 k -> sco s7 (c_scopes ce) -> tgt (Some f) -> tgt (Some c0) -> did_s false a Ta (Some f) (Some c0) ce s7 k s8 o e1) -> connect_opt o c0 s8 = Some s9 -> label lim s9 = Some s10 ->
    read_expr find_constant (look e1) find_func special lim n (rtokens c ++ (T_close_bracket, w) :: r) s10 c0 = Some (ts11, s11, c') -> add_branch lim c' s11 = Some s12 ->
    (if (p_pred s12 c' =? 0)%nat then Some s12 else do s <- bb_connect c' k THEN s12; bb_connect c' f ELSE s) = Some st' ->
    ts11 = (T_close_bracket, w) :: r /\ did_s false (SDo a c) (ctypes (c_scopes ce)) brk cnt ce st b st' (Some f) e1.
  Proof.
    intros W Sc Nc Fc Gc E1 E2 E3 E4 E5 E6 E7 D E9 E10 E11 E12 E13.
    destruct (enter_ok _ _ _ _ _ W E1 E2) as (-> & K2 & V2 & C2 & W2 & Z2 & N2 & G2 & _). clear E1.
    destruct (chg_create none _ _ _ E3) as (C3 & -> & K3 & _ & G3 & _). destruct (chg_create none _ _ _ E4) as (C4 & -> & K4 & _ & G4 & _).
    destruct (chg_label lim none _ _ E5) as (C5 & K5 & G5 & _). destruct (chg_label lim none _ _ E6) as (C6 & K6 & G6 & _). destruct (chg_label lim none _ _ E7) as (C7 & K7 & G7 & _).
    assert (C27 : chg none s2 s7) by (eapply chg_trans; [exact C3|eapply chg_trans; [exact C4|eapply chg_trans; [exact C5|eapply chg_trans; [exact C6|exact C7|]|]|]|]; intros q _ [Q|Q]; exact Q).
    assert (Gs : p_code s7 = p_code s2) by congruence. rewrite K2 in *. assert (Q3 : p_blk s3 = S (S (p_blk st))) by lia. rewrite Q3 in *.
    assert (W7 : wfs s7 (p_blk st)) by (eapply wfs_chg; [exact W2|exact C27|lia]). assert (Sc7 : sco s7 (c_scopes ce)) by (eapply sco_mono; [exact Sc|pose proof (ch_var _ _ _ C27); lia]).
    pose proof (ws_b _ _ W) as Lb. pose proof (ws_exit _ _ W) as Lx.
    destruct (D W7 Sc7) as [A1 A2 A3 A4 A5 A6 (new & A7 & A8 & A9)]. { intros q Q. injection Q as <-. lia. } { intros q Q. injection Q as <-. lia. } clear D. cbn [cut] in A3. pose proof (ch_blk _ _ _ A4) as K8.
    destruct (connect_all _ _ _ _ E9) as (C9 & K9 & _ & G9 & Bo). { intros q Q. apply (A5 q Q). }
    destruct (chg_label lim none _ _ E10) as (C10 & K10 & G10 & _).
    assert (W10 : wfs s10 (S (p_blk st))). { eapply wfs_chg; [exact W7|eapply chg_trans; [exact A4|eapply chg_trans; [exact C9|exact C10|]|]; intros q _ Q; exact Q|lia]. }
    assert (Sc10 : sco s10 (c_scopes e1)). { eapply sco_mono; [exact A1|]. pose proof (ch_var _ _ _ C9). pose proof (ch_var _ _ _ C10). lia. }
    assert (Z10 : len s10 (S (p_blk st)) = 0%nat). { apply len_nil. rewrite G10, G9, (code_same _ _ _ _ A4), Gs by lia. apply (ws_empty _ _ W2). lia. }
    rewrite <- A3 in Fc. destruct (ev_expr e1 n c T_close_bracket w r _ _ _ _ _ W10 Sc10 Gc Nc Fc eq_refl E11) as [-> Ev]. split; [reflexivity|].
    pose proof (evals_tests _ _ _ _ _ _ Ev) as Te. pose proof Te as (Fr & P11 & Cu & _). pose proof (fr_lt _ _ _ _ _ Fr (ws_b _ _ W10)) as Lc. pose proof (fr_cur _ _ _ _ _ Fr) as Cr. pose proof (fr_blk _ _ _ _ _ Fr) as K11.
    destruct (branch_ok _ _ _ _ _ _ _ _ W10 Sc10 Te (chg_refl _ _) eq_refl eq_refl eq_refl E12) as (C12 & K12 & _ & _ & Co12 & Br).
    assert (J : chg (eq c') s12 st' /\ p_code st' = p_code s12 /\ p_blk st' = p_blk s12 /\ ((0 < p_pred s12 c')%nat -> p_then st' c' = Some (p_blk st) /\ p_else st' c' = Some (S (S (p_blk st))))).
    { destruct (Nat.eqb_spec (p_pred s12 c') 0).
      - apply some_inj in E13. subst st'. split; [apply chg_refl|]. split; [reflexivity|]. split; [reflexivity|]. lia.
      - destruct (bb_connect c' (p_blk st) THEN s12) as [s13|] eqn:E14; [|discriminate]. destruct (chg_conn _ _ _ _ _ E14 ltac:(lia)) as [C13 _]. destruct (connect_then _ _ _ _ E14) as (T13 & G13 & _ & _ & K13 & _ & _).
        destruct (chg_conn _ _ _ _ _ E13 ltac:(lia)) as [C14 _]. destruct (connect_else _ _ _ _ E13) as (T14 & G14 & _ & Th14 & K14 & _ & _).
        split; [eapply chg_trans; [exact C13|exact C14|]; intros q _ [Q|Q]; exact Q|]. split; [congruence|]. split; [lia|]. intros _. split; [rewrite Th14; exact T13|exact T14]. }
    clear E13. destruct J as (CJ & GJ & KJ & TJ).
    assert (C10f : chg (eq (S (p_blk st))) s10 st').
    { apply (fw1 _ _ s12 c'); [|exact CJ|exact Cr]. apply (fw1 _ _ s11 c'); [apply (chg_frame _ _ _ c'); assumption|exact C12|exact Cr]. }
    assert (Cf : chg (eq b) st st').
    { apply (fw1 _ _ s10 (S (p_blk st))); [|exact C10f|lia]. apply (fw0 _ _ s9); [|exact C10]. assert (C' : chg (eq b) st s8). { apply (fw1 _ _ s7 (p_blk st)); [|exact A4|lia]. apply (fw0 _ _ s2); assumption. }
      eapply chg_trans; [exact C'|exact C9|]. intros q Hq [Q|Q]; [exact Q|]. destruct (A5 q Q). lia. }
    constructor; auto.
    - rewrite A3. eapply sco_mono; [exact Sc|apply (ch_var _ _ _ Cf)].
    - congruence.
    - intros b' Q. injection Q as <-. lia.
    - discriminate.
    - exists new. split; [exact A7|]. split; [exact A8|]. intros Hi Hp. specialize (A9 Hi Hp). intros O E s out E' w' CO Cl Ha R X. pose proof (closed_num _ _ _ _ _ Cl) as HO.
      pose proof (back1 _ _ _ _ C10f CO) as X10. assert (X8 : chg (fun q => o = Some q \/ S (p_blk st) = q \/ O q) s8 F) by (eapply chg_trans; [exact C9|apply (back0 _ _ _ C10 X10)|tauto]).
      pose proof (back0 _ _ _ C27 (back1 _ _ _ _ A4 X8)) as X2.
      assert (L0 : leads b (len st b) s (p_blk st) 0 (reset s)). { unfold len. rewrite <- G2. eapply go_next; [exact X2| |lia|exact N2|lia]. intros HH. num2. }
      assert (ClA : closed (fun q => o = Some q \/ S (p_blk st) = q \/ O q) s7 (p_blk st) s8 o). { intros q [Hq|Hq] Lq; [left; exact Hq|]. right. num2. }
      assert (Zf' : len st' (S (S (p_blk st))) = 0%nat). { apply len_nil. rewrite (code_same _ _ _ _ C10f), G10, G9, (code_same _ _ _ _ A4), Gs by lia. apply (ws_empty _ _ W2). lia. }
      assert (Zk : len s7 (p_blk st) = 0%nat) by (apply len_nil; rewrite Gs; exact Z2).
      assert (Hd' : forall E s y w1, (0 < p_pred s9 (S (p_blk st)))%nat -> s_args s = [] -> rel (c_scopes ce) E (s_env s) -> cexp E c (s_world s) y w1 ->
        exists s', leads (S (p_blk st)) 0 s (if y =? 0 then S (S (p_blk st)) else p_blk st) 0 s' /\ s_args s' = [] /\ s_world s' = w1 /\ rel (c_scopes ce) E (s_env s')).
      { intros E0 s0 y w1 Pp Ha0 R0 Hy. assert (Pc : (0 < p_pred s12 c')%nat). { pose proof (ch_pred _ _ _ C12 c'). destruct Cu as [-> |Cu]; [|lia]. pose proof (P11 (S (p_blk st))). pose proof (ch_pred _ _ _ C10 (S (p_blk st))). lia. }
        destruct (TJ Pc) as [T1 T2]. rewrite A3 in Br. rewrite Z10 in Br. assert (NO : ~ O c'). { intros HH. clear Bo. num2. }
        apply (Br (fun q => c' = q \/ O q)); auto.
        - apply (back1 _ _ _ _ CJ CO).
        - intros q [<-|HH] Lq; [left; reflexivity|]. right. clear Bo. num2.
        - rewrite (then_same _ _ _ _ CO NO) by lia. exact T1.
        - rewrite (else_same _ _ _ _ CO NO) by lia. exact T2. }
      assert (Hb : forall E s o1 E1 w1, s_args s = [] -> rel (c_scopes ce) E (s_env s) -> exec a E (s_world s) o1 E1 w1 -> 
        match o1 with ONormal | OContinue => (0 < p_pred s9 (S (p_blk st)))%nat /\ gets (p_blk st) 0 s (S (p_blk st)) 0 (c_scopes ce) E1 w1 | OBreak => gets (p_blk st) 0 s (S (S (p_blk st))) 0 (c_scopes ce) E1 w1 | OReturn r => tail (p_blk st) 0 s w1 r end).
      { intros E0 s0 o1 Ex w1 Ha0 R0 Hx. pose proof (A9 _ _ s0 _ _ _ X8 ClA Ha0 R0 Hx) as G. rewrite Zk in G. destruct o1 as [| | |r1]; cbn [reach cut] in G.
        - destruct G as (x & Q & G). rewrite A3 in G. destruct (Bo x (eq_sym Q)) as [Q3' Q4]. split; [exact Q4|]. eapply gets_reset; [exact G|]. intros s1'. destruct (A5 x Q) as [Q1 Q2]. replace (len s8 x) with (len s9 x) by (unfold len; rewrite G9; reflexivity).
          eapply go_next; [apply (back0 _ _ _ C10 X10)| |lia|exact Q3'|lia]. clear Bo. intros HH. num2.
        - destruct G as (x & Q & _ & G). injection Q as <-. exact G.
        - destruct G as (x & Q & Pp & G). injection Q as <-. split; [|exact G]. pose proof (ch_pred _ _ _ C9 (S (p_blk st))). lia.
        - exact G. }
      clear A9 ClA HO Hp A8 A7. eapply reach_from; [exact L0|]. assert (Ha1 : s_args (reset s) = []) by reflexivity. assert (R1 : rel (c_scopes ce) E (s_env (reset s))) by exact R. change (s_world s) with (s_world (reset s)) in X. revert Ha1 R1 X. generalize (reset s). clear L0 Ha R s.
      intros s Ha R X. remember (SDo a c) as p eqn:Ep. remember (s_world s) as w0 eqn:Ew. revert s Ha R Ew. induction X; try discriminate Ep; injection Ep as -> ->; intros s Ha R ->.
      + pose proof (Hb _ s _ _ _ Ha R X) as G. match goal with Hc : cexp ?Ey c ?wy 0 _ |- _ => assert (G' : (0 < p_pred s9 (S (p_blk st)))%nat /\ gets (p_blk st) 0 s (S (p_blk st)) 0 (c_scopes ce) Ey wy) by (destruct H as [-> | ->]; exact G) end.
        destruct G' as (Pp & s'' & Le2 & Ha2 & <- & R2). destruct (Hd' _ s'' _ _ Pp Ha2 R2 H0) as (s' & Le & Q). cbn [reach]. exists (S (S (p_blk st))). split; [reflexivity|]. rewrite Zf', A3. exists s'. split; [eapply leads_trans; eauto|exact Q].
      + pose proof (Hb _ s _ _ _ Ha R X1) as G. match goal with Hc : cexp ?Ey c ?wy v _ |- _ => assert (G' : (0 < p_pred s9 (S (p_blk st)))%nat /\ gets (p_blk st) 0 s (S (p_blk st)) 0 (c_scopes ce) Ey wy) by (destruct H as [-> | ->]; exact G) end.
        destruct G' as (Pp & s'' & Le2 & Ha2 & <- & R2). destruct (Hd' _ s'' _ _ Pp Ha2 R2 H0) as (s' & Le & Ha3 & Hw3 & R3). rewrite (proj2 (Z.eqb_neq _ _)) in Le by assumption.
        eapply reach_from; [exact Le2|]. eapply reach_from; [exact Le|]. apply (IHX2 eq_refl s' Ha3 R3). congruence.
      + pose proof (Hb _ s _ _ _ Ha R X) as G. cbn [reach]. exists (S (S (p_blk st))). split; [reflexivity|]. rewrite Zf', A3. exact G.
      + pose proof (Hb _ s _ _ _ Ha R X) as G. exact G.
  Qed.
  Lemma assign_code n ce prefix ts st b ts' st' b' : read_assignment n ce prefix ts st b = Some (ts', st', b') -> p_code st' b' <> [].
  Proof.
    assert (N : forall ref size t d b st, p_code (new_value ref size t d b st) b <> []).
    { intros ref size t d b0 st0 Q. unfold new_value in Q. destruct ref; cbn [add_insn p_code] in Q; unfold Cfg.upd in Q; rewrite Nat.eqb_refl in Q; destruct (p_code st0 b0); discriminate. }
    unfold StmtParse.read_assignment. intros H.
    repeat match type of H with
    | match ?X with _ => _ end = Some _ => destruct X eqn:?; try discriminate H
    | (let '_ := ?X in _) = Some _ => destruct X eqn:?; try discriminate H
    end; apply some_inj in H; injection H as <- <- <-; apply N.
  Qed.
  Fixpoint exec_skips a E w o E' w' (H : exec a E w o E' w') {struct H} : continues a = false -> o <> OContinue.
  Proof.
    destruct H; cbn [continues]; intros Q; try discriminate.
    - eapply exec_skips; eauto.
    - apply orb_false_iff in Q. eapply exec_skips; [eassumption|apply Q].
    - apply orb_false_iff in Q. eapply exec_skips; [eassumption|apply Q].
    - eapply exec_skips; eauto.
    - apply orb_false_iff in Q. eapply exec_skips; [eassumption|apply Q].
    - apply orb_false_iff in Q. eapply exec_skips; [eassumption|apply Q].
    - eapply (exec_skips (SWhile c a)); [eassumption|reflexivity].
    - eapply (exec_skips (SDo a c)); [eassumption|reflexivity].
    - clear H. induction H0; try discriminate. assumption.
  Qed.
  Notation met := (met find_constant gtype gget (m_read M) (do_call find_func M)).
  Lemma for_did i0 cnd p a brk cnt ce st b k s1 s2 s3 k' e2 c0 s4 f s5 s6 s7 s8 c s9 s10 s11 i s12 s13 s14 s15 s16 t s17 s18 s19 o e3 s20 st' Ta pi new0 Ri Rc Rp :
    wfs st b -> sco st (c_scopes ce) -> bb_create st = (k, s1) -> bb_connect b k NEXT s1 = Some s2 ->
    (* the first part *)
    (wfs s2 k -> sco s3 (c_scopes e2) /\ tl (c_scopes e2) = c_scopes ce /\ chg (eq k) s2 s3 /\ (k' = k \/ (p_blk s2 <= k')%nat) /\ (k' < p_blk s3)%nat /\
     c_locals e2 = new0 ++ c_locals ce /\ length pi = length (arrays new0) /\ (incl new0 L -> pi = pls (arrays new0) -> goes ([] :: c_scopes ce) (c_scopes e2) Ri s2 k s3 k')) ->
    bb_create s3 = (c0, s4) -> bb_create s4 = (f, s5) -> bb_connect k' c0 NEXT s5 = Some s6 -> label lim s6 = Some s7 ->
    (wfs s7 c0 -> sco s7 (c_scopes e2) -> tests (c_scopes e2) Rc s7 c0 s8 c) ->
    bb_connect c f ELSE s8 = Some s9 -> add_branch lim c s9 = Some s10 -> label lim s10 = Some s11 -> bb_create s11 = (i, s12) -> label lim s12 = Some s13 ->
    (wfs s13 i -> sco s13 (c_scopes e2) -> goes (c_scopes e2) (c_scopes e2) Rp s13 i s14 i) ->
    label lim s14 = Some s15 -> label lim s15 = Some s16 -> bb_create s16 = (t, s17) -> bb_connect c t THEN s17 = Some s18 ->
    (wfs s18 t -> sco s18 (c_scopes e2) -> tgt (Some f) -> tgt (Some i) -> did_s false a Ta (Some f) (Some i) e2 s18 t s19 o e3) ->
    (match o with
     | Some a => do st <- bb_connect a i NEXT s19; bb_connect i c0 NEXT st
     | None => match p_code s19 i with [] => Some s19 | _ => bb_connect i c0 NEXT s19 end
     end) = Some s20 -> label lim s20 = Some st' ->
    places (SFor i0 cnd p a) = pi ++ places a ->
    (o = None -> p_code s14 i <> [] \/ continues a = false) ->
    (forall E w E1 w1, match i0 with
      | FNone => E1 = [] :: E /\ w1 = w
      | FSimple p => assigns p ([] :: E) w E1 w1
      | FDecl t ds => exists n, find_type t = Some n /\ declares n ds ([] :: E) w E1 w1
      end -> Ri ([] :: E) w E1 w1) ->
    (forall E w w', met cnd E w w' -> exists y, y <> 0 /\ Rc E w y w') -> (forall x E w w', cnd = Some x -> cexp E x w 0 w' -> Rc E w 0 w') ->
    (forall E w E' w', match p with Some p => assigns p E w E' w' | None => E' = E /\ w' = w end -> Rp E w E' w') ->
    did_s false (SFor i0 cnd p a) (ctypes (c_scopes ce)) brk cnt ce st b st' (Some f) (close_scope ce e3).
  Proof.
    intros W Sc E1 E2 I3 E4 E5 E6 E7 I8 E9 E10 E11 E12 E13 I14 E15 E16 E17 E18 D E20 E21 Pl Hcont HRi HRc HRc0 HRp.
    destruct (enter_ok _ _ _ _ _ W E1 E2) as (-> & K2 & V2 & C2 & W2 & Z2 & N2 & G2 & _). clear E1.
    destruct (I3 W2) as (Sc3 & Tl3 & C3 & Cu3 & L3 & Nl3 & Na3 & Go3). clear I3. pose proof (ch_blk _ _ _ C3) as K3.
    destruct (chg_create none _ _ _ E4) as (C4 & -> & K4 & V4 & G4 & _). destruct (chg_create none _ _ _ E5) as (C5 & -> & K5 & V5 & G5 & _). rewrite K4 in *.
    assert (Lk' : (k' < p_blk s5)%nat) by lia. destruct (chg_conn _ _ _ _ _ E6 Lk') as [C6 _]. destruct (connect_next _ _ _ _ E6) as (N6 & G6 & _ & _ & K6 & V6 & _). destruct (chg_label lim none _ _ E7) as (C7 & K7 & G7 & _).
    assert (C35 : chg none s3 s5) by (eapply chg_trans; [exact C4|exact C5|]; intros q _ [Q|Q]; exact Q).
    assert (C37 : chg (eq k') s3 s7). { eapply chg_trans; [exact C35|eapply chg_trans; [exact C6|exact C7|]|]; [intros q _ [Q|Q]; [exact Q|destruct Q]|intros q _ [[]|Q]; exact Q]. }
    assert (C27 : chg (eq (p_blk st)) s2 s7) by (apply (fw1 _ _ s3 k'); assumption).
    assert (W7 : wfs s7 (p_blk s3)) by (eapply wfs_chg; [exact W2|exact C27|lia]). assert (Sc7 : sco s7 (c_scopes e2)) by (eapply sco_mono; [exact Sc3|apply (ch_var _ _ _ C37)]).
    assert (W3 : wfs s3 (p_blk st)) by (eapply wfs_chg; [exact W2|exact C3|lia]).
    assert (Z7 : len s7 (p_blk s3) = 0%nat). { apply len_nil. rewrite G7, G6, G5, G4. apply (ws_empty _ _ W3). lia. }
    assert (Z7f : p_code s7 (S (p_blk s3)) = []). { rewrite G7, G6, G5, G4. apply (ws_empty _ _ W3). lia. }
    specialize (I8 W7 Sc7). pose proof I8 as (Fr & P8 & Cu8 & _). pose proof (fr_lt _ _ _ _ _ Fr (ws_b _ _ W7)) as Lc. pose proof (fr_cur _ _ _ _ _ Fr) as Cr. pose proof (fr_blk _ _ _ _ _ Fr) as K8.
    destruct (chg_conn _ _ _ _ _ E9 Lc) as [C9 _]. destruct (connect_else _ _ _ _ E9) as (T9 & G9 & _ & _ & K9 & V9 & S9).
    destruct (branch_ok _ _ _ _ _ _ _ _ W7 Sc7 I8 C9 G9 S9 K9 E10) as (C10 & K10 & Th10 & El10 & Co10 & Br). rewrite Z7 in Br.
    destruct (chg_label lim none _ _ E11) as (C11 & K11 & G11 & _). destruct (chg_create none _ _ _ E12) as (C12 & -> & K12 & _ & G12 & _). destruct (chg_label lim none _ _ E13) as (C13 & K13 & G13 & _).
    assert (B11 : p_blk s11 = p_blk s8) by lia. rewrite B11 in *.
    assert (C1013 : chg none s10 s13) by (eapply chg_trans; [exact C11|eapply chg_trans; [exact C12|exact C13|]|]; intros q _ [Q|Q]; exact Q).
    assert (C713 : chg (eq (p_blk s3)) s7 s13). { apply (fw0 _ _ s10); [|exact C1013]. apply (fw1 _ _ s9 c); [|exact C10|exact Cr]. apply (fw1 _ _ s8 c); [apply (chg_frame _ _ _ c); assumption|exact C9|exact Cr]. }
    assert (W13 : wfs s13 (p_blk s8)) by (eapply wfs_chg; [exact W7|exact C713|lia]). assert (Sc13 : sco s13 (c_scopes e2)) by (eapply sco_mono; [exact Sc7|apply (ch_var _ _ _ C713)]).
    assert (Z13 : len s13 (p_blk s8) = 0%nat). { apply len_nil. rewrite G13, G12, G11, Co10, G9 by lia. apply (fr_empty _ _ _ _ _ Fr (ws_empty _ _ W7)). lia. }
    destruct (I14 W13 Sc13) as (C14 & _ & L14 & _ & Go14). clear I14. rewrite Z13 in Go14. pose proof (ch_blk _ _ _ C14) as K14.
    destruct (chg_label lim none _ _ E15) as (C15 & K15 & G15 & _). destruct (chg_label lim none _ _ E16) as (C16 & K16 & G16 & _). destruct (chg_create none _ _ _ E17) as (C17 & -> & K17 & _ & G17 & _).
    assert (B16 : p_blk s16 = p_blk s14) by lia. rewrite B16 in *.
    assert (C1417 : chg none s14 s17) by (eapply chg_trans; [exact C15|eapply chg_trans; [exact C16|exact C17|]|]; intros q _ [Q|Q]; exact Q).
    assert (Lc17 : (c < p_blk s17)%nat) by lia. destruct (chg_conn _ _ _ _ _ E18 Lc17) as [C18 _]. destruct (connect_then _ _ _ _ E18) as (T18 & G18 & _ & El18 & K18 & _ & _).
    assert (C718 : chg (eq (p_blk s3)) s7 s18). { apply (fw1 _ _ s17 c); [|exact C18|exact Cr]. apply (fw0 _ _ s14); [|exact C1417]. apply (fw1 _ _ s13 (p_blk s8)); [exact C713|exact C14|]. lia. }
    assert (W18 : wfs s18 (p_blk s14)) by (eapply wfs_chg; [exact W7|exact C718|lia]). assert (Sc18 : sco s18 (c_scopes e2)) by (eapply sco_mono; [exact Sc7|apply (ch_var _ _ _ C718)]).
    pose proof (ws_b _ _ W) as Lb. pose proof (ws_exit _ _ W) as Lx. pose proof (ws_empty _ _ W2) as We2.
    assert (W14 : wfs s14 (p_blk s8)) by (eapply wfs_chg; [exact W13|exact C14|lia]).
    assert (Zt : len s18 (p_blk s14) = 0%nat). { apply len_nil. rewrite G18, G17, G16, G15. apply (ws_empty _ _ W14). lia. }
    destruct (D W18 Sc18) as [A1 A2 A3 A4 A5 A6 (new & A7 & A8 & A9)]. { intros q Q. injection Q as <-. lia. } { intros q Q. injection Q as <-. lia. } clear D. cbn [cut] in A3. pose proof (ch_blk _ _ _ A4) as K19.
    assert (Gi : p_code s19 (p_blk s8) = p_code s14 (p_blk s8)). { rewrite (code_same _ _ _ _ A4) by lia. rewrite G18, G17, G16, G15. reflexivity. }
    assert (J : chg (fun q => o = Some q \/ p_blk s8 = q) s19 s20 /\ p_code s20 = p_code s19 /\ p_blk s20 = p_blk s19 /\ (forall x, Some x = o -> p_next s20 x = Some (p_blk s8)) /\
      (o <> None \/ p_code s14 (p_blk s8) <> [] -> p_next s20 (p_blk s8) = Some (p_blk s3))).
    { destruct o as [x|].
      - destruct (A5 x eq_refl) as [Q1 Q2]. destruct (bb_connect x (p_blk s8) NEXT s19) as [s19'|] eqn:E19; [|discriminate]. destruct (chg_conn _ _ _ _ _ E19 Q2) as [C19 _]. destruct (connect_next _ _ _ _ E19) as (N19 & G19 & _ & _ & K19' & _).
        assert (Li : (p_blk s8 < p_blk s19')%nat) by lia. destruct (chg_conn _ _ _ _ _ E20 Li) as [C20 _]. destruct (connect_next _ _ _ _ E20) as (N20 & G20 & _ & _ & K20 & _).
        split; [eapply chg_trans; [exact C19|exact C20|]; intros q _ [<-|Q]; auto|]. split; [congruence|]. split; [lia|]. split; [|intros _; exact N20].
        intros y Q. injection Q as ->. rewrite (next_same _ _ _ _ C20) by lia. exact N19.
      - rewrite <- Gi. destruct (p_code s19 (p_blk s8)) as [|ins l] eqn:Eq.
        + apply some_inj in E20. subst s20. split; [apply chg_refl|]. split; [reflexivity|]. split; [reflexivity|]. split; [discriminate|]. intros [Q|Q]; congruence.
        + assert (Li : (p_blk s8 < p_blk s19)%nat) by lia. destruct (chg_conn _ _ _ _ _ E20 Li) as [C20 _]. destruct (connect_next _ _ _ _ E20) as (N20 & G20 & _ & _ & K20 & _).
          split; [eapply chg_trans; [apply chg_refl|exact C20|]; intros q _ [Q|Q]; [exact Q|right; exact Q]|]. split; [exact G20|]. split; [exact K20|]. split; [discriminate|]. intros _. exact N20. }
    clear E20. destruct J as (C20 & G20 & K20 & Bo & Bi). destruct (chg_label lim none _ _ E21) as (C21 & K21 & G21 & _).
    assert (C721 : chg (eq (p_blk s3)) s7 st').
    { apply (fw0 _ _ s20); [|exact C21]. assert (C719 : chg (eq (p_blk s3)) s7 s19) by (apply (fw1 _ _ s18 (p_blk s14)); [exact C718|exact A4|lia]).
      eapply chg_trans; [exact C719|exact C20|]. intros q Hq [Q|[Q|Q]]; [exact Q|destruct (A5 q Q); lia|lia]. }
    assert (Cf : chg (eq b) st st'). { apply (fw1 _ _ s7 (p_blk s3)); [|exact C721|lia]. apply (fw1 _ _ s2 (p_blk st)); [exact C2|exact C27|lia]. }
    constructor; cbn [close_scope c_scopes c_locals cut]; auto.
    - eapply sco_mono; [exact Sc|apply (ch_var _ _ _ Cf)].
    - intros b' Q. injection Q as <-. lia.
    - discriminate.
    - exists (new ++ new0). split; [rewrite A7, Nl3, app_assoc; reflexivity|]. rewrite Pl, arrays_app, !app_length, A8, Na3. split; [reflexivity|].
      intros Hi Hp. rewrite map_app in Hp. apply app_split in Hp; [|rewrite map_length; exact Na3]. destruct Hp as [Hp1 Hp2].
      specialize (A9 (fun v Hv => Hi v (in_or_app _ _ _ (or_introl Hv))) Hp2). specialize (Go3 (fun v Hv => Hi v (in_or_app _ _ _ (or_intror Hv))) Hp1). destruct Go3 as (_ & _ & _ & _ & Go3).
      intros O E s out E' w' CO Cl Ha R X. pose proof (closed_num _ _ _ _ _ Cl) as HO.
      pose proof (back0 _ _ _ C21 CO) as X20. assert (X19 : chg (fun q => o = Some q \/ p_blk s8 = q \/ O q) s19 F) by (eapply chg_trans; [exact C20|exact X20|tauto]).
      pose proof (back1 _ _ _ _ A4 X19) as X18. pose proof (back0 _ _ _ C1417 (back1 _ _ _ _ C18 X18)) as X14. pose proof (back0 _ _ _ C1013 (back1 _ _ _ _ C14 X14)) as X10.
      pose proof (back1 _ _ _ _ C721 CO) as X7. pose proof (back0 _ _ _ C7 X7) as X6. pose proof (back1 _ _ _ _ C37 X7) as X3. pose proof (back1 _ _ _ _ C27 X7) as X2.
      assert (HO' : forall q, O q -> (q < p_blk st')%nat -> q = S (p_blk s3) \/ (q < p_blk st)%nat) by (intros q Hq Lq; destruct (HO q Hq Lq) as [|[]]; auto).
      assert (L0 : leads b (len st b) s (p_blk st) 0 (reset s)). { unfold len. rewrite <- G2. eapply go_next; [exact X2| |lia|exact N2|lia]. intros [HH|[HH|HH]]; [lia|lia|]. destruct (HO b HH) as [|[]]; lia. }
      clear HO.
      assert (Zf : len st' (S (p_blk s3)) = 0%nat). { apply len_nil. rewrite (code_same _ _ _ _ C721) by lia. exact Z7f. }
      (* the condition *)
      assert (Nc : ~ O c). { intros HH. destruct (HO' c HH); lia. }
      assert (Nc18 : (p_blk s14) <> c /\ p_blk s8 <> c) by lia. assert (No : o <> Some c). { intros Q. destruct (A5 c Q). lia. }
      assert (Tc : p_then F c = Some (p_blk s14)). { rewrite (then_same _ _ _ _ X18); [exact T18| |lia]. intros [Q|[Q|[Q|Q]]]; [lia|apply No; exact Q|lia|apply Nc; exact Q]. }
      assert (Ec : p_else F c = Some (S (p_blk s3))).
      { rewrite (else_same _ _ _ _ X18); [| |lia]; [|intros [Q|[Q|[Q|Q]]]; [lia|apply No; exact Q|lia|apply Nc; exact Q]].
        rewrite El18, (else_same _ _ _ _ C1417), (else_same _ _ _ _ C14), (else_same _ _ _ _ C1013), El10 by (try lia; tauto). exact T9. }
      assert (Hd : forall E s y w1, s_args s = [] -> rel (c_scopes e2) E (s_env s) -> Rc E (s_world s) y w1 ->
        exists s', leads (p_blk s3) 0 s (if y =? 0 then S (p_blk s3) else p_blk s14) 0 s' /\ s_args s' = [] /\ s_world s' = w1 /\ rel (c_scopes e2) E (s_env s')).
      { intros E0 s0 y w1 Ha0 R0 Hy. eapply Br; [exact X10| |exact Tc|exact Ec|exact Ha0|exact R0|exact Hy].
        intros q [HH|[HH|[HH|[HH|[HH|HH]]]]] Lq; try (exfalso; lia); try (left; congruence); try (destruct (A5 q HH); exfalso; lia).
        right. destruct (HO' q HH); lia. }
      (* the body *)
      assert (ClA : closed (fun q => o = Some q \/ p_blk s8 = q \/ O q) s18 (p_blk s14) s19 o). { intros q [Hq|Hq] Lq; [left; exact Hq|]. right. destruct Hq as [Hq|Hq]; [lia|]. destruct (HO' q Hq); lia. }
      assert (Hb : forall E s o1 E1 w1, s_args s = [] -> rel (c_scopes e2) E (s_env s) -> exec a E (s_world s) o1 E1 w1 -> 
        match o1 with ONormal | OContinue => p_next s20 (p_blk s8) = Some (p_blk s3) /\ gets (p_blk s14) 0 s (p_blk s8) 0 (c_scopes e2) E1 w1 | OBreak => gets (p_blk s14) 0 s (S (p_blk s3)) 0 (c_scopes e2) E1 w1 | OReturn r => tail (p_blk s14) 0 s w1 r end).
      { intros E0 s0 o1 Ex w1 Ha0 R0 Hx. pose proof (A9 _ _ s0 _ _ _ X19 ClA Ha0 R0 Hx) as G. rewrite Zt in G. destruct o1 as [| | |r1]; cbn [reach cut] in G.
        - destruct G as (x & Q & G). rewrite A3 in G. split; [apply Bi; left; congruence|]. eapply gets_reset; [exact G|]. intros s1'. destruct (A5 x Q) as [Q1 Q2]. pose proof (Bo x (eq_sym Q)) as Q3. replace (len s19 x) with (len s20 x) by (unfold len; rewrite G20; reflexivity).
          eapply go_next; [exact X20| |lia|exact Q3|lia]. intros HH. destruct (HO' x HH); lia.
        - destruct G as (x & Q & _ & G). injection Q as <-. exact G.
        - destruct G as (x & Q & Pp & G). injection Q as <-. split; [|exact G]. apply Bi. destruct o as [x|]; [left; discriminate|]. right. destruct (Hcont eq_refl) as [Q|Q]; [exact Q|]. exfalso. exact (exec_skips _ _ _ _ _ _ Hx Q eq_refl).
        - exact G. }
      (* the increment *)
      assert (Hn : forall E s E1 w1, p_next s20 (p_blk s8) = Some (p_blk s3) -> s_args s = [] -> rel (c_scopes e2) E (s_env s) -> Rp E (s_world s) E1 w1 -> gets (p_blk s8) 0 s (p_blk s3) 0 (c_scopes e2) E1 w1).
      { intros E0 s0 Ex w1 Nx Ha0 R0 Hx. eapply gets_reset.
        - apply (Go14 _ E0 s0 Ex w1 X14); auto. intros q [HH|[HH|[HH|[HH|HH]]]] Lq; try (exfalso; lia); try (left; congruence); try (destruct (A5 q HH); exfalso; lia); right; [lia|]. destruct (HO' q HH); lia.
        - intros s1'. replace (len s14 (p_blk s8)) with (len s20 (p_blk s8)) by (unfold len; rewrite G20, Gi; reflexivity). eapply go_next; [exact X20| |lia|exact Nx|lia]. intros HH. destruct (HO' _ HH); lia. }
      assert (Hl : forall E s out E' w', s_args s = [] -> rel (c_scopes e2) E (s_env s) -> loops cnd p a E (s_world s) out E' w' ->
        match out with ONormal => gets (p_blk s3) 0 s (S (p_blk s3)) 0 (c_scopes e2) E' w' | OReturn r => tail (p_blk s3) 0 s w' r | _ => False end).
      { clear - Hd Hb Hn HRc HRc0 HRp. intros E s out E' w' Ha R X. remember (s_world s) as w0 eqn:Ew. revert s Ha R Ew. induction X; intros s Ha R ->.
        - destruct (Hd E s 0 w1 Ha R (HRc0 _ _ _ _ eq_refl H)) as (s' & Le & Q). exists s'. split; [exact Le|exact Q].
        - destruct (HRc _ _ _ H) as (y & Ny & Hy). destruct (Hd E s y w1 Ha R Hy) as (s' & Le & Ha' & <- & R'). rewrite (proj2 (Z.eqb_neq _ _)) in Le by assumption. pose proof (Hb _ s' _ _ _ Ha' R' H0) as G.
          match type of H0 with exec _ _ _ _ ?Ey ?wy => assert (G' : p_next s20 (p_blk s8) = Some (p_blk s3) /\ gets (p_blk s14) 0 s' (p_blk s8) 0 (c_scopes e2) Ey wy) by (destruct H1 as [-> | ->]; exact G) end.
          destruct G' as (Nx & s'' & Le2 & Ha2 & <- & R2). destruct (Hn _ s'' _ _ Nx Ha2 R2 (HRp _ _ _ _ H2)) as (s3' & Le3 & Ha3 & <- & R3). pose proof (IHX HRc HRc0 HRp Hb s3' Ha3 R3 eq_refl) as G3.
          assert (Lt : leads (p_blk s3) 0 s (p_blk s3) 0 s3') by (eapply leads_trans; [exact Le|eapply leads_trans; [exact Le2|exact Le3]]).
          destruct o; [eapply gets_from; eauto|exact G3|exact G3|apply Lt; exact G3].
        - destruct (HRc _ _ _ H) as (y & Ny & Hy). destruct (Hd E s y w1 Ha R Hy) as (s' & Le & Ha' & <- & R'). rewrite (proj2 (Z.eqb_neq _ _)) in Le by assumption. pose proof (Hb _ s' _ _ _ Ha' R' H0) as G. eapply gets_from; [exact Le|exact G].
        - destruct (HRc _ _ _ H) as (y & Ny & Hy). destruct (Hd E s y w1 Ha R Hy) as (s' & Le & Ha' & <- & R'). rewrite (proj2 (Z.eqb_neq _ _)) in Le by assumption. pose proof (Hb _ s' _ _ _ Ha' R' H0) as G. apply Le. exact G. }
      clear A9 ClA Hd Hb Hn Hp2 Hp1 A8 A7. inversion X; subst. eapply reach_from; [exact L0|].
      match goal with H : match i0 with FNone => _ | FSimple _ => _ | FDecl _ _ => _ end |- _ => apply HRi in H; rename H into Hri end.
      assert (R1 : rel ([] :: c_scopes ce) ([] :: E) (s_env (reset s))) by (constructor; [constructor|exact R]).
      match type of Hri with Ri _ _ ?Ey ?wy => destruct (Go3 _ ([] :: E) (reset s) Ey wy X3) as (s' & Le & Ha' & Hw' & R'); [|reflexivity|exact R1|exact Hri|] end.
      { intros q [HH|[HH|HH]] Lq; try (exfalso; lia); try (left; congruence). right. destruct (HO' q HH); lia. }
      rewrite (len_nil _ _ Z2) in Le. eapply reach_from; [exact Le|].
      assert (Lk : leads k' (len s3 k') s' (p_blk s3) 0 (reset s')). { unfold len. rewrite <- G4, <- G5, <- G6. eapply go_next; [exact X6| |lia|exact N6|lia]. intros [HH|HH]; [lia|]. destruct (HO' _ HH); lia. }
      eapply reach_from; [exact Lk|]. match goal with H : loops _ _ _ _ _ _ _ _ |- _ => rewrite <- Hw' in H; pose proof (Hl _ (reset s') _ _ _ eq_refl R' H) as G end.
      destruct out; try contradiction; cbn [reach].
      + exists (S (p_blk s3)). split; [reflexivity|]. rewrite Zf. apply gets_cut in G. rewrite Tl3 in G. exact G.
      + exact G.
  Qed.
  (** ** One more level of nesting. *)
  Definition stmtAt (n : nat) (s : stmt) : Prop := forall brk cnt ce st b rest ts' st' o ce' T', stm s -> fine_stmt s (ctypes (c_scopes ce)) = Some T' ->
    (open_if s = true -> lex_accept T_else rest = None) -> wfs st b -> sco st (c_scopes ce) -> tgt brk -> tgt cnt ->
    read_stmt n brk cnt ce (stokens s ++ rest) st b = Some (ts', st', o, ce') -> ts' = rest /\ did_s (is_decl s) s T' brk cnt ce st b st' o ce'.
  Definition gr := chg (fun _ => True).
  Lemma gr_any X st st' : chg X st st' -> gr st st'.
  Proof. intros H. eapply chg_weaken; [exact H|]. auto. Qed.
  Lemma gr_trans a b c : gr a b -> gr b c -> gr a c.
  Proof. intros A B. eapply chg_trans; [exact A|exact B|]. auto. Qed.
  Lemma gr_create st k st' : bb_create st = (k, st') -> gr st st' /\ k = p_blk st /\ p_blk st' = S (p_blk st).
  Proof. intros H. destruct (chg_create none _ _ _ H) as (C & -> & K & _). split; [eapply gr_any; exact C|auto]. Qed.
  Lemma gr_label st st' : label lim st = Some st' -> gr st st' /\ p_blk st' = p_blk st.
  Proof. intros H. destruct (chg_label lim none _ _ H) as (C & K & _). split; [eapply gr_any; exact C|exact K]. Qed.
  Lemma gr_conn p d t st st' : bb_connect p d t st = Some st' -> (p < p_blk st)%nat -> gr st st' /\ p_blk st' = p_blk st.
  Proof.
    intros H Lp. destruct (chg_conn _ _ _ _ _ H Lp) as [C _]. split; [eapply gr_any; exact C|]. destruct t; [destruct (connect_next _ _ _ _ H) as (_ & _ & _ & _ & K & _)|destruct (connect_then _ _ _ _ H) as (_ & _ & _ & _ & K & _)|destruct (connect_else _ _ _ _ H) as (_ & _ & _ & _ & K & _)]; exact K.
  Qed.
  Lemma gr_branch c st st' : add_branch lim c st = Some st' -> (c < p_blk st)%nat -> gr st st' /\ p_blk st' = p_blk st.
  Proof.
    intros H Lc. unfold add_branch in H. destruct (opstack_pop st) as [[x s1]|] eqn:E1; [|discriminate]. destruct (label lim s1) as [s2|] eqn:E2; [|discriminate]. destruct (label lim s2) as [s3|] eqn:E3; [|discriminate]. apply some_inj in H. subst st'.
    destruct (chg_pop none _ _ _ E1) as (D1 & _ & K1 & _). destruct (gr_label _ _ E2) as (D2 & K2). destruct (gr_label _ _ E3) as (D3 & K3).
    assert (L3 : (c < p_blk s3)%nat) by lia. split; [|cbn [add_insn p_blk]; lia]. eapply gr_trans; [eapply gr_any; exact D1|]. eapply gr_trans; [exact D2|]. eapply gr_trans; [exact D3|]. eapply gr_any. apply (chg_insn c OP_branch None (Some x) None 0 0). exact L3.
  Qed.
  Lemma wfs_gr st b st' b' : wfs st b -> gr st st' -> (b' < p_blk st')%nat -> wfs st' b'.
  Proof. intros. eapply wfs_chg; eauto. Qed.
  Lemma sco_gr st st' cs : sco st cs -> gr st st' -> sco st' cs.
  Proof. intros A B. eapply sco_mono; [exact A|apply (ch_var _ _ _ B)]. Qed.
  Lemma gr_opt o k st st' : connect_opt o k st = Some st' -> (forall x, o = Some x -> (x < p_blk st)%nat) -> gr st st' /\ p_blk st' = p_blk st.
  Proof. intros H Hx. destruct (connect_all _ _ _ _ H Hx) as (C & K & _). split; [eapply gr_any; exact C|exact K]. Qed.
  Lemma gr_goes cs cs' R st b st' b' : goes cs cs' R st b st' b' -> gr st st' /\ (b' < p_blk st')%nat.
  Proof. intros (C & _ & Lb & _). split; [eapply gr_any; exact C|exact Lb]. Qed.
  Lemma gr_tests cs R st b st' b' : (b < p_blk st)%nat -> tests cs R st b st' b' -> gr st st' /\ (b' < p_blk st')%nat.
  Proof. intros Lb (Fr & P & _). split; [apply (gr_any (eq b)), (chg_frame _ _ _ b'); assumption|apply (fr_lt _ _ _ _ _ Fr Lb)]. Qed.
  Ltac bind H x E := match type of H with match ?X with Some _ => _ | None => None end = Some _ => destruct X as [x|] eqn:E; [|discriminate H] end.
  Ltac sgr2 S := let Q := fresh "Q" in let G := fresh "G" in destruct S as [G|(? & ? & Q & _)]; [|discriminate Q]; cbn [sgram] in G; destruct G as [_ G].
  Ltac expect H := match type of H with
    | context [lex_expect ?a ((?b, ?w) :: ?c)] => change (lex_expect a ((b, w) :: c)) with (Some c) in H; cbn iota in H
    | context [lex_accept ?a ((?a, ?w) :: ?c)] => change (lex_accept a ((a, w) :: c)) with (Some c) in H; cbn iota in H
    | context [lex_accept ?a ((?b, ?w) :: ?c)] => change (lex_accept a ((b, w) :: c)) with (@None toks) in H; cbn iota in H
    end.
  Lemma expr_head e : exists t w r, rtokens e = (t, w) :: r /\ t <> T_semicolon /\ t <> T_close_bracket.
  Proof.
    induction e; cbn [rtokens]; try (do 3 eexists; split; [reflexivity|split; discriminate]).
    - do 3 eexists; split; [reflexivity|]. match goal with |- context [un_token ?u] => destruct u; split; discriminate end.
    - destruct IHe1 as (t & w & r & -> & Q). do 3 eexists. split; [reflexivity|exact Q].
    - destruct IHe1 as (t & w & r & -> & Q). do 3 eexists. split; [reflexivity|exact Q].
  Qed.
  Lemma expr_not_semicolon e z : lex_accept T_semicolon (rtokens e ++ z) = None.
  Proof. destruct (expr_head e) as (t & w & r & -> & N & _). destruct t; try reflexivity; congruence. Qed.
  Lemma skip_step n : stmtAt (S n) SSkip.
  Proof.
    intros brk cnt ce st b rest ts' st' o ce' T' S Fi Op W Sc T1 T2 H. rewrite read_stmt_S in H. cbn [stokens List.app tok] in H. cbn iota in H. apply some_inj in H. injection H as <- <- <- <-. split; [reflexivity|].
    cbn [StmtSpec.fine_stmt] in Fi. injection Fi as <-. apply skip_did; assumption.
  Qed.
  Lemma jump_step n : stmtAt (S n) SBreak /\ stmtAt (S n) SContinue.
  Proof.
    split; intros brk cnt ce st b rest ts' st' o ce' T' S Fi Op W Sc T1 T2 H; rewrite read_stmt_S in H; cbn [stokens List.app] in H; unfold tok in H; cbn iota in H; bind H k E1; bind H s1 E2; expect H; apply some_inj in H; injection H as <- <- <- <-; (split; [reflexivity|]);
    cbn [StmtSpec.fine_stmt] in Fi; injection Fi as <-; (eapply jump_did; [exact ONormal| |exact W|exact Sc|exact T1|exact T2|exact E2]); auto.
  Qed.
  Lemma return_step n e : stmtAt (S n) (SReturn e).
  Proof.
    intros brk cnt ce st b rest ts' st' o ce' T' S Fi Op W Sc T1 T2 H. rewrite read_stmt_S in H. destruct e as [e|]; cbn [stokens List.app] in H; unfold tok in H; cbn iota in H.
    - sgr2 S. rewrite <- app_assoc in H. cbn [List.app] in H. cbn [StmtSpec.fine_stmt] in Fi. destruct (fine_expr (ctypes (c_scopes ce)) e) eqn:Fe; [|discriminate]. injection Fi as <-.
      rewrite expr_not_semicolon in H.
      bind H x E1. destruct x as [ts1 s1]. apply some_inj in H. injection H as <- <- <- <-. eapply value_did; eauto.
    - expect H. bind H s1 E1. apply some_inj in H. injection H as <- <- <- <-. split; [reflexivity|]. cbn [StmtSpec.fine_stmt] in Fi. injection Fi as <-. apply return_did; assumption.
  Qed.
  Definition plval (p : simple) : lval := match p with Assign l _ | Update l _ _ | Post l _ | Pre l _ => l end.
  Lemma simple_name T p : fine_simple T p = true -> find_type (lname (plval p)) = None /\ special (lname (plval p)) = false /\ find_func (lname (plval p)) = None.
  Proof.
    intros Fi. assert (Fl : fine_lval T (plval p) = true) by (destruct p; cbn [StmtSpec.fine_simple plval] in *; rewrite !andb_true_iff in Fi; tauto).
    assert (Ft : target (is_constant find_constant) find_type gtype is_func special T (lname (plval p)) = true). { destruct (plval p); cbn [StmtSpec.fine_lval lname] in *; rewrite !andb_true_iff in Fl; tauto. }
    unfold target in Ft. rewrite !andb_true_iff, !negb_true_iff in Ft. destruct Ft as ((((_ & Fs) & Ff) & Fy) & _). unfold is_func in Ff. split; [|split; [exact Fs|]].
    - destruct (find_type _); [discriminate|reflexivity].
    - destruct (find_func _); [discriminate|reflexivity].
  Qed.
  Lemma simple_step n p : stmtAt (S n) (SSimple p).
  Proof.
    intros brk cnt ce st b rest ts' st' o ce' T' S Fi Op W Sc T1 T2 H. sgr2 S. cbn [StmtSpec.fine_stmt] in Fi. destruct (fine_simple _ p) eqn:Fp; [|discriminate]. injection Fi as <-.
    destruct (simple_name _ _ Fp) as (Ht & Hs & Hf). rewrite read_stmt_S in H. cbn [stokens] in H. rewrite <- app_assoc in H. cbn [List.app] in H. unfold tok in H at 1.
    assert (K : exists prefix ts, match p with Pre l o => prefix = Some (opc o) /\ ts = ltokens l | _ => prefix = None /\ ts = ptokens p end /\
      (do (ts, st, b) <- read_assignment n ce prefix (ts ++ (T_semicolon, []) :: rest) st b; do ts <- lex_expect T_semicolon ts; Some (ts, st, Some b, ce)) = Some (ts', st', o, ce')).
    { destruct p as [l e|l x e|l x|l x]; cbn [plval] in *.
      1-3: exists None; eexists; split; [split; reflexivity|]; revert H; cbn [ptokens]; rewrite <- !app_assoc, ltokens_eq; cbn [List.app]; cbv beta iota; rewrite Ht, Hs, Hf; auto.
      exists (Some (opc x)), (ltokens l). split; [split; reflexivity|]. revert H. cbn [pgram] in G. destruct G as [_ [-> | ->]]; cbn [ptokens step_token opc List.app]; unfold tok; rewrite ltokens_eq; cbn [List.app]; cbv beta iota; rewrite Ht, Hs, Hf; auto. }
    clear H. destruct K as (prefix & ts & Hp & H). bind H x E1. destruct x as [[ts1 s1] b1].
    destruct (assign_ok ce n p prefix ts T_semicolon [] rest st b ts1 s1 b1 W Sc G Fp eq_refl Hp E1) as (-> & Go & _). expect H. apply some_inj in H. injection H as <- <- <- <-. split; [reflexivity|].
    cbn [is_decl]. eapply goes_did; [exact Sc|exact Go|reflexivity|]. intros E w out E' w' X. inversion X; subst. auto.
  Qed.
  Lemma call_step n f args : stmtAt (S n) (SCall f args).
  Proof.
    intros brk cnt ce st b rest ts' st' o ce' T' S Fi Op W Sc T1 T2 H. sgr2 S. cbn [StmtSpec.fine_stmt] in Fi. destruct (fine_expr _ _ && _) eqn:Fp; [|discriminate]. injection Fi as <-. apply andb_true_iff in Fp. destruct Fp as [Fp Ft].
    destruct (find_type f) eqn:Ht; [discriminate|]. assert (Hs : special f = false). { unfold StmtSpec.fine_expr in Fp. apply andb_true_iff in Fp. destruct Fp as [Fp _]. cbn [fine] in Fp. rewrite !andb_true_iff, !negb_true_iff in Fp. tauto. }
    rewrite read_stmt_S in H. cbn [stokens rtokens] in H. rewrite <- !app_assoc in H. cbn [List.app] in H. rewrite <- app_assoc in H. cbn [List.app] in H. cbv beta iota in H. rewrite Ht, Hs in H.
    destruct (find_func f) as [k|] eqn:Hf.
    - expect H. bind H x E1. destruct x as [[[ts1 s1] b1] l]. destruct (call_ok ce n f k args (tok T_semicolon :: rest) st b ts1 s1 b1 l W Sc G Fp Hf E1) as (-> & Go). unfold tok in H. expect H. apply some_inj in H. injection H as <- <- <- <-. split; [reflexivity|].
      cbn [is_decl]. eapply goes_did; [exact Sc|exact Go|reflexivity|]. intros E w out E' w' X. inversion X; subst. eauto.
    - exfalso. cbn [StmtParse.read_assignment] in H. destruct (look ce f) as [v|] eqn:Hv; [|discriminate]. unfold StmtSpec.fine_expr in Fp. apply andb_true_iff in Fp. destruct Fp as [Fp _]. cbn [fine] in Fp.
      revert H. destruct (opstack_push (vi_id v) st) as [s1|]; [|discriminate]. destruct n as [|n]; [discriminate|]. cbn. discriminate.
  Qed.
  Lemma decl_step n t ds : stmtAt (S n) (SDecl t ds).
  Proof.
    intros brk cnt ce st b rest ts' st' o ce' T' S Fi Op W Sc T1 T2 H. assert (G : ds <> [] /\ Forall dgram ds). { destruct S as [G|(t' & ds' & Q & G)]; [cbn [sgram] in G; destruct G as [_ []]|]. injection Q as -> ->. exact G. } destruct G as [Ne G].
    cbn [StmtSpec.fine_stmt] in Fi. destruct (find_type t) as [k|] eqn:Ht; [|discriminate]. rewrite read_stmt_S in H. cbn [stokens] in H. unfold decl_tokens, ident, tok in H. cbn [List.app] in H. rewrite <- app_assoc in H. cbn [List.app] in H. cbv beta iota in H. rewrite Ht in H.
    bind H x E1. destruct x as [[[ts1 s1] b1] e1]. apply some_inj in H. injection H as <- <- <- <-.
    destruct (decl_ok k ds true n ce st b rest ts1 s1 b1 e1 T' Ne G W Sc Fi E1) as (-> & Sc' & Ct & Tl & C & Cu & Lt & _ & new & Nl & Na & Go). split; [reflexivity|]. cbn [is_decl]. eapply decl_did; eauto.
  Qed.
  Lemma curly_step n q : blockOK n -> stmtAt (S n) (SBlock q).
  Proof.
    intros IH brk cnt ce st b rest ts' st' o ce' T' S Fi Op W Sc T1 T2 H. sgr2 S. cbn [StmtSpec.fine_stmt] in Fi. destruct (fine_stmt q ([] :: ctypes (c_scopes ce))) as [T3|] eqn:Fq; [|discriminate]. injection Fi as <-.
    rewrite read_stmt_S in H. cbn [stokens] in H. unfold tok in H. cbn [List.app] in H. rewrite <- app_assoc in H. cbn [List.app] in H. cbv beta iota in H. bind H x E1. destruct x as [[[ts1 s1] o1] e1]. apply some_inj in H. injection H as <- <- <- <-.
    destruct (IH q brk cnt (open_scope ce) st b rest ts1 s1 o1 e1 T3 G) as [-> D]; auto.
    { constructor; [intros p Hp; apply (sc_ids _ _ Sc); exact Hp|apply (sc_nd _ _ Sc)]. }
    split; [reflexivity|]. cbn [is_decl]. eapply block_did; eauto.
  Qed.
  Lemma not_decl a : stm a -> sgram false a -> is_decl a = false.
  Proof. intros _ G. destruct a; try reflexivity. cbn [sgram] in G. destruct G as [_ []]. Qed.
  Lemma sub_did n a brk cnt ce st b rest ts' st' o ce' T' : stmtOK n -> sgram false a -> fine_stmt a (ctypes (c_scopes ce)) = Some T' ->
    (open_if a = true -> lex_accept T_else rest = None) -> wfs st b -> sco st (c_scopes ce) -> tgt brk -> tgt cnt ->
    read_stmt n brk cnt ce (stokens a ++ rest) st b = Some (ts', st', o, ce') -> ts' = rest /\ did_s false a T' brk cnt ce st b st' o ce'.
  Proof. intros IH G Fi Op W Sc T1 T2 H. rewrite <- (not_decl a (or_introl G) G). eapply IH; eauto. left. exact G. Qed.
  Lemma if_step n c a : stmtOK n -> stmtAt (S n) (SIf c a).
  Proof.
    intros IH brk cnt ce st b rest ts' st' o ce' T' S Fi Op W Sc T1 T2 H. sgr2 S. destruct G as [Gc Ga]. cbn [StmtSpec.fine_stmt] in Fi. destruct (fine_stmt a _) as [Ta|] eqn:Fa; [|rewrite andb_false_r in Fi; discriminate]. destruct (no_cond c) eqn:Nc; [|discriminate]. destruct (fine_expr _ c) eqn:Fc; [|discriminate]. cbn [andb] in Fi. injection Fi as <-.
    rewrite read_stmt_S in H. cbn [stokens] in H. unfold tok in H. cbn [List.app] in H. rewrite <- app_assoc in H. cbn [List.app] in H. cbv beta iota in H.
    destruct (bb_create st) as [k s1] eqn:E1. bind H s2 E2. expect H. bind H x E3. destruct x as [[ts3 s3] c'].
    destruct (enter_ok _ _ _ _ _ W E1 E2) as (Hk & K2 & V2 & C2 & W2 & _). assert (Sc2 : sco s2 (c_scopes ce)) by (eapply sco_mono; [exact Sc|lia]).
    destruct (ev_expr ce n c T_close_bracket _ _ _ _ _ _ _ W2 Sc2 Gc Nc Fc eq_refl E3) as [-> Ev]. expect H. bind H s4 E4. bind H s5 E5. destruct (bb_create s5) as [t s6] eqn:E6. destruct (bb_create s6) as [f s7] eqn:E7. bind H s8 E8. bind H s9 E9. bind H x E10. destruct x as [[[ts10 s10] o1] e1].
    destruct (head_ok _ _ _ _ _ _ _ _ _ _ _ _ _ _ W2 Sc2 (evals_tests _ _ _ _ _ _ Ev) E4 E5 E6 E7 E8 E9) as (_ & _ & _ & _ & _ & _ & _ & W9 & Sc9 & _).
    destruct (sub_did n a brk cnt ce s9 t rest ts10 s10 o1 e1 Ta IH Ga Fa) as [-> D]; auto.
    bind H x E11. destruct x as [p s11]. rewrite (Op eq_refl) in H. bind H s12 E12.
    assert (Q : ts' = rest /\ ce' = e1 /\ match p with Some p => match bb_connect f p NEXT s12 with Some s => Some (s, Some p) | None => None end | None => Some (s12, Some f) end = Some (st', o)).
    { destruct p as [p|]; [bind H s13 E13|]; apply some_inj in H; injection H as <- <- <- <-; auto. }
    destruct Q as (-> & -> & Q). split; [reflexivity|]. eapply (if_did n c a brk cnt ce st b); eauto.
  Qed.
  Lemma ifelse_step n c a a2 : stmtOK n -> stmtAt (S n) (SIfElse c a a2).
  Proof.
    intros IH brk cnt ce st b rest ts' st' o ce' T' S Fi Op W Sc T1 T2 H. sgr2 S. destruct G as (Gc & Ga & Ga2 & Oa). cbn [StmtSpec.fine_stmt] in Fi. destruct (fine_stmt a2 _) as [Tb|] eqn:Fb; [|rewrite andb_false_r in Fi; discriminate]. destruct (fine_stmt a _) as [Ta|] eqn:Fa; [|rewrite andb_false_r in Fi; discriminate]. destruct (no_cond c) eqn:Nc; [|discriminate]. destruct (fine_expr _ c) eqn:Fc; [|discriminate]. cbn [andb] in Fi. injection Fi as <-.
    rewrite read_stmt_S in H. cbn [stokens] in H. unfold tok in H. cbn [List.app] in H. rewrite <- app_assoc in H. cbn [List.app] in H. rewrite <- app_assoc in H. cbn [List.app] in H. cbv beta iota in H.
    destruct (bb_create st) as [k s1] eqn:E1. bind H s2 E2. expect H. bind H x E3. destruct x as [[ts3 s3] c'].
    destruct (enter_ok _ _ _ _ _ W E1 E2) as (Hk & K2 & V2 & C2 & W2 & _). assert (Sc2 : sco s2 (c_scopes ce)) by (eapply sco_mono; [exact Sc|lia]).
    destruct (ev_expr ce n c T_close_bracket _ _ _ _ _ _ _ W2 Sc2 Gc Nc Fc eq_refl E3) as [-> Ev]. expect H. bind H s4 E4. bind H s5 E5. destruct (bb_create s5) as [t s6] eqn:E6. destruct (bb_create s6) as [f s7] eqn:E7. bind H s8 E8. bind H s9 E9. bind H x E10. destruct x as [[[ts10 s10] o1] e1].
    destruct (head_ok _ _ _ _ _ _ _ _ _ _ _ _ _ _ W2 Sc2 (evals_tests _ _ _ _ _ _ Ev) E4 E5 E6 E7 E8 E9) as (Ht & Hf & K9 & _ & _ & _ & _ & W9 & Sc9 & _).
    match type of E10 with read_stmt _ _ _ _ (_ ++ ?z) _ _ = _ => destruct (sub_did n a brk cnt ce s9 t z ts10 s10 o1 e1 Ta IH Ga Fa) as [-> D]; auto; [rewrite Oa; discriminate|] end.
    bind H x E11. destruct x as [p s11]. expect H. bind H s12 E12. bind H s13 E13. bind H x E14. destruct x as [[[ts14 s14] o2] e2].
    assert (G11 : gr s10 s11 /\ (p_blk s10 <= p_blk s11)%nat).
    { unfold after_body in E11. destruct o1 as [y|]; [|apply some_inj in E11; injection E11 as <- <-; split; [apply chg_refl|lia]]. destruct (bb_create s10) as [k' s10'] eqn:Eq. bind E11 s11' Eq2. apply some_inj in E11. injection E11 as <- <-.
      destruct (gr_create _ _ _ Eq) as (A & _ & A2). destruct (ds_cur _ _ _ _ _ _ _ _ _ _ _ D y eq_refl) as [_ Ly]. destruct (gr_conn _ _ _ _ _ Eq2) as [A3 A4]; [lia|]. split; [eapply gr_trans; eauto|lia]. }
    destruct (gr_label _ _ E12) as [G12 K12]. destruct (gr_label _ _ E13) as [G13 K13]. pose proof (ds_chg _ _ _ _ _ _ _ _ _ _ _ D) as D4. pose proof (ch_blk _ _ _ D4) as K10. destruct G11 as [G11 K11].
    assert (G913 : gr s9 s13) by (eapply gr_trans; [eapply gr_any; exact D4|eapply gr_trans; [exact G11|eapply gr_trans; [exact G12|exact G13]]]).
    assert (W13 : wfs s13 f) by (eapply wfs_gr; [exact W9|exact G913|lia]). pose proof (ds_scopes _ _ _ _ _ _ _ _ _ _ _ D) as D3. cbn [cut] in D3.
    assert (Sc13 : sco s13 (c_scopes e1)) by (rewrite D3; eapply sco_gr; [exact Sc9|exact G913]).
    destruct (sub_did n a2 brk cnt e1 s13 f rest ts14 s14 o2 e2 Tb IH Ga2) as [-> D2]; auto; [rewrite D3; exact Fb|].
    bind H x E15. destruct x as [p2 s15]. bind H s16 E16.
    assert (Q : ts' = rest /\ ce' = e2 /\ match p, p2 with
    | Some p, Some q => let '(j, st) := bb_create s16 in do st <- bb_connect p j NEXT st; do st <- bb_connect q j NEXT st; Some (st, Some j)
    | Some p, None => Some (s16, Some p)
    | None, _ => Some (s16, p2)
    end = Some (st', o)).
    { destruct p as [p|]; [destruct p2 as [p2|]|]; [destruct (bb_create s16) as [j s17]; bind H s18 E18; bind H s19 E19| |]; apply some_inj in H; injection H as <- <- <- <-; auto. }
    destruct Q as (-> & -> & Q). split; [reflexivity|]. eapply (ifelse_did n c a a2 brk cnt ce st b); eauto.
  Qed.
  Lemma while_step n c a : stmtOK n -> stmtAt (S n) (SWhile c a).
  Proof.
    intros IH brk cnt ce st b rest ts' st' o ce' T' S Fi Op W Sc T1 T2 H. sgr2 S. destruct G as [Gc Ga]. cbn [StmtSpec.fine_stmt] in Fi. destruct (fine_stmt a _) as [Ta|] eqn:Fa; [|rewrite andb_false_r in Fi; discriminate]. destruct (no_cond c) eqn:Nc; [|discriminate]. destruct (fine_expr _ c) eqn:Fc; [|discriminate]. cbn [andb] in Fi. injection Fi as <-.
    rewrite read_stmt_S in H. cbn [stokens] in H. unfold tok in H. cbn [List.app] in H. rewrite <- app_assoc in H. cbn [List.app] in H. cbv beta iota in H.
    destruct (bb_create st) as [k s1] eqn:E1. bind H s2 E2. bind H s3 E3. bind H s4 E4. destruct (bb_create s4) as [g s5] eqn:E5. expect H. bind H x E6. destruct x as [[ts6 s6] c'].
    destruct (enter_ok _ _ _ _ _ W E1 E2) as (Hk & K2 & V2 & C2 & W2 & _). destruct (gr_label _ _ E3) as [G3 K3]. destruct (gr_label _ _ E4) as [G4 K4]. destruct (gr_create _ _ _ E5) as (G5 & _ & K5).
    assert (G25 : gr s2 s5) by (eapply gr_trans; [exact G3|eapply gr_trans; [exact G4|exact G5]]). assert (W5 : wfs s5 k) by (eapply wfs_gr; [exact W2|exact G25|lia]). assert (Sc5 : sco s5 (c_scopes ce)) by (eapply sco_gr; [eapply sco_mono; [exact Sc|]|exact G25]; lia).
    destruct (ev_expr ce n c T_close_bracket _ _ _ _ _ _ _ W5 Sc5 Gc Nc Fc eq_refl E6) as [-> Ev]. expect H. bind H s7 E7. bind H s8 E8. destruct (bb_create s8) as [t s9] eqn:E9. destruct (bb_create s9) as [f s10] eqn:E10. bind H s11 E11. bind H s12 E12. bind H x E13. destruct x as [[[ts13 s13] o1] e1].
    destruct (head_ok _ _ _ _ _ _ _ _ _ _ _ _ _ _ W5 Sc5 (evals_tests _ _ _ _ _ _ Ev) E7 E8 E9 E10 E11 E12) as (Ht & Hf & _ & K6 & _ & _ & _ & W12 & Sc12 & _).
    pose proof (ws_exit _ _ W) as Lx. assert (Tf : tgt (Some f)) by (intros q Q; injection Q as <-; lia). assert (Tk : tgt (Some k)) by (intros q Q; injection Q as <-; lia).
    destruct (sub_did n a (Some f) (Some k) ce s12 t rest ts13 s13 o1 e1 Ta IH Ga Fa) as [-> D]; auto.
    bind H s14 E14. bind H s15 E15. apply some_inj in H. injection H as <- <- <- <-. split; [reflexivity|]. eapply (while_did n c a brk cnt ce st b); eauto.
  Qed.
  Lemma do_step n c a : stmtOK n -> stmtAt (S n) (SDo a c).
  Proof.
    intros IH brk cnt ce st b rest ts' st' o ce' T' S Fi Op W Sc T1 T2 H. sgr2 S. destruct G as [Gc Ga]. cbn [StmtSpec.fine_stmt] in Fi. destruct (fine_stmt a _) as [Ta|] eqn:Fa; [|rewrite andb_false_r in Fi; discriminate]. destruct (no_cond c) eqn:Nc; [|discriminate]. destruct (fine_expr _ c) eqn:Fc; [|discriminate]. cbn [andb] in Fi. injection Fi as <-.
    rewrite read_stmt_S in H. cbn [stokens] in H. unfold tok in H. cbn [List.app] in H. rewrite <- app_assoc in H. cbn [List.app] in H. rewrite <- app_assoc in H. cbn [List.app] in H. cbv beta iota in H.
    destruct (bb_create st) as [k s1] eqn:E1. bind H s2 E2. destruct (bb_create s2) as [c0 s3] eqn:E3. destruct (bb_create s3) as [f s4] eqn:E4. bind H s5 E5. bind H s6 E6. bind H s7 E7. bind H x E8. destruct x as [[[ts8 s8] o1] e1].
    destruct (enter_ok _ _ _ _ _ W E1 E2) as (Hk & K2 & V2 & C2 & W2 & _). destruct (gr_create _ _ _ E3) as (G3 & Hc0 & K3). destruct (gr_create _ _ _ E4) as (G4 & Hf & K4). destruct (gr_label _ _ E5) as [G5 K5]. destruct (gr_label _ _ E6) as [G6 K6]. destruct (gr_label _ _ E7) as [G7 K7].
    assert (G27 : gr s2 s7) by (eapply gr_trans; [exact G3|eapply gr_trans; [exact G4|eapply gr_trans; [exact G5|eapply gr_trans; [exact G6|exact G7]]]]).
    assert (W7 : wfs s7 k) by (eapply wfs_gr; [exact W2|exact G27|lia]). assert (Sc7 : sco s7 (c_scopes ce)) by (eapply sco_gr; [eapply sco_mono; [exact Sc|]|exact G27]; lia).
    pose proof (ws_exit _ _ W) as Lx. assert (Tf : tgt (Some f)) by (intros q Q; injection Q as <-; lia). assert (Tk : tgt (Some c0)) by (intros q Q; injection Q as <-; lia).
    match type of E8 with read_stmt _ _ _ _ (_ ++ ?z) _ _ = _ => destruct (sub_did n a (Some f) (Some c0) ce s7 k z ts8 s8 o1 e1 Ta IH Ga Fa) as [-> D]; auto end.
    pose proof (ds_chg _ _ _ _ _ _ _ _ _ _ _ D) as D4. pose proof (ch_blk _ _ _ D4) as K8. pose proof (ds_scopes _ _ _ _ _ _ _ _ _ _ _ D) as D3. cbn [cut] in D3.
    bind H s9 E9. expect H. expect H. bind H s10 E10. bind H x E11. destruct x as [[ts11 s11] c'].
    destruct (gr_opt _ _ _ _ E9) as [G9 K9]. { intros y Q. apply (ds_cur _ _ _ _ _ _ _ _ _ _ _ D y Q). } destruct (gr_label _ _ E10) as [G10 K10].
    assert (W10 : wfs s10 c0). { eapply wfs_gr; [exact W7|eapply gr_trans; [eapply gr_any; exact D4|eapply gr_trans; [exact G9|exact G10]]|lia]. }
    assert (Sc10 : sco s10 (c_scopes e1)). { eapply sco_gr; [apply (ds_sco _ _ _ _ _ _ _ _ _ _ _ D)|eapply gr_trans; [exact G9|exact G10]]. }
    assert (Fc1 : fine_expr (ctypes (c_scopes e1)) c = true) by (rewrite D3; exact Fc).
    destruct (ev_expr e1 n c T_close_bracket _ _ _ _ _ _ _ W10 Sc10 Gc Nc Fc1 eq_refl E11) as [-> Ev]. expect H. bind H s12 E12. expect H. bind H s13 E13. apply some_inj in H. injection H as <- <- <- <-. split; [reflexivity|].
    eapply (do_did n c a brk cnt ce st b); eauto.
  Qed.
  Lemma simple_not_semicolon p z : lex_accept T_semicolon (ptokens p ++ z) = None /\ (match p with Pre _ o => o = BAdd \/ o = BSub | _ => True end -> lex_accept T_close_bracket (ptokens p ++ z) = None).
  Proof. destruct p as [l e|l o e|l o|l o]; cbn [ptokens]; rewrite ?ltokens_eq; cbn [List.app]; (split; [|intros Q]); try reflexivity; [destruct o; reflexivity|]. destruct Q as [-> | ->]; reflexivity. Qed.
  (** the three parts of a for *)
  Lemma init_ok n i0 ce s2 k ts' s3 k' e2 z T' : wfs s2 k -> sco s2 (c_scopes ce) ->
    match i0 with FNone => True | FSimple p => pgram p | FDecl t ds => ds <> [] /\ Forall dgram ds end ->
    match i0 with
    | FNone => Some ([] :: ctypes (c_scopes ce))
    | FSimple p => if fine_simple ([] :: ctypes (c_scopes ce)) p then Some ([] :: ctypes (c_scopes ce)) else None
    | FDecl t ds => match find_type t with Some n => fine_decls n true ds ([] :: ctypes (c_scopes ce)) | None => None end
    end = Some T' ->
    (match lex_accept T_semicolon (match i0 with FNone => [tok T_semicolon] | FSimple p => ptokens p ++ [tok T_semicolon] | FDecl t ds => decl_tokens t ds end ++ z) with
     | Some ts => Some (ts, s2, k, open_scope ce)
     | None =>
         match match i0 with FNone => [tok T_semicolon] | FSimple p => ptokens p ++ [tok T_semicolon] | FDecl t ds => decl_tokens t ds end ++ z with
         | (T_identifier, x) :: r =>
             match find_type x with
             | Some size => read_declarators n true size (open_scope ce) r s2 k
             | None => do (ts, st, k) <- read_assignment n (open_scope ce) None (match i0 with FNone => [tok T_semicolon] | FSimple p => ptokens p ++ [tok T_semicolon] | FDecl t ds => decl_tokens t ds end ++ z) s2 k; do ts <- lex_expect T_semicolon ts; Some (ts, st, k, open_scope ce)
             end
         | _ => None
         end
     end) = Some (ts', s3, k', e2) ->
    ts' = z /\ ctypes (c_scopes e2) = T' /\ sco s3 (c_scopes e2) /\ tl (c_scopes e2) = c_scopes ce /\ chg (eq k) s2 s3 /\ (k' = k \/ (p_blk s2 <= k')%nat) /\ (k' < p_blk s3)%nat /\
    exists new0, c_locals e2 = new0 ++ c_locals ce /\ length (match i0 with FDecl _ ds => array_places ds | _ => [] end) = length (arrays new0) /\
      (incl new0 L -> match i0 with FDecl _ ds => array_places ds | _ => [] end = pls (arrays new0) -> goes ([] :: c_scopes ce) (c_scopes e2) (fun E w E1 w1 => match i0 with
      | FNone => E1 = E /\ w1 = w
      | FSimple p => assigns p E w E1 w1
      | FDecl t ds => exists n, find_type t = Some n /\ declares n ds E w E1 w1
      end) s2 k s3 k').
  Proof.
    intros W Sc G Fi H. assert (Sc1 : sco s2 (c_scopes (open_scope ce))) by (constructor; [intros p Hp; apply (sc_ids _ _ Sc); exact Hp|apply (sc_nd _ _ Sc)]).
    destruct i0 as [|p|t ds].
    - cbn [List.app] in H. unfold tok in H. expect H. apply some_inj in H. injection H as <- <- <- <-. injection Fi as <-. split; [reflexivity|]. split; [reflexivity|]. split; [exact Sc1|]. split; [reflexivity|]. split; [apply chg_refl|]. split; [left; reflexivity|]. split; [apply W|].
      exists []. split; [reflexivity|]. split; [reflexivity|]. intros _ _. split; [apply chg_refl|]. split; [left; reflexivity|]. split; [apply W|]. split; [left; reflexivity|].
      intros O E s E' w' CO Cl Ha R [-> ->]. exists s. split; [apply leads_refl|]. auto.
    - destruct (fine_simple _ p) eqn:Fp; [|discriminate]. injection Fi as <-. destruct (simple_name _ _ Fp) as (Ht & Hs & Hf). rewrite <- app_assoc in H. cbn [List.app] in H. unfold tok in H. rewrite (proj1 (simple_not_semicolon p _)) in H.
      assert (Np : match p with Pre _ _ => False | _ => True end). { destruct p as [| | |l x]; try exact I. cbn [pgram] in G. destruct G as [_ [-> | ->]]; discriminate H. }
      assert (K : (do (ts, st, k) <- read_assignment n (open_scope ce) None (ptokens p ++ (T_semicolon, []) :: z) s2 k; do ts <- lex_expect T_semicolon ts; Some (ts, st, k, open_scope ce)) = Some (ts', s3, k', e2)).
      { revert H. destruct p as [l e|l x e|l x|l x]; cbn [plval] in *; [| | |destruct Np]; cbn [ptokens]; rewrite <- !app_assoc, ltokens_eq; cbn [List.app]; cbv beta iota; rewrite Ht; auto. }
      clear H. rename K into H. bind H x E1. destruct x as [[ts1 s1] b1].
      destruct (assign_ok (open_scope ce) n p None (ptokens p) T_semicolon [] z s2 k ts1 s1 b1 W Sc1 G Fp eq_refl) as (-> & Go & _); [destruct p; auto; destruct Np|exact E1|].
      expect H. apply some_inj in H. injection H as <- <- <- <-. pose proof Go as (C & Cu & Lk & _). split; [reflexivity|]. split; [reflexivity|]. split; [eapply sco_mono; [exact Sc1|apply (ch_var _ _ _ C)]|]. split; [reflexivity|]. split; [exact C|]. split; [exact Cu|]. split; [exact Lk|].
      exists []. split; [reflexivity|]. split; [reflexivity|]. intros _ _. exact Go.
    - destruct G as [Ne G]. destruct (find_type t) as [size|] eqn:Ht; [|discriminate]. unfold decl_tokens, ident, tok in H. cbn [List.app] in H. rewrite <- app_assoc in H. cbn [List.app] in H. expect H. rewrite Ht in H.
      destruct (decl_ok size ds true n (open_scope ce) s2 k z ts' s3 k' e2 T' Ne G W Sc1 Fi H) as (-> & Sc' & Ct & Tl & C & Cu & Lt & _ & new & Nl & Na & Go).
      split; [reflexivity|]. split; [exact Ct|]. split; [exact Sc'|]. split; [exact Tl|]. split; [exact C|]. split; [exact Cu|]. split; [exact Lt|]. exists new. split; [exact Nl|]. split; [exact Na|]. intros Hi Hp.
      eapply goes_impl; [apply Go; assumption|]. intros E w E' w' (m & Q & X). congruence.
  Qed.
  Lemma cond_ok n cnd e2 s7 c0 ts' s8 c z : wfs s7 c0 -> sco s7 (c_scopes e2) -> match cnd with Some c => rgram 3 c | None => True end ->
    match cnd with Some c => no_cond c && fine_expr (ctypes (c_scopes e2)) c | None => true end = true ->
    (match lex_accept T_semicolon (match cnd with Some c => rtokens c | None => [] end ++ tok T_semicolon :: z) with
     | Some ts => do st <- load_constant lim 1 c0 s7; Some (ts, st, c0)
     | None => do (ts, st, c) <- read_expr find_constant (look e2) find_func special lim n (match cnd with Some c => rtokens c | None => [] end ++ tok T_semicolon :: z) s7 c0; do ts <- lex_expect T_semicolon ts; Some (ts, st, c)
     end) = Some (ts', s8, c) ->
    ts' = z /\ tests (c_scopes e2) (match cnd with Some c => fun E => cexp E c | None => fun E w y w' => y = 1 /\ w' = w end) s7 c0 s8 c.
  Proof.
    intros W Sc G Fi H. unfold tok in H. destruct cnd as [x|].
    - apply andb_true_iff in Fi. destruct Fi as [Nc Fc]. rewrite expr_not_semicolon in H. bind H y E1. destruct y as [[ts1 s1] c1]. destruct (ev_expr e2 n x T_semicolon _ _ _ _ _ _ _ W Sc G Nc Fc eq_refl E1) as [-> Ev]. expect H. apply some_inj in H. injection H as <- <- <-. split; [reflexivity|apply evals_tests; exact Ev].
    - cbn [List.app] in H. expect H. bind H s1 E1. apply some_inj in H. injection H as <- <- <-. split; [reflexivity|]. apply const_tests; assumption.
  Qed.
  Lemma inc_ok n p e2 s13 i0 ts' s14 i z : wfs s13 i0 -> sco s13 (c_scopes e2) -> match p with Some p => pgram p | None => True end ->
    match p with Some p => fine_simple (ctypes (c_scopes e2)) p && flat_simple p | None => true end = true ->
    (match lex_accept T_close_bracket (match p with Some p => ptokens p | None => [] end ++ tok T_close_bracket :: z) with
     | Some ts => Some (ts, s13, i0)
     | None =>
         let '(prefix, ts) := match match p with Some p => ptokens p | None => [] end ++ tok T_close_bracket :: z with (T_increment, _) :: r => (Some OP_add, r) | (T_decrement, _) :: r => (Some OP_sub, r) | _ => (None, match p with Some p => ptokens p | None => [] end ++ tok T_close_bracket :: z) end in
         do (ts, st, i) <- read_assignment n e2 prefix ts s13 i0; do ts <- lex_expect T_close_bracket ts; Some (ts, st, i)
     end) = Some (ts', s14, i) ->
    ts' = z /\ i = i0 /\ goes (c_scopes e2) (c_scopes e2) (fun E w E' w' => match p with Some p => assigns p E w E' w' | None => E' = E /\ w' = w end) s13 i0 s14 i0 /\ (p <> None -> p_code s14 i0 <> []).
  Proof.
    intros W Sc G Fi H. unfold tok in H. destruct p as [p|].
    - apply andb_true_iff in Fi. destruct Fi as [Fp Fl]. rewrite (proj2 (simple_not_semicolon p _)) in H by (destruct p; cbn [pgram] in G; tauto).
      assert (K : exists prefix ts, match p with Pre l o => prefix = Some (opc o) /\ ts = ltokens l | _ => prefix = None /\ ts = ptokens p end /\
        (do (ts, st, i) <- read_assignment n e2 prefix (ts ++ (T_close_bracket, []) :: z) s13 i0; do ts <- lex_expect T_close_bracket ts; Some (ts, st, i)) = Some (ts', s14, i)).
      { destruct p as [l e|l x e|l x|l x].
        1-3: exists None; eexists; split; [split; reflexivity|]; revert H; cbn [ptokens]; rewrite <- !app_assoc, ltokens_eq; cbn [List.app]; cbv beta iota; auto.
        exists (Some (opc x)), (ltokens l). split; [split; reflexivity|]. revert H. cbn [pgram] in G. destruct G as [_ [-> | ->]]; cbn [ptokens step_token opc List.app]; unfold tok; rewrite ltokens_eq; cbn [List.app]; cbv beta iota; auto. }
      clear H. destruct K as (prefix & ts & Hp & H). bind H x E1. destruct x as [[ts1 s1] b1].
      destruct (assign_ok e2 n p prefix ts T_close_bracket [] z s13 i0 ts1 s1 b1 W Sc G Fp eq_refl Hp E1) as (-> & Go & Fl'). pose proof (assign_code _ _ _ _ _ _ _ _ _ E1) as Ne. specialize (Fl' Fl). subst b1. expect H. apply some_inj in H. injection H as <- <- <-. auto.
    - cbn [List.app] in H. expect H. apply some_inj in H. injection H as <- <- <-. split; [reflexivity|]. split; [reflexivity|]. split; [|congruence]. split; [apply chg_refl|]. split; [left; reflexivity|]. split; [apply W|]. split; [left; reflexivity|].
      intros O E s E' w' CO Cl Ha R [-> ->]. exists s. split; [apply leads_refl|]. auto.
  Qed.
  Lemma for_step n i0 cnd p a : stmtOK n -> stmtAt (S n) (SFor i0 cnd p a).
  Proof.
    intros IH brk cnt ce st b rest ts' st' o ce' T' S Fi Op W Sc T1 T2 H. sgr2 S. destruct G as (Gi & Gc & Gp & Ga). cbn [StmtSpec.fine_stmt] in Fi.
    match type of Fi with match ?X with _ => _ end = _ => destruct X as [Ti|] eqn:Fin; [|discriminate] end.
    destruct (fine_stmt a Ti) as [Ta|] eqn:Fa; [|rewrite andb_false_r in Fi; discriminate]. rewrite andb_true_r in Fi.
    destruct (match cnd with Some _ => _ | None => _ end) eqn:Fc; [|discriminate]. cbn [andb] in Fi. destruct (match p with Some _ => _ | None => _ end) eqn:Fp; [|discriminate]. injection Fi as <-.
    rewrite read_stmt_S in H. cbn [stokens] in H. unfold tok in H at 1 2. cbn [List.app] in H. rewrite <- app_assoc in H. rewrite <- app_assoc in H. cbn [List.app] in H. rewrite <- app_assoc in H. cbn [List.app] in H. cbv beta iota in H. expect H. cbv zeta in H.
    destruct (bb_create st) as [k s1] eqn:E1. bind H s2 E2. destruct (enter_ok _ _ _ _ _ W E1 E2) as (Hk & K2 & V2 & C2 & W2 & _). assert (Sc2 : sco s2 (c_scopes ce)) by (eapply sco_mono; [exact Sc|lia]).
    bind H x E3. destruct x as [[[ts3 s3] k'] e2]. destruct (init_ok n i0 ce s2 k _ s3 k' e2 _ Ti W2 Sc2 Gi Fin E3) as (-> & Ct & Sc3 & Tl3 & C3 & Cu3 & L3 & new0 & Nl3 & Na3 & Go3).
    destruct (bb_create s3) as [c0 s4] eqn:E4. destruct (bb_create s4) as [f s5] eqn:E5. bind H s6 E6. bind H s7 E7.
    destruct (gr_create _ _ _ E4) as (G4 & Hc0 & K4). destruct (gr_create _ _ _ E5) as (G5 & Hf & K5). destruct (gr_conn _ _ _ _ _ E6) as (G6 & K6); [lia|]. destruct (gr_label _ _ E7) as (G7 & K7). pose proof (ch_blk _ _ _ C3) as K3.
    assert (G37 : gr s3 s7) by (eapply gr_trans; [exact G4|eapply gr_trans; [exact G5|eapply gr_trans; [exact G6|exact G7]]]).
    assert (W7 : wfs s7 c0) by (eapply wfs_gr; [exact W2|eapply gr_trans; [eapply gr_any; exact C3|exact G37]|lia]). assert (Sc7 : sco s7 (c_scopes e2)) by (eapply sco_gr; [exact Sc3|exact G37]).
    rewrite <- Ct in Fc, Fa. bind H x E8. destruct x as [[ts8 s8] c]. destruct (cond_ok n cnd e2 s7 c0 _ s8 c _ W7 Sc7 Gc Fc E8) as (-> & Te). destruct (gr_tests _ _ _ _ _ _ (ws_b _ _ W7) Te) as [G8 L8]. pose proof (ch_blk _ _ _ G8) as K8.
    bind H s9 E9. bind H s10 E10. bind H s11 E11. destruct (bb_create s11) as [i s12] eqn:E12. bind H s13 E13.
    destruct (gr_conn _ _ _ _ _ E9 L8) as (G9 & K9). destruct (gr_branch _ _ _ E10) as (G10 & K10); [lia|]. destruct (gr_label _ _ E11) as (G11 & K11). destruct (gr_create _ _ _ E12) as (G12 & Hi & K12). destruct (gr_label _ _ E13) as (G13 & K13).
    assert (G713 : gr s7 s13) by (eapply gr_trans; [exact G8|eapply gr_trans; [exact G9|eapply gr_trans; [exact G10|eapply gr_trans; [exact G11|eapply gr_trans; [exact G12|exact G13]]]]]).
    assert (W13 : wfs s13 i) by (eapply wfs_gr; [exact W7|exact G713|lia]). assert (Sc13 : sco s13 (c_scopes e2)) by (eapply sco_gr; [exact Sc7|exact G713]).
    bind H x E14. destruct x as [[ts14 s14] i']. assert (Fp' : match p with Some p => fine_simple (ctypes (c_scopes e2)) p && flat_simple p | None => true end = true) by (rewrite Ct; destruct p; [exact Fp|reflexivity]). destruct (inc_ok n p e2 s13 i _ s14 i' _ W13 Sc13 Gp Fp' E14) as (-> & -> & Go14 & Ne14).
    destruct (gr_goes _ _ _ _ _ _ _ Go14) as [G14 L14]. pose proof (ch_blk _ _ _ G14) as K14.
    bind H s15 E15. bind H s16 E16. destruct (bb_create s16) as [t s17] eqn:E17. bind H s18 E18.
    destruct (gr_label _ _ E15) as (G15 & K15). destruct (gr_label _ _ E16) as (G16 & K16). destruct (gr_create _ _ _ E17) as (G17 & Ht & K17). destruct (gr_conn _ _ _ _ _ E18) as (G18 & K18); [lia|].
    assert (G1318 : gr s13 s18) by (eapply gr_trans; [exact G14|eapply gr_trans; [exact G15|eapply gr_trans; [exact G16|eapply gr_trans; [exact G17|exact G18]]]]).
    assert (W18 : wfs s18 t) by (eapply wfs_gr; [exact W13|exact G1318|lia]). assert (Sc18 : sco s18 (c_scopes e2)) by (eapply sco_gr; [exact Sc13|exact G1318]).
    pose proof (ws_exit _ _ W) as Lx. assert (Tf : tgt (Some f)) by (intros q Q; injection Q as <-; lia). assert (Tk : tgt (Some i)) by (intros q Q; injection Q as <-; lia).
    bind H x E19. destruct x as [[[ts19 s19] o1] e3]. destruct (sub_did n a (Some f) (Some i) e2 s18 t rest ts19 s19 o1 e3 Ta IH Ga Fa) as [-> D]; auto.
    bind H s20 E20. bind H s21 E21. apply some_inj in H. injection H as <- <- <- <-. split; [reflexivity|]. cbn [is_decl].
    eapply (for_did i0 cnd p a brk cnt ce st b) with (new0 := new0) (Rc := match cnd with Some c => fun E => cexp E c | None => fun E w y w' => y = 1 /\ w' = w end) (Rp := fun E w E' w' => match p with Some p => assigns p E w E' w' | None => E' = E /\ w' = w end);
      [exact W|exact Sc|exact E1|exact E2| |exact E4|exact E5|exact E6|exact E7|intros _ _; exact Te|exact E9|exact E10|exact E11|exact E12|exact E13|intros _ _; exact Go14|exact E15|exact E16|exact E17|exact E18|intros _ _ _ _; exact D|exact E20|exact E21|reflexivity| | | | |].
    - intros _. do 7 (split; [assumption|]). exact Go3.
    - intros Q. destruct p as [p|]; [left; apply Ne14; discriminate|]. right. apply orb_true_iff in Fp. destruct Fp as [Q'|Q']; [|apply negb_true_iff; exact Q']. exfalso. exact (ds_falls _ _ _ _ _ _ _ _ _ _ _ D Q' Q).
    - intros E w E1' w1 X. destruct i0; exact X.
    - intros E w w' X. destruct X; [exists 1; split; [lia|auto]|eauto].
    - intros x E w w' -> X. exact X.
    - intros E w E' w' X. exact X.
  Qed.
  Lemma all_stmts n : stmtOK n /\ blockOK n.
  Proof.
    induction n as [|n [IHs IHb]].
    - split; intros s brk cnt ce st b rest ts' st' o ce' T' G Fi; intros; discriminate.
    - split; [|apply block_step; assumption]. intros s. destruct s as [|p|f args|t ds|q| |a q|c a|c a a2|c a|a c|i c p a| | |e].
      + apply skip_step. + apply simple_step. + apply call_step. + apply decl_step. + apply curly_step. exact IHb.
      + intros brk cnt ce st b rest ts' st' o ce' T' S. exfalso. destruct S as [G|(? & ? & Q & _)]; [cbn [sgram] in G; discriminate G|discriminate Q].
      + intros brk cnt ce st b rest ts' st' o ce' T' S. exfalso. destruct S as [G|(? & ? & Q & _)]; [cbn [sgram] in G; destruct G as [G _]; discriminate G|discriminate Q].
      + apply if_step. exact IHs. + apply ifelse_step. exact IHs. + apply while_step. exact IHs. + apply do_step. exact IHs. + apply for_step. exact IHs.
      + apply jump_step. + apply jump_step. + apply return_step.
  Qed.
End Setting.
