(** Switch statements, and bodies of functions that contain them: what the reader makes of them does what the specification says. *)
From Verif.Front Require Import GlobalInitProofs SwitchParse.
From Verif.Front Require Export StmtEval.
Open Scope Z_scope.

Section Setting.
  Variable find_constant : text -> option Z.
  Variable find_global : text -> option vinfo.
  Variable find_func : text -> option Z.
  Variable special : text -> bool.
  Variable lim : nat.
  Context {world : Type}.
  Variable M : meaning Z world.
  Variable V : vars.
  Variable goff : nat -> Z.
  Variable place : nat -> Z.
  Variable exit : nat.
  Variable void : bool.
  Variable F : pst.
  Variable nv : nat.                               (* the variables from nv on are made while reading *)
  Hypothesis HM : c_like M.
  Hypothesis Hinit : forall v, (nv <= v)%nat -> v_init V v = p_init F v.
  Hypothesis Hglob : forall v, (nv <= v)%nat -> v_global V v = false.
  Hypothesis Hgl : forall x v, find_global x = Some v -> v_global V (vi_id v) = true /\ 0 <= vi_ptr v.
  Variable find_type : text -> option Z.
  Hypothesis Hfun : forall v, v_func V v = None.
  Variable L : list vinfo.
  Hypothesis HL : forall v, In v L -> no_storage V (vi_id v) = (vi_array v =? 0).
  (* the setting of StmtEval.v *)
  Notation gtype := (@StmtEval.gtype find_global).
  Notation gget := (@StmtEval.gget find_global world M goff).
  Notation gput := (@StmtEval.gput find_global world M goff).
  Notation wfs := (@StmtEval.wfs exit nv).
  Notation sco := (@StmtEval.sco find_constant V).
  Notation sco_mono := (@StmtEval.sco_mono find_constant V goff place F nv Hinit Hglob).
  Notation wfs_chg := (@StmtEval.wfs_chg V goff place exit F nv Hinit Hglob).
  Notation ev_expr := (@StmtEval.ev_expr find_constant find_global find_func special lim world M V goff place exit void F nv HM Hinit Hglob Hgl).
  Notation put_go := (@StmtEval.put_go world V goff place F nv Hinit Hglob).
  Notation good_up := (@StmtEval.good_up V goff place F nv Hinit Hglob).
  Notation rel_after := (@StmtEval.rel_after find_constant world V).
  Notation const_step := (@StmtEval.const_step lim world M V goff place F nv HM Hinit Hglob).
  Notation binary_step := (@StmtEval.binary_step world M V goff place nv Hglob).
  Notation is_func := (@StmtEval.is_func find_func).
  Notation seq_back := (@StmtEval.seq_back lim V goff place F nv Hinit Hglob Hfun).
  Notation back1 := (@StmtEval.back1 lim goff place F).
  Notation back0 := (@StmtEval.back0 lim goff place F).
  Notation fw1 := (@StmtEval.fw1 V goff place F nv Hinit Hglob Hfun).
  Notation go_next := (@StmtEval.go_next world M V goff place exit void F).
  Notation gets := (@StmtEval.gets world M V goff place exit void F).
  Notation reach := (@StmtEval.reach world M V goff place exit void F).
  Notation runs := (@StmtEval.runs world M V goff place exit void F).
  Notation did_s := (@StmtEval.did_s find_constant find_global find_func world M V goff place exit void F find_type L).
  Notation tgt := (@StmtEval.tgt exit).
  Notation gets_from := (@StmtEval.gets_from world M V goff place exit void F).
  Notation gets_reset := (@StmtEval.gets_reset world M V goff place exit void F).
  Notation reach_from := (@StmtEval.reach_from world M V goff place exit void F).
  Notation gets_cut := (@StmtEval.gets_cut world M V goff place exit void F).
  Notation reach_later := (@StmtEval.reach_later world M V goff place exit void F nv Hinit Hglob Hfun).
  Notation enter_ok := (@StmtEval.enter_ok V goff place exit F nv Hinit Hglob Hfun).
  Notation after_ok := (@StmtEval.after_ok V goff place F nv Hinit Hglob Hfun).
  Notation all_stmts := (@StmtEval.all_stmts find_constant find_global find_func special lim world M V goff place exit void F nv HM Hinit Hglob Hgl find_type Hfun L HL).
  Notation ds_sco := (@StmtEval.ds_sco find_constant find_global find_func world M V goff place exit void F find_type L).
  Notation ds_types := (@StmtEval.ds_types find_constant find_global find_func world M V goff place exit void F find_type L).
  Notation ds_scopes := (@StmtEval.ds_scopes find_constant find_global find_func world M V goff place exit void F find_type L).
  Notation ds_chg := (@StmtEval.ds_chg find_constant find_global find_func world M V goff place exit void F find_type L).
  Notation ds_cur := (@StmtEval.ds_cur find_constant find_global find_func world M V goff place exit void F find_type L).
  Notation ds_run := (@StmtEval.ds_run find_constant find_global find_func world M V goff place exit void F find_type L).
  Notation ws_b := (@StmtEval.ws_b exit nv).
  Notation ws_exit := (@StmtEval.ws_exit exit nv).
  Notation ws_var := (@StmtEval.ws_var exit nv).
  Notation ws_empty := (@StmtEval.ws_empty exit nv).
  Notation state := (@senv Z world).
  Notation get := (AllocSpec.get M V goff).
  Notation leads := (leads M V goff place exit void F).
  Notation steps := (steps M V goff place).
  Notation look := (find_var find_global).
  Notation cexp := (cexp find_constant gtype gget (m_read M) (do_call find_func M)).
  Notation fine_expr := (fine_expr (is_constant find_constant) gtype special).
  Notation none := (fun _ : nat => False).
  Notation exec := (exec find_constant find_type gtype gget gput (m_read M) (m_write M) (do_call find_func M)).
  Notation fine_stmt := (fine_stmt (is_constant find_constant) find_type gtype is_func special).
  Notation read_stmt := (read_stmt find_constant find_global find_type find_func special lim exit).
  Notation tail := (ExprRun.tail M V goff place exit void F).
  Notation pls := (map (fun v => place (vi_id v))).
  
  Ltac bind H x E := match type of H with match ?X with Some _ => _ | None => None end = Some _ => destruct X as [x|] eqn:E; [|discriminate H] end.
  Hypothesis Hkeep : forall n brk cnt e ts st b ts' st' o e', read_stmt n brk cnt e ts st b = Some (ts', st', o, e') -> p_stack st' = p_stack st.
  Notation label_value := (label_value find_constant).
  Notation selected := (selected find_constant).
  Notation read_case_body := (read_case_body find_constant find_global find_type find_func special lim exit).
  Notation read_case := (read_case find_constant find_global find_type find_func special lim exit).
  Notation read_cases := (read_cases find_constant find_global find_type find_func special lim exit).
  Notation read_switch := (read_switch find_constant find_global find_type find_func special lim exit).
  Lemma exec_app l1 l2 : forall E w o E' w', exec (sequence (l1 ++ l2)) E w o E' w' ->
    (exists E1 w1, exec (sequence l1) E w ONormal E1 w1 /\ exec (sequence l2) E1 w1 o E' w') \/ (exec (sequence l1) E w o E' w' /\ o <> ONormal).
  Proof.
    induction l1 as [|a l1 IH]; intros E w o E' w' X.
    - left. exists E, w. split; [constructor|exact X].
    - cbn [List.app sequence fold_right] in X. inversion X; subst.
      + match goal with H : exec (fold_right _ _ _) _ _ _ _ _ |- _ => destruct (IH _ _ _ _ _ H) as [(E2 & w2 & A & B)|[A B]] end.
        * left. exists E2, w2. split; [|exact B]. eapply X_cons; eauto.
        * right. split; [|exact B]. eapply X_cons; eauto.
      + right. split; [|assumption]. apply X_stop; assumption.
  Qed.
  Lemma places_app l1 l2 : places (sequence (l1 ++ l2)) = places (sequence l1) ++ places (sequence l2).
  Proof. induction l1 as [|a l1 IH]; [reflexivity|]. cbn [List.app sequence fold_right places]. unfold sequence in IH. rewrite IH, app_assoc. reflexivity. Qed.
  Lemma flat_seq a q brk cnt ce st b s1 b1 e1 st' o ce' T1 T' : (b < p_blk st)%nat -> did_s false a T1 brk cnt ce st b s1 (Some b1) e1 -> did_s false q T' brk cnt e1 s1 b1 st' o ce' ->
    did_s false (SCons a q) T' brk cnt ce st b st' o ce'.
  Proof.
    intros Lb [A1 A2 A3 A4 A5 A6 (new & A7 & A8 & A9)] [B1 B2 B3 B4 B5 B6 (new' & B7 & B8 & B9)]. destruct (A5 b1 eq_refl) as [Cu Lt]. pose proof (ch_blk _ _ _ A4) as K.
    cbn [cut] in *.
    assert (P : places (SCons a q) = places a ++ places q) by reflexivity.
    constructor; auto.
    - cbn [cut]. congruence.
    - eapply fw1; eauto.
    - intros b' Q. destruct (B5 b' Q) as [Q1 Q2]. split; [|exact Q2]. destruct Q1 as [->|]; [exact Cu|right; lia].
    - intros Hf. cbn [falls] in Hf. destruct q; try (apply B6; exact Hf). apply B6. reflexivity.
    - exists (new' ++ new). split; [rewrite B7, A7, app_assoc; reflexivity|]. rewrite P, arrays_app, !app_length, A8, B8. split; [reflexivity|].
      intros Hi Hp. rewrite map_app in Hp. apply app_split in Hp; [|rewrite map_length; exact A8]. destruct Hp as [Hp1 Hp2].
      specialize (A9 (fun v Hv => Hi v (in_or_app _ _ _ (or_intror Hv))) Hp1). specialize (B9 (fun v Hv => Hi v (in_or_app _ _ _ (or_introl Hv))) Hp2).
      intros O E s out E' w' CO Cl Ha R X. destruct (seq_back O st b s1 b1 st' o CO Cl Lb A4 Cu Lt B4) as (CO1 & Cl1 & Cl2). { intros b2 Q. apply (B5 b2 Q). }
      inversion X; subst.
      + match goal with Hx : exec a _ _ ONormal _ _, Hq : exec q _ _ _ _ _ |- _ => pose proof (A9 _ _ _ _ _ _ CO1 Cl1 Ha R Hx) as G; rename Hq into Xq end.
        cbn [reach] in G. destruct G as (b' & Q & s' & Le & Ha' & Hw' & R'). injection Q as <-. subst w1. pose proof (B9 _ _ _ _ _ _ CO Cl2 Ha' R' Xq) as G. eapply reach_from in G; [|exact Le].
        destruct out as [| | |r]; cbn [reach cut] in *; rewrite <- ?A3; exact G.
      + match goal with Hx : exec a _ _ _ _ _ |- _ => pose proof (A9 _ _ _ _ _ _ CO1 Cl1 Ha R Hx) as G end.
        eapply reach_later; [assumption|left; reflexivity|apply (ch_pred _ _ _ B4)|exact G].
  Qed.
  Lemma flat_nil brk cnt ce st b : wfs st b -> sco st (c_scopes ce) -> did_s false SNil (ctypes (c_scopes ce)) brk cnt ce st b st (Some b) ce.
  Proof.
    intros W Sc. constructor; auto.
    - apply chg_refl.
    - intros b' Q. injection Q as <-. split; [left; reflexivity|apply W].
    - discriminate.
    - exists []. split; [reflexivity|]. split; [reflexivity|]. intros _ _ O E s out E' w' CO Cl Ha R X. inversion X; subst. cbn [reach]. exists b. split; [reflexivity|].
      exists s. split; [apply leads_refl|]. auto.
  Qed.
  Lemma flat_last a brk cnt ce st b st' ce' T' : did_s false a T' brk cnt ce st b st' None ce' -> did_s false (SCons a SNil) T' brk cnt ce st b st' None ce'.
  Proof.
    intros [A1 A2 A3 A4 A5 A6 (new & A7 & A8 & A9)]. assert (P : places (SCons a SNil) = places a) by (cbn [places]; apply app_nil_r). constructor; auto.
    exists new. split; [exact A7|]. rewrite P. split; [exact A8|]. intros Hi Hp. specialize (A9 Hi Hp). intros O E s out E' w' CO Cl Ha R X. inversion X; subst.
    - match goal with Hx : exec a _ _ ONormal _ _ |- _ => pose proof (A9 _ _ _ _ _ _ CO Cl Ha R Hx) as G end. cbn [reach] in G. destruct G as (b' & Q & _). discriminate.
    - match goal with Hx : exec a _ _ _ _ _ |- _ => pose proof (A9 _ _ _ _ _ _ CO Cl Ha R Hx) as G end.
      eapply reach_later; [assumption|left; reflexivity|apply pl_refl|exact G].
  Qed.
  Lemma flat_head a z : sgram false a -> exists t w r, stokens a ++ z = (t, w) :: r /\ at_label ((t, w) :: r) = false /\ t <> T_else /\ t <> T_switch /\ t <> T_close_curly.
  Proof.
    intros G. destruct a as [|p|f args|t ds|q| |a q|c a|c a b|c a|a c|i c p a| | |[e|]]; cbn [sgram] in G; try discriminate G; try (destruct G as [G _]; discriminate G); try (destruct G as [_ G]; destruct G; fail); try (do 3 eexists; split; [reflexivity|repeat split; discriminate]).
    destruct p as [l e|l o e|l o|l o]; cbn [stokens ptokens]; rewrite ?ltokens_eq; cbn [List.app].
    1-3: do 3 eexists; split; [reflexivity|repeat split; discriminate]. do 3 eexists; split; [reflexivity|]. destruct o; repeat split; discriminate.
  Qed.
  Lemma label_else z : at_label z = true -> lex_accept T_else z = None.
  Proof. destruct z as [|[t w] r]; [discriminate|]. destruct t; try discriminate; reflexivity. Qed.
  (** the statements below a label *)
  Lemma body_ok n : forall q f cnt ce st b rest ts' st' o ce', Forall (sgram false) q -> (forall s, In s q -> fine_stmt s (ctypes (c_scopes ce)) <> None) -> at_label rest = true ->
    wfs st b -> sco st (c_scopes ce) -> tgt (Some f) -> tgt cnt -> read_case_body n f cnt ce (stokens (sequence q) ++ rest) st (Some b) = Some (ts', st', o, ce') ->
    ts' = rest /\ did_s false (sequence q) (ctypes (c_scopes ce)) (Some f) cnt ce st b st' o ce' /\ p_stack st' = p_stack st.
  Proof.
    induction n as [|n IH]; [discriminate|]. intros q f cnt ce st b rest ts' st' o ce' G Fi La W Sc T1 T2 H. cbn [SwitchParse.read_case_body] in H. destruct q as [|a q].
    - cbn [sequence fold_right stokens List.app] in H. rewrite La in H. apply some_inj in H. injection H as <- <- <- <-. split; [reflexivity|]. split; [apply flat_nil; assumption|reflexivity].
    - inversion G as [|? ? Ga Gq]; subst. cbn [sequence fold_right stokens] in H. rewrite <- app_assoc in H. fold (sequence q) in H.
      destruct (flat_head a (stokens (sequence q) ++ rest) Ga) as (t & w & r & Et & Nl & _). rewrite Et in H at 1. rewrite Nl in H. bind H x E1. destruct x as [[[ts1 s1] o1] e1].
      destruct (fine_stmt a (ctypes (c_scopes ce))) as [Ta|] eqn:Fa; [|exfalso; apply (Fi a); [left; reflexivity|exact Fa]].
      destruct (proj1 (all_stmts n)) with (1 := or_introl Ga : stm a) (2 := Fa) (8 := E1) as [-> D]; auto.
      { intros _. destruct q as [|a' q']; [apply label_else; exact La|]. inversion Gq as [|? ? Ga' _]; subst. cbn [sequence fold_right stokens]. rewrite <- app_assoc.
        match goal with |- lex_accept _ (_ ++ ?z) = _ => destruct (flat_head a' z Ga') as (t1 & w1 & r1 & -> & _ & Ne & _) end. destruct t1; try reflexivity; congruence. }
      rewrite (not_decl a (or_introl Ga) Ga) in D. pose proof (ds_scopes _ _ _ _ _ _ _ _ _ _ _ D) as D3. cbn [cut] in D3. pose proof (ds_types _ _ _ _ _ _ _ _ _ _ _ D) as D2. rewrite D3 in D2. subst Ta.
      pose proof (Hkeep _ _ _ _ _ _ _ _ _ _ _ E1) as K1. destruct o1 as [b1|].
      + destruct (ds_cur _ _ _ _ _ _ _ _ _ _ _ D b1 eq_refl) as [Cu Lt]. assert (W1 : wfs s1 b1) by (eapply wfs_chg; [exact W|apply (ds_chg _ _ _ _ _ _ _ _ _ _ _ D)|exact Lt]).
        destruct (IH q f cnt e1 s1 b1 rest ts' st' o ce' Gq) as (-> & Dq & K2); auto.
        { intros s Hs. rewrite D3. apply Fi. right. exact Hs. }
        { apply (ds_sco _ _ _ _ _ _ _ _ _ _ _ D). }
        split; [reflexivity|]. split; [|congruence]. rewrite D3 in Dq. eapply flat_seq; [apply W|exact D|exact Dq].
      + destruct n as [|n]; [discriminate|]. cbn [SwitchParse.read_case_body] in H. destruct q as [|a' q'].
        * cbn [sequence fold_right stokens List.app] in H. rewrite La in H. apply some_inj in H. injection H as <- <- <- <-. split; [reflexivity|]. split; [apply flat_last; exact D|exact K1].
        * inversion Gq as [|? ? Ga' _]; subst. cbn [sequence fold_right stokens] in H. rewrite <- app_assoc in H.
          match type of H with context [at_label (stokens a' ++ ?z)] => destruct (flat_head a' z Ga') as (t1 & w1 & r1 & Q & N & _) end. rewrite Q, N in H. discriminate.
  Qed.
  (** how statements below a label end: at the start of the block o, or elsewhere *)
  Definition ends (cs : list (list (text * vinfo))) (f : nat) (cnt : option nat) (st' : pst) (o : option nat) (b i : nat) (s : state) (out : outcome) (E' : env) (w' : world) : Prop :=
    match out with ONormal => exists x, o = Some x /\ gets b i s x 0 cs E' w' | _ => reach false cs cs (Some f) cnt st' None b i s out E' w' end.
  Lemma ends_from cs f cnt st' o b0 i0 s0 b i s out E w : leads b0 i0 s0 b i s -> ends cs f cnt st' o b i s out E w -> ends cs f cnt st' o b0 i0 s0 out E w.
  Proof.
    intros Ld H. unfold ends in *. destruct out; [destruct H as (x & Q & H); exists x; split; [exact Q|eapply gets_from; eauto]| | |]; (eapply reach_from; [exact Ld|exact H]).
  Qed.
  Lemma ends_later cs f cnt st1 o1 st2 o2 b i s out E w : out <> ONormal -> pl st1 st2 -> ends cs f cnt st1 o1 b i s out E w -> ends cs f cnt st2 o2 b i s out E w.
  Proof. intros N P H. unfold ends in *. destruct out; [congruence| | |]; (eapply reach_later; [discriminate|left; reflexivity|exact P|exact H]). Qed.
  Lemma ends_up cs f cnt st1 st2 o b i s out E w : pl st1 st2 -> ends cs f cnt st1 o b i s out E w -> ends cs f cnt st2 o b i s out E w.
  Proof. intros P H. destruct out; [exact H| | |]; (eapply ends_later; [discriminate|exact P|exact H]). Qed.
  Definition fine_body (ce : cenv) (q : list stmt) : Prop := forall s, In s q -> fine_stmt s (ctypes (c_scopes ce)) <> None.
  (** from the colon to the next label *)
  Lemma case_ok n f cnt dflt q ce st t rest ts' st' o ce' : Forall (sgram false) q -> fine_body ce q -> at_label rest = true ->
    wfs st t -> sco st (c_scopes ce) -> tgt (Some f) -> tgt cnt -> t <> exit -> p_code st t = [] -> read_case n f cnt dflt ce (stokens (sequence q) ++ rest) st t = Some (ts', st', o, ce') ->
    ts' = rest /\ c_scopes ce' = c_scopes ce /\ p_stack st' = p_stack st /\ chg (eq t) st st' /\
    (forall x, o = Some x -> (x = t \/ (p_blk st <= x)%nat) /\ (x < p_blk st')%nat /\ p_code st' x = []) /\
    exists new, c_locals ce' = new ++ c_locals ce /\ length (places (sequence q)) = length (arrays new) /\ (incl new L -> places (sequence q) = pls (arrays new) ->
      forall O E s out E' w', chg O st' F -> closed O st t st' o -> s_args s = [] -> rel (c_scopes ce) E (s_env s) -> exec (sequence q) E (s_world s) out E' w' ->
        ends (c_scopes ce) f cnt st' o t 0 s out E' w').
  Proof.
    intros G Fi La W Sc T1 T2 Nx Em H. unfold SwitchParse.read_case in H. bind H s1 E1. destruct q as [|a q].
    - cbn [sequence fold_right stokens List.app] in H, E1. rewrite La in H, E1. rewrite orb_true_r in E1. apply some_inj in E1. subst s1. apply some_inj in H. injection H as <- <- <- <-.
      split; [reflexivity|]. split; [reflexivity|]. split; [reflexivity|]. split; [apply chg_refl|]. split. { intros x Q. injection Q as <-. split; [left; reflexivity|]. split; [apply W|exact Em]. }
      exists []. split; [reflexivity|]. split; [reflexivity|]. intros _ _ O E s out E' w' CO Cl Ha R X. inversion X; subst. exists t. split; [reflexivity|]. exists s. split; [apply leads_refl|auto].
    - assert (Nl : at_label (stokens (sequence (a :: q)) ++ rest) = false).
      { inversion G; subst. cbn [sequence fold_right stokens]. rewrite <- app_assoc. match goal with |- at_label (_ ++ ?z) = _ => destruct (flat_head a z) as (t1 & w1 & r1 & -> & N & _); [assumption|] end. exact N. }
      rewrite Nl in H, E1. set (q' := a :: q) in *. clearbody q'. bind H x E2. destruct x as [[[ts2 s2] o2] e2].
      assert (C1 : chg none st s1 /\ p_blk s1 = p_blk st /\ p_code s1 = p_code st /\ p_stack s1 = p_stack st).
      { destruct (dflt || false); [apply some_inj in E1; subst s1; split; [apply chg_refl|auto]|]. destruct (chg_label lim none _ _ E1) as (A & B & C & D). auto. }
      destruct C1 as (C1 & K1 & G1 & S1). assert (W1 : wfs s1 t) by (eapply wfs_chg; [exact W|exact C1|rewrite K1; apply W]). assert (Sc1 : sco s1 (c_scopes ce)) by (eapply sco_mono; [exact Sc|apply (ch_var _ _ _ C1)]).
      destruct (body_ok n q' f cnt ce s1 t rest ts2 s2 o2 e2 G Fi La W1 Sc1 T1 T2 E2) as (-> & D & S2). pose proof (ds_scopes _ _ _ _ _ _ _ _ _ _ _ D) as D3. cbn [cut] in D3.
      pose proof (ds_chg _ _ _ _ _ _ _ _ _ _ _ D) as D4. pose proof (ds_cur _ _ _ _ _ _ _ _ _ _ _ D) as D5.
      bind H x E3. destruct x as [o3 s3]. apply some_inj in H. injection H as <- <- <- <-.
      pose proof (ws_b _ _ W) as Lt. pose proof (ch_blk _ _ _ D4) as K2. pose proof (ws_exit _ _ W) as Lx.
      assert (C2 : chg (eq t) st s2) by (eapply chg_trans; [exact C1|exact D4|]; intros c _ [[]|Q]; exact Q).
      assert (Sk : p_stack s3 = p_stack s2). { revert E3. unfold after_body. destruct o2; [|intros Q; apply some_inj in Q; injection Q as _ <-; reflexivity]. destruct (bb_create s2) as [k s4] eqn:E4. destruct (bb_connect _ _ _ s4) as [s5|] eqn:E5; [|discriminate]. intros Q. apply some_inj in Q. injection Q as _ <-.
        destruct (connect_next _ _ _ _ E5) as (_ & _ & _ & _ & _ & _ & ->). apply (chg_create none _ _ _ E4). }
      split; [reflexivity|]. split; [exact D3|]. split; [congruence|].
      destruct (ds_run _ _ _ _ _ _ _ _ _ _ _ D) as (new & A7 & A8 & A9).
      destruct (after_ok _ _ _ _ E3) as [(-> & -> & ->)|(x & -> & -> & Lx2 & K3 & C3 & N3 & G3)]; [intros x Q; apply (D5 x Q)| |].
      + split; [exact C2|]. split; [discriminate|]. exists new. split; [exact A7|]. split; [exact A8|]. intros Hi Hp O E s out E' w' CO Cl Ha R X. specialize (A9 Hi Hp O E s out E' w' CO).
        assert (Y : reach false (c_scopes ce) (c_scopes e2) (Some f) cnt s2 None t (len s1 t) s out E' w'). { apply A9; auto. intros q0 Hq Lq. right. destruct (closed_num0 _ _ _ _ Cl q0 Hq Lq). lia. }
        unfold len in Y. rewrite G1, Em in Y. cbn [length] in Y. unfold ends. destruct out; [destruct Y as (x & Q & _); discriminate| | |]; exact Y.
      + destruct (D5 x eq_refl) as [Cu Ltx]. split; [eapply fw1; [exact C2|exact C3|]; lia|].
        split. { intros y Q. injection Q as <-. split; [right; lia|]. split; [lia|]. rewrite G3. destruct (ch_empty _ _ _ C2 (ws_empty _ _ W) (p_blk s2)) as (Z & _); [lia|exact Z]. }
        exists new. split; [exact A7|]. split; [exact A8|]. intros Hi Hp O E s out E' w' CO Cl Ha R X. pose proof (closed_num _ _ _ _ _ Cl) as HO.
        assert (Y : reach false (c_scopes ce) (c_scopes e2) (Some f) cnt s2 (Some x) t (len s1 t) s out E' w').
        { apply (A9 Hi Hp (fun q0 => x = q0 \/ O q0) E s out E' w'); auto; [apply (back1 x _ _ s3 C3 CO)|]. intros q0 [<-|Hq] Lq; [left; reflexivity|]. right. destruct (HO q0 Hq ltac:(lia)); lia. }
        unfold len in Y. rewrite G1, Em in Y. cbn [length] in Y. unfold ends. destruct out.
        * cbn [reach] in Y. destruct Y as (y & Q & Y). injection Q as <-. exists (p_blk s2). split; [reflexivity|]. rewrite D3 in Y. eapply gets_reset; [exact Y|]. intros s4. replace (len s2 x) with (len s3 x) by (unfold len; rewrite G3; reflexivity).
          eapply go_next; [exact CO| |lia|exact N3|lia]. intros HH. destruct (HO x HH ltac:(lia)); lia.
        * eapply (reach_later false false); [discriminate|left; reflexivity|apply (ch_pred _ _ _ C3)|]. exact Y.
        * eapply (reach_later false false); [discriminate|left; reflexivity|apply (ch_pred _ _ _ C3)|]. exact Y.
        * eapply (reach_later false false); [discriminate|left; reflexivity|apply (ch_pred _ _ _ C3)|]. exact Y.
  Qed.
  (** the comparison with the value of a label *)
  Lemma compare_ok c b st st' y S : compare_case lim c b st = Some st' -> wfs st b -> p_stack st = y :: S -> good V st y ->
    p_stack st' = p_stack st /\ p_blk st' = p_blk st /\ chg (eq b) st st' /\ (forall q, q <> b -> p_code st' q = p_code st q) /\
    forall X s a t e, chg X st' F -> p_then F b = Some t -> p_else F b = Some e -> s_args s = [] -> get s y = Some a ->
      exists s', leads b (len st b) s (if a =? c then t else e) 0 s' /\ after st s s' (s_world s).
  Proof.
    intros H W Sy Gy. unfold compare_case in H. bind H s1 E1. bind H s2 E2. bind H x E3. destruct x as [x s3].
    destruct (load_constant_adds _ _ _ _ _ E1) as (A1 & S1 & N1 & I1). pose proof (pl_const _ _ _ _ _ E1) as P1. pose proof (ws_b _ _ W) as Lb. pose proof (ws_var _ _ W) as Lv.
    destruct (chg_label lim none _ _ E2) as (C2 & K2 & G2 & S2). destruct (chg_pop none _ _ _ E3) as (C3 & S3 & K3 & V3 & G3). rewrite S2, S1 in S3. injection S3 as <- S3.
    rewrite <- S3, Sy in H. bind H d E4. destruct d as [d s4]. destruct (chg_require lim none _ _ _ E4) as (C4 & -> & V4 & K4 & G4 & S4).
    set (s5 := add_insn b OP_eq _ _ _ _ _ _) in *. bind H s6 E6. bind H s7 E7. apply some_inj in H.
    destruct (chg_label lim none _ _ E6) as (C6 & K6 & G6 & S6). destruct (chg_label lim none _ _ E7) as (C7 & K7 & G7 & S7).
    pose proof (ad_blk _ _ _ _ A1) as K1.
    assert (C01 : chg (eq b) st s1) by (eapply chg_adds; eauto).
    assert (C14 : chg none s1 s4) by (eapply chg_trans; [exact C2|eapply chg_trans; [exact C3|exact C4|]|]; intros q _ [Q|Q]; exact Q).
    assert (C45 : chg (eq b) s4 s5) by (apply chg_insn; lia). assert (K5 : p_blk s5 = p_blk s4) by reflexivity.
    assert (C57 : chg none s5 s7) by (eapply chg_trans; [exact C6|exact C7|]; intros q _ [Q|Q]; exact Q).
    assert (C78 : chg (eq b) s7 st') by (subst st'; apply chg_insn; lia).
    assert (C05 : chg (eq b) st s5) by (apply (fw1 _ _ s4 b); [apply (fw0 _ _ s1); assumption|exact C45|left; reflexivity]).
    assert (C07 : chg (eq b) st s7) by (apply (fw0 _ _ s5); assumption).
    assert (Co5 : forall q, p_code s5 q = if Nat.eqb q b then p_code st b ++ [mkr (mkinsn OP_load_constant (Some (p_var st)) None None) 0 0; mkr (mkinsn OP_eq (Some (p_var s3)) (Some (p_var st)) (Some y)) 0 0] else p_code st q).
    { intros q. unfold s5. cbn [add_insn p_code]. unfold Cfg.upd. rewrite G4, G3, G2, !(ad_code _ _ _ _ A1), Nat.eqb_refl. destruct (Nat.eqb_spec q b); [rewrite <- app_assoc; reflexivity|reflexivity]. }
    assert (Co : forall q, p_code st' q = if Nat.eqb q b then p_code s5 b ++ [mkr (mkinsn OP_branch None (Some (p_var s3)) None) 0 0] else p_code s5 q).
    { intros q. subst st'. cbn [add_insn p_code]. unfold Cfg.upd. rewrite G7, G6. reflexivity. }
    split. { subst st'. cbn [add_insn p_stack]. rewrite S7, S6. unfold s5. cbn [add_insn p_stack]. congruence. }
    split. { subst st'. cbn [add_insn p_blk]. lia. }
    split. { apply (fw1 _ _ s7 b); [exact C07|exact C78|left; reflexivity]. }
    split. { intros q Hq. apply Nat.eqb_neq in Hq. rewrite Co, Hq, Co5, Hq. reflexivity. }
    intros X s a t e CX Ht He Ha Ga.
    assert (X5 : chg (fun q => b = q \/ X q) s5 F) by (apply (back0 _ _ _ C57); apply (back1 b _ _ st' C78 CX)).
    assert (X1 : chg (fun q => b = q \/ b = q \/ X q) s1 F) by (apply (back0 _ _ _ C14); apply (back1 b _ _ _ C45 X5)).
    assert (V2 : (p_var s1 <= p_var s2)%nat) by apply (ch_var _ _ _ C2).
    set (sa := put s (p_var st) c). set (sb := put sa (p_var s3) (b2z (c =? a))).
    assert (Lv3 : (nv <= p_var s3)%nat) by lia.
    assert (Gc : get sa (p_var st) = Some c). { unfold AllocSpec.get. rewrite Hglob by exact Lv. cbn. unfold Cfg.upd. rewrite Nat.eqb_refl. reflexivity. }
    assert (Gy' : get sa y = Some a). { rewrite <- Ga. apply (after_get M V goff st s sa (s_world s)); [exact Gy|apply put_go; lia|reflexivity]. }
    assert (St1 : steps [mkr (mkinsn OP_load_constant (Some (p_var st)) None None) 0 0] s sa) by (eapply const_step; [exact Lv|exact E1|exact X1|exact Ha]).
    assert (St2 : steps [mkr (mkinsn OP_eq (Some (p_var s3)) (Some (p_var st)) (Some y)) 0 0] sa sb).
    { apply (binary_step OP_eq (p_var s3) (p_var st) y sa c a (b2z (c =? a))); [reflexivity|reflexivity|exact Gc|exact Gy'| |exact Lv3]. apply (c_bin M HM BEq c a); [discriminate|discriminate|reflexivity]. }
    pose proof (steps_app _ _ _ _ _ _ _ _ _ St1 St2) as St. cbn [List.app] in St.
    assert (Gd : get sb (p_var s3) = Some (b2z (c =? a))). { unfold AllocSpec.get. rewrite Hglob by lia. cbn. unfold Cfg.upd. rewrite Nat.eqb_refl. reflexivity. }
    destruct (ch_pre _ _ _ CX b) as [l Q]; [subst st'; cbn [add_insn p_blk]; lia|]. rewrite Co, Nat.eqb_refl, Co5, Nat.eqb_refl, <- app_assoc in Q.
    exists (reset sb). split.
    - eapply leads_trans; [unfold len; eapply leads_steps; [exact Q|exact St]|].
      pose proof (leads_branch M V goff place exit void F b (p_code st b ++ [mkr (mkinsn OP_load_constant (Some (p_var st)) None None) 0 0; mkr (mkinsn OP_eq (Some (p_var s3)) (Some (p_var st)) (Some y)) 0 0]) l sb (p_var s3) None None 0 0 (b2z (c =? a)) t e) as Lb2. rewrite (c_truth _ HM) in Lb2.
      rewrite Z.eqb_sym. destruct (c =? a); apply Lb2; auto.
    - split; [reflexivity|]. split; [reflexivity|]. intros u Hu. cbn. unfold Cfg.upd. destruct (Nat.eqb_spec u (p_var s3)); [lia|]. destruct (Nat.eqb_spec u (p_var st)); [lia|reflexivity].
  Qed.
  (** what is executed for the value y *)
  Definition meets (y : Z) (l : slabel) : bool := match l with LDefault => true | _ => match label_value l with Some c => y =? c | None => false end end.
  Fixpoint from (y : Z) (cs : scases) : option (list stmt) :=
    match cs with [] => None | (l, q) :: r => if meets y l then Some (flat_map snd cs) else from y r end.
  Lemma from_selected y cs : default_last cs = true -> flat_map snd (selected y cs) = match from y cs with Some l => l | None => [] end.
  Proof.
    unfold SwitchSpec.selected. induction cs as [|[l q] r IH]; intros D; [reflexivity|]. cbn [from_label from meets SwitchSpec.label_value].
    assert (Dr : l <> LDefault -> default_last r = true) by (intros Nl; destruct r; [reflexivity|]; destruct l; [exact D|exact D|exact D|congruence]).
    destruct l as [n|c|x|]; [specialize (IH (Dr ltac:(discriminate)))..|]; cbn [meets SwitchSpec.label_value].
    - destruct (y =? _); [reflexivity|exact IH].
    - destruct (y =? _); [reflexivity|exact IH].
    - destruct (find_constant x) as [c|]; [destruct (y =? _); [reflexivity|exact IH]|exact IH].
    - destruct r as [|p r]; [reflexivity|discriminate].
  Qed.
  Lemma case_value l z c ts : label_gram l -> l <> LDefault -> match label_tokens l with _ :: r => read_case_value find_constant (r ++ z) = Some (c, ts) | [] => False end -> label_value l = Some c /\ ts = z.
  Proof.
    intros G N H. destruct l as [n|x|x|]; [..|congruence]; cbn in H.
    - apply some_inj in H. injection H as <- <-. split; [|reflexivity]. cbn. rewrite read_const by exact G. reflexivity.
    - apply some_inj in H. injection H as <- <-. auto.
    - bind H d E. apply some_inj in H. injection H as <- <-. auto.
  Qed.
  Lemma cases_ok n : forall cs f cnt ce st b t rest ts' st' o ce' v l0, cs <> [] -> Forall case_gram cs -> default_last cs = true -> (forall p, In p cs -> fine_body ce (snd p)) -> peek T_close_curly rest = true ->
    wfs st b -> (t < p_blk st)%nat -> (f < p_blk st)%nat -> b <> t -> b <> f -> t <> f -> t <> exit -> f <> exit -> p_code st t = [] -> sco st (c_scopes ce) -> tgt cnt -> p_stack st = v :: l0 -> good V st v ->
    read_cases n f cnt ce (case_tokens cs ++ rest) st b t = Some (ts', st', o, ce') ->
    ts' = rest /\ c_scopes ce' = c_scopes ce /\ p_stack st' = p_stack st /\ chg (fun q => b = q \/ t = q) st st' /\
    (forall x, o = Some x -> (x = t \/ (p_blk st <= x)%nat) /\ (x < p_blk st')%nat /\ p_code st' x = []) /\
    exists new, c_locals ce' = new ++ c_locals ce /\ length (places (sequence (flat_map snd cs))) = length (arrays new) /\ (incl new L -> places (sequence (flat_map snd cs)) = pls (arrays new) ->
      forall O E s, chg O st' F -> (forall q, O q -> (q < p_blk st')%nat -> o = Some q \/ ((q < p_blk st)%nat /\ q <> b /\ q <> t)) -> s_args s = [] -> rel (c_scopes ce) E (s_env s) ->
        (forall out E' w', exec (sequence (flat_map snd cs)) E (s_world s) out E' w' -> ends (c_scopes ce) f cnt st' o t 0 s out E' w') /\
        (forall y, get s v = Some y -> match from y cs with
          | Some l => forall out E' w', exec (sequence l) E (s_world s) out E' w' -> ends (c_scopes ce) f cnt st' o b (len st b) s out E' w'
          | None => (0 < p_pred st' f)%nat /\ gets b (len st b) s f 0 (c_scopes ce) E (s_world s) end)).
  Proof.
    induction n as [|n IH]; [discriminate|]. intros cs f cnt ce st b t rest ts' st' o ce' v l0 Nn G Dl Fi Pk W Lt Lf Nbt Nbf Ntf Nx Nfx Em Sc T2 Sk Gv H.
    destruct cs as [|[lb q] r]; [congruence|]. clear Nn. inversion G as [|? ? [Gl Gq] Gr]; subst. cbn [fst snd] in Gl, Gq. pose proof (ws_b _ _ W) as Lb. pose proof (ws_exit _ _ W) as Lx.
    assert (Fq : fine_body ce q) by (apply (Fi (lb, q)); left; reflexivity). assert (Tf : tgt (Some f)) by (intros z Q; injection Q as <-; exact Nfx).
    cbn [SwitchParse.read_cases case_tokens] in H.
    assert (Dd : lb = LDefault \/ lb <> LDefault) by (destruct lb; [right|right|right|left]; congruence). destruct Dd as [->|Nd].
    - destruct r as [|p r]; [|discriminate Dl]. cbn [label_tokens case_tokens List.app] in H. unfold tok in H. rewrite app_nil_r in H.
      change (lex_expect T_colon ((T_colon, @nil Z) :: stokens (sequence q) ++ rest)) with (Some (stokens (sequence q) ++ rest)) in H. cbv beta iota in H.
      bind H s1 E1. bind H x E2. destruct x as [[[ts2 s2] o2] e2]. bind H s3 E3. destruct (peek T_close_curly ts2); [|discriminate]. apply some_inj in H. injection H as <- <- <- <-.
      destruct (chg_conn _ _ _ _ _ E1 Lb) as [C1 _]. destruct (connect_next _ _ _ _ E1) as (N1 & G1 & _ & _ & K1 & V1 & S1).
      assert (W1 : wfs s1 t) by (eapply wfs_chg; [exact W|exact C1|lia]). assert (Sc1 : sco s1 (c_scopes ce)) by (eapply sco_mono; [exact Sc|lia]).
      assert (La : at_label rest = true) by (unfold at_label; rewrite Pk, !orb_true_r; reflexivity).
      destruct (case_ok n f cnt true q ce s1 t rest ts2 s2 o2 e2 Gq Fq La W1 Sc1 Tf T2 Nx ltac:(congruence) E2) as (-> & D3 & S2 & C2 & D5 & new & A7 & A8 & A9).
      destruct (chg_label lim none _ _ E3) as (C3 & K3 & G3 & S3). pose proof (ch_blk _ _ _ C2) as K2.
      split; [reflexivity|]. split; [exact D3|]. split; [congruence|].
      split. { eapply chg_trans; [exact C1|eapply chg_trans; [exact C2|exact C3|]|]; [intros z _ [Q|[]]; exact Q|intros z _ Q; exact Q]. }
      split. { intros x Q. destruct (D5 x Q) as (Q1 & Q2 & Q3). rewrite G3, K3. split; [destruct Q1; [left; assumption|right; lia]|auto]. }
      exists new. split; [exact A7|]. cbn [flat_map snd]. rewrite app_nil_r. split; [exact A8|]. intros Hi Hp O E s CO HO Ha R.
      assert (X2 : chg O s2 F) by apply (back0 _ _ _ C3 CO). assert (ClA : closed O s1 t s2 o2). { intros z Hz Lz. destruct (HO z Hz ltac:(lia)) as [Q|(Q1 & Q2 & Q3)]; [left; exact Q|right; split; [lia|exact Q3]]. }
      assert (A : forall s out E' w', s_args s = [] -> rel (c_scopes ce) E (s_env s) -> exec (sequence q) E (s_world s) out E' w' -> ends (c_scopes ce) f cnt s3 o2 t 0 s out E' w').
      { intros s' out E' w' Ha' R' X. eapply ends_up; [apply (ch_pred _ _ _ C3)|]. eapply A9; eauto. }
      split; [intros out E' w' X; apply A; assumption|]. intros y Hy. cbn [from meets flat_map snd]. rewrite app_nil_r. intros out E' w' X.
      assert (Nb : ~ O b). { intros HH. destruct (HO b HH ltac:(lia)) as [Q|(_ & Q & _)]; [|congruence]. destruct (D5 b Q) as ([Q1|Q1] & _); [congruence|lia]. }
      eapply ends_from; [|apply (A (reset s)); [reflexivity|exact R|exact X]]. replace (len st b) with (len s1 b) by (unfold len; rewrite G1; reflexivity).
      eapply go_next; [apply (back1 t _ _ _ C2 X2)| |lia|exact N1|exact Nx]. intros [Q|Q]; [congruence|auto].
    - assert (Et : exists w0 tl, label_tokens lb = (T_case, w0) :: tl /\ forall z c ts, read_case_value find_constant (tl ++ z) = Some (c, ts) -> label_value lb = Some c /\ ts = z).
      { pose proof (case_value lb) as CV. destruct lb as [n0|x|x|]; [..|congruence]; do 2 eexists; (split; [reflexivity|]); intros z c0 ts Q; apply (CV z c0 ts Gl Nd); exact Q. }
      destruct Et as (w0 & tl0 & Et & Cv). rewrite Et in H. rewrite <- !app_assoc in H. cbn [List.app] in H. clear Et.
      bind H x E0. destruct x as [c ts0]. destruct (Cv _ _ _ E0) as [Lv ->]. clear E0 Cv.
      bind H s1 E1. cbn [List.app] in H. unfold tok in H. rewrite <- ?app_assoc in H. match type of H with context [lex_expect T_colon ((T_colon, []) :: ?z)] => change (lex_expect T_colon ((T_colon, []) :: z)) with (Some z) in H end. cbv beta iota in H.
      bind H s2 E2. bind H x E3. destruct x as [[[ts3 s3] o3] e3]. bind H s4 E4.
      destruct (compare_ok c b st s1 v l0 E1 W Sk Gv) as (S1 & K1 & C1 & G1 & Run).
      destruct (chg_conn _ _ _ _ _ E2 ltac:(lia)) as [C2 _]. destruct (connect_then _ _ _ _ E2) as (N2 & G2 & _ & _ & K2 & V2 & S2).
      assert (C02 : chg (eq b) st s2) by (apply (fw1 _ _ s1 b); [exact C1|exact C2|left; reflexivity]).
      assert (W2 : wfs s2 t) by (eapply wfs_chg; [exact W|exact C02|lia]). assert (Sc2 : sco s2 (c_scopes ce)) by (eapply sco_mono; [exact Sc|apply (ch_var _ _ _ C02)]).
      assert (La : at_label (case_tokens r ++ rest) = true).
      { destruct r as [|[lb' q'] r]; [cbn [case_tokens List.app]; unfold at_label; rewrite Pk, !orb_true_r; reflexivity|]. cbn [case_tokens]. destruct lb'; reflexivity. }
      destruct (case_ok n f cnt false q ce s2 t _ ts3 s3 o3 e3 Gq Fq La W2 Sc2 Tf T2 Nx ltac:(rewrite G2, G1 by congruence; exact Em) E3) as (-> & D3 & S3 & C3 & D5 & new & A7 & A8 & A9).
      destruct (chg_label lim none _ _ E4) as (C4 & K4 & G4 & S4). pose proof (ch_blk _ _ _ C3) as K3.
      assert (C34 : chg (eq t) s2 s4) by (apply (fw0 _ _ s3); assumption).
      assert (C04 : chg (fun z => b = z \/ t = z) st s4) by (eapply chg_trans; [exact C02|exact C34|]; intros z _ Q; exact Q).
      assert (Th4 : p_then s4 b = Some t). { rewrite (then_same _ _ _ _ C34) by (congruence || lia). exact N2. }
      assert (St4 : p_stack s4 = v :: l0) by congruence.
      destruct r as [|p r].
      + cbn [case_tokens List.app] in H. rewrite Pk in H. bind H s5 E5. apply some_inj in H. injection H as <- <- <- <-.
        destruct (chg_conn _ _ _ _ _ E5 ltac:(lia)) as [C5 P5]. destruct (connect_else _ _ _ _ E5) as (N5 & G5 & _ & Th5 & K5 & V5 & S5).
        split; [reflexivity|]. split; [exact D3|]. split; [congruence|].
        split. { eapply chg_trans; [exact C04|exact C5|]. intros z _ [Q|Q]; auto. }
        split. { intros x Q. destruct (D5 x Q) as (Q1 & Q2 & Q3). rewrite G5, G4, K5, K4. split; [destruct Q1; [left; assumption|right; lia]|auto]. }
        exists new. split; [exact A7|]. cbn [flat_map snd]. rewrite app_nil_r. split; [exact A8|]. intros Hi Hp O E s CO HO Ha R.
        pose proof (back1 b _ _ _ C5 CO) as X4. pose proof (back0 _ _ _ C4 X4) as X3. pose proof (back1 t _ _ _ C3 X3) as X2. pose proof (back1 b _ _ _ C2 X2) as X1.
        assert (Nb : ~ O b). { intros HH. destruct (HO b HH ltac:(lia)) as [Q|(_ & Q & _)]; [|congruence]. destruct (D5 b Q) as ([Q1|Q1] & _); [congruence|lia]. }
        assert (ClA : closed (fun z => b = z \/ O z) s2 t s3 o3). { intros z [<-|Hz] Lz; [right; split; [lia|exact Nbt]|]. destruct (HO z Hz ltac:(lia)) as [Q|(Q1 & Q2 & Q3)]; [left; exact Q|right; split; [lia|exact Q3]]. }
        assert (A : forall s out E' w', s_args s = [] -> rel (c_scopes ce) E (s_env s) -> exec (sequence q) E (s_world s) out E' w' -> ends (c_scopes ce) f cnt s5 o3 t 0 s out E' w').
        { intros s' out E' w' Ha' R' X. eapply ends_up; [eapply pl_trans; [apply (ch_pred _ _ _ C4)|apply (ch_pred _ _ _ C5)]|]. eapply A9; eauto. }
        split; [intros out E' w' X; apply A; assumption|]. intros y Hy.
        assert (TF : p_then F b = Some t) by (rewrite (then_same _ _ _ _ CO Nb) by lia; congruence). assert (EF : p_else F b = Some f) by (rewrite (else_same _ _ _ _ CO Nb) by lia; exact N5).
        destruct (Run _ s y t f X1 TF EF Ha Hy) as (s' & Le & Af). pose proof (rel_after _ _ _ _ _ _ Sc R Af) as R'. destruct Af as (Ha' & Hw' & _).
        assert (Mt : meets y lb = (y =? c)) by (unfold meets; rewrite Lv; destruct lb; congruence). cbn [from]. rewrite Mt. cbn [flat_map snd]. rewrite app_nil_r. destruct (y =? c).
        * intros out E' w' X. eapply ends_from; [exact Le|]. apply A; auto. rewrite Hw'. exact X.
        * split; [exact P5|]. exists s'. split; [exact Le|]. auto.
      + assert (Nk : peek T_close_curly (case_tokens (p :: r) ++ rest) = false) by (destruct p as [lb' q']; destruct lb'; reflexivity). rewrite Nk in H.
        destruct (bb_create s4) as [b' s5] eqn:E5. bind H s6 E6. destruct (match o3 with Some t => (t, s6) | None => bb_create s6 end) as [t' s7] eqn:E7.
        destruct (chg_create none _ _ _ E5) as (C5 & -> & K5 & V5 & G5 & S5). destruct (chg_conn _ _ _ _ _ E6 ltac:(lia)) as [C6 _]. destruct (connect_else _ _ _ _ E6) as (N6 & G6 & _ & Th6 & K6 & V6 & S6).
        assert (Th5 : p_then s5 b = Some t) by (rewrite (then_same _ _ _ b C5) by (tauto || lia); exact Th4).
        assert (Ec : forall z, (p_blk s4 <= z)%nat -> p_code s4 z = []). { intros z Hz. destruct (ch_empty _ _ _ C04 (ws_empty _ _ W) z Hz) as (Q & _). exact Q. }
        assert (C7 : chg none s6 s7 /\ p_stack s7 = p_stack s6 /\ p_code s7 = p_code s6 /\ (p_blk s6 <= p_blk s7)%nat /\ (t' < p_blk s7)%nat /\ t' <> p_blk s4 /\ p_code s7 t' = [] /\ (t' = t \/ (p_blk st <= t')%nat) /\
          (forall x, o3 = Some x -> t' = x)).
        { destruct o3 as [x|].
          - injection E7 as <- <-. destruct (D5 x eq_refl) as (Q1 & Q2 & Q3). split; [apply chg_refl|]. repeat (split; [first [reflexivity|lia]|]). split; [congruence|]. split; [destruct Q1; [left; assumption|right; lia]|]. intros ? Q. injection Q as <-. reflexivity.
          - destruct (chg_create none _ _ _ E7) as (C7 & -> & K7 & _ & G7 & S7). split; [exact C7|]. split; [exact S7|]. split; [exact G7|]. repeat (split; [lia|]). split; [rewrite G7, G6, G5; apply Ec; lia|]. split; [right; lia|discriminate]. }
        destruct C7 as (C7 & S7 & G7 & K7 & Lt' & Nt' & Em' & Ot & Ht').
        assert (C47 : chg (eq b) s4 s7). { eapply chg_trans; [exact C5|eapply chg_trans; [exact C6|exact C7|]|]; [intros z _ [Q|[]]; exact Q|intros z _ [[]|Q]; exact Q]. }
        assert (C07 : chg (fun z => b = z \/ t = z) st s7). { eapply chg_trans; [exact C04|exact C47|]. intros z _ [Q|Q]; auto. }
        assert (Vm : (p_var st <= p_var s7)%nat) by apply (ch_var _ _ _ C07).
        destruct (IH (p :: r) f cnt e3 s7 (p_blk s4) t' rest ts' st' o ce' v l0) as (-> & J3 & J4 & J5 & J6 & new' & B7 & B8 & B9); auto.
        { discriminate. }
        { destruct lb; try exact Dl; congruence. }
        { intros p' Hp'. unfold fine_body. rewrite D3. apply (Fi p'). right. exact Hp'. }
        { eapply wfs_chg; [exact W|exact C07|lia]. }
        { lia. } { lia. } { destruct Ot; [congruence|lia]. } { destruct Ot; [congruence|lia]. }
        { eapply sco_mono; [rewrite D3; exact Sc|exact Vm]. }
        { congruence. }
        { eapply good_up; eauto. }
        pose proof (ch_blk _ _ _ J5) as K8. assert (LbN : (p_blk st <= p_blk s4)%nat) by lia.
        split; [reflexivity|]. split; [congruence|]. split; [congruence|].
        split. { eapply chg_trans; [exact C07|exact J5|]. intros z Hz [Q|[Q|Q]]; [exact Q|lia|]. subst z. destruct Ot; [right; congruence|lia]. }
        split. { intros x Q. destruct (J6 x Q) as (Q1 & Q2 & Q3). split; [|auto]. destruct Q1 as [->|]; [exact Ot|right; lia]. }
        assert (P : places (sequence (flat_map snd ((lb, q) :: p :: r))) = places (sequence q) ++ places (sequence (flat_map snd (p :: r)))) by (cbn [flat_map snd]; apply places_app).
        exists (new' ++ new). split; [rewrite B7, A7, app_assoc; reflexivity|]. rewrite P, arrays_app, !app_length, A8, B8. split; [reflexivity|].
        intros Hi Hp. rewrite map_app in Hp. apply app_split in Hp; [|rewrite map_length; exact A8]. destruct Hp as [Hp1 Hp2].
        specialize (A9 (fun v Hv => Hi v (in_or_app _ _ _ (or_intror Hv))) Hp1). specialize (B9 (fun v Hv => Hi v (in_or_app _ _ _ (or_introl Hv))) Hp2).
        intros O E s CO HO Ha R. rewrite D3 in B9.
        assert (X7 : chg (fun z => (p_blk s4 = z \/ t' = z) \/ O z) s7 F) by (eapply chg_trans; [exact J5|exact CO|tauto]).
        pose proof (back1 b _ _ _ C47 X7) as X4. pose proof (back0 _ _ _ C4 X4) as X3. pose proof (back1 t _ _ _ C3 X3) as X2. pose proof (back1 b _ _ _ C2 X2) as X1.
        assert (HOt : O t' -> o = Some t'). { intros HH. destruct (HO t' HH ltac:(lia)) as [Q|(Q1 & Q2 & Q3)]; [exact Q|]. destruct Ot; [congruence|lia]. }
        assert (HOb : forall z, O z -> (z < p_blk st')%nat -> o = Some z \/ ((z < p_blk s7)%nat /\ z <> p_blk s4 /\ z <> t')).
        { intros z Hz Lz. destruct (HO z Hz Lz) as [Q|(Q1 & Q2 & Q3)]; [left; exact Q|right]. split; [lia|]. split; [lia|]. destruct Ot; [congruence|lia]. }
        assert (ClA : closed (fun z => b = z \/ (p_blk s4 = z \/ t' = z) \/ O z) s2 t s3 o3).
        { assert (Tq : (t' < p_blk s3)%nat -> o3 = Some t' \/ ((t' < p_blk s2)%nat /\ t' <> t)).
          { intros Lz. destruct o3 as [x|]; [left; rewrite (Ht' x eq_refl); reflexivity|]. destruct (chg_create none _ _ _ E7) as (_ & Q & _). lia. }
          intros z [<-|[[<-|<-]|Hz]] Lz; [right; split; [lia|exact Nbt]|lia|apply Tq; exact Lz|]. destruct (HO z Hz ltac:(lia)) as [Q|(Q1 & Q2 & Q3)]; [|right; split; [lia|exact Q3]].
          destruct (J6 z Q) as ([->|Q1] & _); [apply Tq; exact Lz|lia]. }
        assert (Nb : ~ ((p_blk s4 = b \/ t' = b) \/ O b)).
        { intros [[Q|Q]|HH]; [lia|destruct Ot; [congruence|lia]|]. destruct (HO b HH ltac:(lia)) as [Q|(_ & Q & _)]; [|congruence]. destruct (J6 b Q) as ([Q1|Q1] & _); [destruct Ot; [congruence|lia]|lia]. }
        assert (A : forall s out E' w', s_args s = [] -> rel (c_scopes ce) E (s_env s) -> exec (sequence (q ++ flat_map snd (p :: r))) E (s_world s) out E' w' -> ends (c_scopes ce) f cnt st' o t 0 s out E' w').
        { intros s' out E' w' Ha' R' X. destruct (exec_app _ _ _ _ _ _ _ X) as [(E1' & w1' & XA & XB)|[XA Nn]].
          - pose proof (A9 _ _ _ _ _ _ X3 ClA Ha' R' XA) as Y. cbn [ends] in Y. destruct Y as (x & Qx & s'' & Le & Ha2 & Hw2 & R2). rewrite <- (Ht' x Qx) in Le.
            eapply ends_from; [exact Le|]. destruct (B9 O E1' s'' CO HOb Ha2 R2) as [Bq _]. apply Bq. rewrite Hw2. exact XB.
          - eapply ends_later; [exact Nn| |eapply A9; eauto]. eapply pl_trans; [apply (ch_pred _ _ _ C4)|]. eapply pl_trans; [apply (ch_pred _ _ _ C47)|apply (ch_pred _ _ _ J5)]. }
        split; [intros out E' w' X; apply A; assumption|]. intros y Hy.
        assert (TF : p_then F b = Some t). { rewrite (then_same _ _ _ b X7 Nb) by lia. rewrite (then_same _ _ _ b C7 (fun HH => HH)) by lia. congruence. }
        assert (EF : p_else F b = Some (p_blk s4)). { rewrite (else_same _ _ _ b X7 Nb) by lia. rewrite (else_same _ _ _ b C7 (fun HH => HH)) by lia. exact N6. }
        destruct (Run _ s y t (p_blk s4) X1 TF EF Ha Hy) as (s' & Le & Af). pose proof (rel_after _ _ _ _ _ _ Sc R Af) as R'. pose proof (after_get M V goff st s s' _ v Gv Af (fun _ => eq_refl)) as Hv. rewrite Hy in Hv. destruct Af as (Ha' & Hw' & _).
        assert (Mt : meets y lb = (y =? c)) by (unfold meets; rewrite Lv; destruct lb; congruence). cbn [from]. rewrite Mt. destruct (y =? c).
        * intros out E' w' X. eapply ends_from; [exact Le|]. apply A; auto. rewrite Hw'. exact X.
        * destruct (B9 O E s' CO HOb Ha' R') as [_ Bq]. specialize (Bq y Hv). assert (Z7 : len s7 (p_blk s4) = 0%nat) by (apply len_nil; rewrite G7, G6, G5; apply Ec; lia). rewrite Z7 in Bq.
          change (match from y (p :: r) with Some l => forall out E' w', exec (sequence l) E (s_world s) out E' w' -> ends (c_scopes ce) f cnt st' o b (len st b) s out E' w' | None => (0 < p_pred st' f)%nat /\ gets b (len st b) s f 0 (c_scopes ce) E (s_world s) end).
          destruct (from y (p :: r)) as [l|].
          -- intros out E' w' X. eapply ends_from; [exact Le|]. apply Bq. rewrite Hw'. exact X.
          -- rewrite Hw' in Bq. destruct Bq as [Bq1 Bq]. split; [exact Bq1|]. eapply gets_from; [exact Le|exact Bq].
  Qed.
  (** what an item of a function's body does *)
  Record did_x (R : env -> world -> outcome -> env -> world -> Prop) (P : list Z) (T' : tenv) (cnt : option nat) (ce : cenv) (st : pst) (b : nat) (st' : pst) (o : option nat) (ce' : cenv) : Prop := mkdidx {
    dx_sco : sco st' (c_scopes ce');
    dx_types : ctypes (c_scopes ce') = T';
    dx_scopes : tl (c_scopes ce') = tl (c_scopes ce);
    dx_chg : chg (eq b) st st';
    dx_cur : forall b', o = Some b' -> (b' = b \/ (p_blk st <= b')%nat) /\ (b' < p_blk st')%nat;
    dx_run : exists new, c_locals ce' = new ++ c_locals ce /\ length P = length (arrays new) /\
      (incl new L -> P = pls (arrays new) -> runs true R (c_scopes ce) (c_scopes ce') None cnt st b st' o) }.
  Notation fine_switch := (fine_switch (is_constant find_constant) find_type gtype is_func special).
  Notation fine_items := (fine_items (is_constant find_constant) find_type gtype is_func special).
  Notation switches := (switches find_constant find_type gtype gget gput (m_read M) (m_write M) (do_call find_func M)).
  Notation item_exec := (item_exec find_constant find_type gtype gget gput (m_read M) (m_write M) (do_call find_func M)).
  Notation items_exec := (items_exec find_constant find_type gtype gget gput (m_read M) (m_write M) (do_call find_func M)).
  Notation read_items := (read_items find_constant find_global find_type find_func special lim exit).
  Lemma switch_ok n c cs cnt ce st b rest ts' st' o ce' : item_gram (ISwitch c cs) -> fine_switch c cs (ctypes (c_scopes ce)) = true -> wfs st b -> sco st (c_scopes ce) -> tgt cnt ->
    read_switch n cnt ce (tl (switch_tokens c cs) ++ rest) st b = Some (ts', st', o, ce') ->
    ts' = rest /\ did_x (switches c cs) (places (sequence (flat_map snd cs))) (ctypes (c_scopes ce)) cnt ce st b st' o ce'.
  Proof.
    intros (Gc & Gn & Gs) Fi W Sc T2 H. unfold SwitchSpec.fine_switch in Fi. rewrite !andb_true_iff in Fi. destruct Fi as [[[Fc1 Fc2] Dl] Fs].
    pose proof (ws_b _ _ W) as Lb. pose proof (ws_exit _ _ W) as Lx.
    assert (Fb : forall p, In p cs -> fine_body ce (snd p)). { intros p Hp s Hs. rewrite forallb_forall in Fs. specialize (Fs p Hp). rewrite forallb_forall in Fs. specialize (Fs s Hs). intros Q. rewrite Q in Fs. discriminate. }
    clear Fs. unfold SwitchParse.read_switch in H. destruct (bb_create st) as [k s1] eqn:E1. bind H s2 E2.
    unfold switch_tokens, tok in H. cbn [List.tl List.app] in H. rewrite <- !app_assoc in H. cbn [List.app] in H.
    match type of H with context [lex_expect T_open_bracket ((T_open_bracket, []) :: ?z)] => change (lex_expect T_open_bracket ((T_open_bracket, []) :: z)) with (Some z) in H end. cbv beta iota in H.
    bind H x E3. destruct x as [[ts3 s3] c0]. rewrite <- ?app_assoc in E3. cbn [List.app] in E3.
    destruct (enter_ok _ _ _ _ _ W E1 E2) as (-> & K2 & V2 & C2 & W2 & Z2 & N2 & G2 & _). clear E1.
    assert (Sc2 : sco s2 (c_scopes ce)) by (eapply sco_mono; [exact Sc|lia]).
    destruct (ev_expr ce n c T_close_bracket [] _ _ _ _ _ _ W2 Sc2 Gc Fc1 Fc2 eq_refl E3) as [-> (Fr & _ & P3 & _ & v & Sv & Gv & Ev)].
    match type of H with context [lex_expect T_close_bracket ((T_close_bracket, []) :: ?z)] => change (lex_expect T_close_bracket ((T_close_bracket, []) :: z)) with (Some z) in H end. cbv beta iota in H.
    bind H s4 E4. destruct (bb_create s4) as [f s5] eqn:E5. destruct (bb_create s5) as [t s6] eqn:E6.
    match type of H with context [lex_expect T_open_curly ((T_open_curly, []) :: ?z)] => change (lex_expect T_open_curly ((T_open_curly, []) :: z)) with (Some z) in H end. cbv beta iota in H.
    bind H x E7. destruct x as [[[ts7 s7] o7] e7]. bind H x E8. destruct x as [y s8].
    destruct (chg_label lim none _ _ E4) as (C4 & K4 & G4 & S4). destruct (chg_create none _ _ _ E5) as (C5 & Hf & K5 & V5 & G5 & S5). destruct (chg_create none _ _ _ E6) as (C6 & Ht & K6 & V6 & G6 & S6).
    assert (C36 : chg none s3 s6) by (eapply chg_trans; [exact C4|eapply chg_trans; [exact C5|exact C6|]|]; intros q _ [Q|Q]; exact Q).
    pose proof (fr_lt _ _ _ _ _ Fr (ws_b _ _ W2)) as Lc. pose proof (fr_cur _ _ _ _ _ Fr) as Cu. pose proof (fr_blk _ _ _ _ _ Fr) as K3.
    assert (C23 : chg (eq (p_blk st)) s2 s3) by (apply (chg_frame _ _ _ c0); assumption).
    assert (C26 : chg (eq (p_blk st)) s2 s6) by (apply (fw0 _ _ s3); assumption).
    assert (Em : forall q, (p_blk s3 <= q)%nat -> p_code s6 q = []). { intros q Hq. destruct (ch_empty _ _ _ C23 (ws_empty _ _ W2) q Hq) as (Q & _). congruence. }
    assert (W6 : wfs s6 c0) by (eapply wfs_chg; [exact W2|exact C26|lia]). assert (Sc6 : sco s6 (c_scopes ce)) by (eapply sco_mono; [exact Sc2|apply (ch_var _ _ _ C26)]).
    destruct (cases_ok n cs f cnt ce s6 c0 t ((T_close_curly, []) :: rest) ts7 s7 o7 e7 v (p_stack s2)) as (-> & D3 & S7 & C7 & D5 & new & A7 & A8 & A9); auto; try lia.
    { apply Em. lia. }
    { congruence. }
    { eapply good_up; [|exact Gv]. apply (ch_var _ _ _ C36). }
    change (lex_expect T_close_curly ((T_close_curly, []) :: rest)) with (Some rest) in H. cbv beta iota in H. bind H s9 E9. apply some_inj in H. injection H as <- <- Ho <-.
    split; [reflexivity|]. destruct (chg_pop none _ _ _ E8) as (C8 & S8 & K8 & V8 & G8).
    destruct (connect_all _ _ _ _ E9) as (C9 & K9 & _ & G9 & Bo). { intros q Q. rewrite K8. apply (D5 q Q). }
    pose proof (ch_blk _ _ _ C7) as K7.
    assert (C07 : chg (eq b) st s7).
    { assert (C06 : chg (eq b) st s6) by (apply (fw1 _ _ s2 (p_blk st)); [exact C2|exact C26|lia]). eapply chg_trans; [exact C06|exact C7|]. intros q Hq [Q|[Q|Q]]; [exact Q| |]; subst q; [destruct Cu; lia|lia]. }
    assert (Cf : chg (eq b) st s9).
    { eapply chg_trans; [exact C07|eapply chg_trans; [exact C8|exact C9|]|]; [intros q _ [[]|Q]; exact Q|]. intros q Hq [Q|Q]; [exact Q|]. destruct (D5 q Q) as ([Q1|Q1] & _); lia. }
    constructor.
    - rewrite D3. eapply sco_mono; [exact Sc|apply (ch_var _ _ _ Cf)].
    - congruence.
    - congruence.
    - exact Cf.
    - intros b' Q. rewrite <- Ho in Q. destruct (_ =? 0)%nat; [discriminate|]. injection Q as <-. lia.
    - exists new. split; [exact A7|]. split; [exact A8|]. intros Hi Hp. specialize (A9 Hi Hp). intros O E s out E' w' CO Cl Ha R X.
      assert (Nf : forall q, O q -> (q < p_blk s9)%nat -> q = f \/ ((q < p_blk st)%nat /\ q <> b)).
      { intros q Hq Lq. destruct (Cl q Hq Lq) as [Q|Q]; [left|right; exact Q]. rewrite <- Ho in Q. destruct (_ =? 0)%nat; [discriminate|congruence]. }
      assert (X7 : chg (fun q => o7 = Some q \/ O q) s7 F) by (apply (back0 _ _ _ C8); eapply chg_trans; [exact C9|exact CO|tauto]).
      assert (X6 : chg (fun q => (c0 = q \/ t = q) \/ o7 = Some q \/ O q) s6 F) by (eapply chg_trans; [exact C7|exact X7|tauto]).
      pose proof (back0 _ _ _ C36 X6) as X3. pose proof (back1 _ _ _ _ C23 X3) as X2.
      assert (L0 : leads b (len st b) s (p_blk st) 0 (reset s)).
      { unfold len. rewrite <- G2. eapply go_next; [exact X2| |lia|exact N2|lia]. intros [Q|[[Q|Q]|[Q|Q]]]; [lia|destruct Cu; lia|lia|destruct (D5 b Q) as ([Q1|Q1] & _); lia|]. destruct (Nf b Q ltac:(lia)) as [Q1|[_ Q1]]; lia. }
      inversion X as [E0 w0 y0 w1 o1 E1' w2 Xc Xs]; subst E0 w0 E1' w2. clear X.
      assert (ClE : closed (fun q => (c0 = q \/ t = q) \/ o7 = Some q \/ O q) s2 (p_blk st) s3 (Some c0)).
      { intros q [[<-|<-]|[Q|Q]] Lq; [left; reflexivity|lia|destruct (D5 q Q) as ([Q1|Q1] & _); lia|]. right. destruct (Nf q Q ltac:(lia)) as [Q1|[Q1 Q2]]; lia. }
      destruct (Ev _ E (reset s) y0 w1 X3 ClE eq_refl R Xc) as (s' & Le & Af & Gy). unfold len in Le at 1. rewrite Z2 in Le. cbn [length] in Le.
      assert (R' : rel (c_scopes ce) E (s_env s')) by (apply (rel_after _ _ s2 (reset s) s' w1 Sc2 R Af)). destruct Af as (Ha' & Hw' & _).
      assert (HO : forall q, (o7 = Some q \/ O q) -> (q < p_blk s7)%nat -> o7 = Some q \/ ((q < p_blk s6)%nat /\ q <> c0 /\ q <> t)).
      { intros q [Q|Q] Lq; [left; exact Q|right]. destruct (Nf q Q ltac:(lia)) as [Q1|[Q1 Q2]]; [lia|]. split; [lia|]. split; [destruct Cu; lia|lia]. }
      destruct (A9 _ E s' X7 HO Ha' R') as [_ B]. specialize (B y0 Gy). rewrite (from_selected y0 cs Dl) in Xs. unfold len in B. rewrite G6, G5, G4 in B. fold (len s3 c0) in B.
      assert (Fz : len s9 f = 0%nat). { apply len_nil. rewrite G9, G8. destruct (ch_same _ _ _ C7 f ltac:(lia)) as (Q & _); [intros [Q|Q]; lia|]. rewrite Q. apply Em. lia. }
      assert (Fin : forall E w, (0 < p_pred s9 f)%nat -> gets c0 (len s3 c0) s' f 0 (c_scopes ce) E w -> reach true (c_scopes ce) (c_scopes e7) None cnt s9 o b (len st b) s ONormal E w).
      { intros Ez wz Pp Gt. cbn [reach]. exists f. split; [rewrite <- Ho; destruct (Nat.eqb_spec (p_pred s9 f) 0); [lia|reflexivity]|]. rewrite Fz, D3. eapply gets_from; [exact L0|]. eapply gets_from; [exact Le|exact Gt]. }
      assert (P79 : pl s7 s9) by (eapply pl_trans; [apply (ch_pred _ _ _ C8)|apply (ch_pred _ _ _ C9)]).
      destruct (from y0 cs) as [l|] eqn:El.
      + rewrite <- Hw' in Xs. specialize (B _ _ _ Xs). destruct o1 as [| | |r1]; cbn [ends reach cut] in B.
        * destruct B as (x & Qx & Gt). destruct (D5 x Qx) as (Q1 & Q2 & Q3). destruct (Bo x (eq_sym Qx)) as [Q4 Q5]. apply Fin; [exact Q5|]. eapply gets_reset; [exact Gt|]. intros s1'.
          assert (Z9 : len s9 x = 0%nat) by (apply len_nil; rewrite G9, G8; exact Q3). rewrite <- Z9 at 1. eapply go_next; [exact CO| |lia|exact Q4|lia]. intros Q. destruct (Nf x Q ltac:(lia)) as [Q6|[Q6 _]]; destruct Q1; lia.
        * destruct B as (x & Qx & Pp & Gt). injection Qx as <-. apply Fin; [specialize (P79 f); lia|exact Gt].
        * destruct B as (x & Qx & Pp & Gt). cbn [reach]. exists x. split; [exact Qx|]. split; [specialize (P79 x); lia|]. cbn [cut]. apply gets_cut. eapply gets_from; [exact L0|]. eapply gets_from; [exact Le|exact Gt].
        * cbn [reach]. apply L0. apply Le. exact B.
      + inversion Xs; subst. destruct B as [Pp Gt]. apply Fin; [pose proof (P79 (p_blk s4)); lia|exact Gt].
  Qed.
  Lemma did_up a T' cnt ce st b st' o ce' : did_s (is_decl a) a T' None cnt ce st b st' o ce' -> did_x (exec a) (places a) T' cnt ce st b st' o ce'.
  Proof.
    intros [A1 A2 A3 A4 A5 A6 (new & A7 & A8 & A9)]. constructor; auto.
    - destruct (is_decl a); cbn [cut] in A3; congruence.
    - exists new. split; [exact A7|]. split; [exact A8|]. intros Hi Hp. specialize (A9 Hi Hp). intros O E s out E' w' CO Cl Ha R X. specialize (A9 O E s out E' w' CO Cl Ha R X).
      destruct out; [exact A9| | |]; (eapply reach_later; [discriminate| |apply pl_refl|exact A9]; destruct (is_decl a); auto).
  Qed.
  Lemma seq_x i q cnt ce st b s1 b1 e1 st' o ce' P1 P2 T1 T' : (b < p_blk st)%nat -> did_x (item_exec i) P1 T1 cnt ce st b s1 (Some b1) e1 -> did_x (items_exec q) P2 T' cnt e1 s1 b1 st' o ce' ->
    did_x (items_exec (i :: q)) (P1 ++ P2) T' cnt ce st b st' o ce'.
  Proof.
    intros Lb [A1 A2 A3 A4 A5 (new & A7 & A8 & A9)] [B1 B2 B3 B4 B5 (new' & B7 & B8 & B9)]. destruct (A5 b1 eq_refl) as [Cu Lt]. pose proof (ch_blk _ _ _ A4) as K.
    constructor; auto.
    - congruence.
    - eapply fw1; eauto.
    - intros b' Q. destruct (B5 b' Q) as [Q1 Q2]. split; [|exact Q2]. destruct Q1 as [->|]; [exact Cu|right; lia].
    - exists (new' ++ new). split; [rewrite B7, A7, app_assoc; reflexivity|]. rewrite arrays_app, !app_length, A8, B8. split; [reflexivity|].
      intros Hi Hp. rewrite map_app in Hp. apply app_split in Hp; [|rewrite map_length; exact A8]. destruct Hp as [Hp1 Hp2].
      specialize (A9 (fun v Hv => Hi v (in_or_app _ _ _ (or_intror Hv))) Hp1). specialize (B9 (fun v Hv => Hi v (in_or_app _ _ _ (or_introl Hv))) Hp2).
      intros O E s out E' w' CO Cl Ha R X. destruct (seq_back O st b s1 b1 st' o CO Cl Lb A4 Cu Lt B4) as (CO1 & Cl1 & Cl2). { intros b2 Q. apply (B5 b2 Q). }
      inversion X as [|? ? ? ? E1 w1 ? ? ? Xi Xq|? ? ? ? ? ? ? Xi No]; subst.
      + pose proof (A9 _ _ _ _ _ _ CO1 Cl1 Ha R Xi) as G. cbn [reach] in G. destruct G as (b' & Q & s' & Le & Ha' & Hw' & R'). injection Q as <-. subst w1.
        pose proof (B9 _ _ _ _ _ _ CO Cl2 Ha' R' Xq) as G. eapply reach_from in G; [|exact Le]. destruct out as [| | |r]; cbn [reach cut] in *; rewrite <- ?A3; exact G.
      + pose proof (A9 _ _ _ _ _ _ CO1 Cl1 Ha R Xi) as G. eapply reach_later; [assumption|left; reflexivity|apply (ch_pred _ _ _ B4)|exact G].
  Qed.
  Lemma last_x i cnt ce st b st' ce' P T' : did_x (item_exec i) P T' cnt ce st b st' None ce' -> did_x (items_exec [i]) (P ++ []) T' cnt ce st b st' None ce'.
  Proof.
    intros [A1 A2 A3 A4 A5 (new & A7 & A8 & A9)]. constructor; auto. exists new. split; [exact A7|]. rewrite app_nil_r. split; [exact A8|]. intros Hi Hp. specialize (A9 Hi Hp). intros O E s out E' w' CO Cl Ha R X.
    inversion X as [|? ? ? ? E1 w1 ? ? ? Xi Xq|? ? ? ? ? ? ? Xi No]; subst.
    - pose proof (A9 _ _ _ _ _ _ CO Cl Ha R Xi) as G. cbn [reach] in G. destruct G as (b' & Q & _). discriminate.
    - eapply reach_later; [assumption|left; reflexivity|apply pl_refl|]. apply (A9 _ _ _ _ _ _ CO Cl Ha R Xi).
  Qed.
  Lemma item_stm a : item_gram (IStmt a) -> stm a.
  Proof. destruct a; intros G; try (left; exact G). right. do 2 eexists. split; [reflexivity|exact G]. Qed.
  Lemma item_head i z : item_gram i -> exists t w r, item_tokens i ++ z = (t, w) :: r /\ t <> T_else /\ t <> T_close_curly /\ (forall s, i = IStmt s -> t <> T_switch).
  Proof.
    destruct i as [a|c cs]; intros G.
    - destruct (item_stm a G) as [S|(t & ds & -> & _)].
      + destruct (flat_head a z S) as (t & w & r & Q & _ & Q1 & Q2 & Q3). exists t, w, r. auto.
      + cbn [item_tokens stokens List.app]. do 3 eexists. split; [reflexivity|]. repeat split; discriminate.
    - cbn [item_tokens]. do 3 eexists. split; [reflexivity|]. repeat split; discriminate.
  Qed.
  Lemma items_ok n : forall l ce st b rest ts' st' o ce' T', Forall item_gram l -> fine_items l (ctypes (c_scopes ce)) = Some T' -> wfs st b -> sco st (c_scopes ce) ->
    read_items n ce (flat_map item_tokens l ++ (T_close_curly, []) :: rest) st (Some b) = Some (ts', st', o, ce') ->
    ts' = rest /\ did_x (items_exec l) (flat_map item_places l) T' None ce st b st' o ce'.
  Proof.
    induction n as [|n IH]; [discriminate|]. intros l ce st b rest ts' st' o ce' T' G Fi W Sc H. cbn [SwitchParse.read_items] in H. assert (Tn : tgt None) by (intros q Q; discriminate). destruct l as [|i q].
    - cbn [flat_map List.app] in H. change (lex_accept T_close_curly ((T_close_curly, @nil Z) :: rest)) with (Some rest) in H. cbn iota in H. apply some_inj in H. injection H as <- <- <- <-. split; [reflexivity|].
      cbn [SwitchSpec.fine_items] in Fi. injection Fi as <-. constructor; auto; [apply chg_refl|intros b' Q; injection Q as <-; split; [left; reflexivity|apply W]|].
      exists []. split; [reflexivity|]. split; [reflexivity|]. intros _ _ O E s out E' w' CO Cl Ha R X. inversion X; subst. cbn [reach]. exists b. split; [reflexivity|]. exists s. split; [apply leads_refl|auto].
    - inversion G as [|? ? Gi Gq]; subst. cbn [flat_map] in H. rewrite <- app_assoc in H. set (z := flat_map item_tokens q ++ (T_close_curly, []) :: rest) in *.
      destruct (item_head i z Gi) as (t & w & r & Et & _ & Nt & Ns). rewrite Et in H at 1. assert (Na : lex_accept T_close_curly ((t, w) :: r) = None) by (destruct t; try reflexivity; congruence). rewrite Na in H.
      bind H x E1. destruct x as [[[ts1 s1] o1] e1].
      assert (D : exists T1, fine_items q T1 = Some T' /\ ts1 = z /\ did_x (item_exec i) (item_places i) T1 None ce st b s1 o1 e1).
      { destruct i as [a|c cs].
        - cbn [SwitchSpec.fine_items] in Fi. destruct (fine_stmt a (ctypes (c_scopes ce))) as [T1|] eqn:Fa; [|discriminate]. exists T1. split; [exact Fi|].
          rewrite Et in E1. assert (Nw : lex_accept T_switch ((t, w) :: r) = None) by (specialize (Ns a eq_refl); destruct t; try reflexivity; congruence). rewrite Nw, <- Et in E1. cbn [item_tokens] in E1.
          destruct (proj1 (all_stmts n)) with (1 := item_stm a Gi) (2 := Fa) (8 := E1) as [-> D]; auto; [|split; [reflexivity|apply did_up; exact D]].
          intros _. unfold z. destruct q as [|i' q']; [reflexivity|]. inversion Gq as [|? ? Gi' _]; subst. cbn [flat_map]. rewrite <- app_assoc.
          match goal with |- lex_accept _ (_ ++ ?y) = _ => destruct (item_head i' y Gi') as (t1 & w1 & r1 & -> & Ne & _) end. destruct t1; try reflexivity; congruence.
        - cbn [SwitchSpec.fine_items] in Fi. destruct (fine_switch c cs (ctypes (c_scopes ce))) eqn:Fa; [|discriminate]. exists (ctypes (c_scopes ce)). split; [exact Fi|].
          change (lex_accept T_switch (item_tokens (ISwitch c cs) ++ z)) with (Some (tl (switch_tokens c cs) ++ z)) in E1. cbv beta iota in E1.
          destruct (switch_ok n c cs None ce st b z ts1 s1 o1 e1 Gi Fa W Sc Tn E1) as [-> D]. split; [reflexivity|exact D]. }
      destruct D as (T1 & Fi1 & -> & D). destruct o1 as [b1|].
      + destruct (dx_cur _ _ _ _ _ _ _ _ _ _ D b1 eq_refl) as [Cu Lt]. assert (W1 : wfs s1 b1) by (eapply wfs_chg; [exact W|apply (dx_chg _ _ _ _ _ _ _ _ _ _ D)|exact Lt]).
        destruct (IH q e1 s1 b1 rest ts' st' o ce' T' Gq) as [-> Dq]; auto.
        { rewrite (dx_types _ _ _ _ _ _ _ _ _ _ D). exact Fi1. }
        { apply (dx_sco _ _ _ _ _ _ _ _ _ _ D). }
        split; [reflexivity|]. cbn [flat_map]. eapply seq_x; [apply W|exact D|exact Dq].
      + destruct n as [|n]; [discriminate|]. cbn [SwitchParse.read_items] in H. destruct q as [|i' q'].
        * unfold z in H. cbn [flat_map List.app] in H. change (lex_accept T_close_curly ((T_close_curly, @nil Z) :: rest)) with (Some rest) in H. cbn iota in H. apply some_inj in H. injection H as <- <- <- <-. split; [reflexivity|].
          cbn [SwitchSpec.fine_items] in Fi1. injection Fi1 as <-. cbn [flat_map]. apply last_x. exact D.
        * inversion Gq as [|? ? Gi' _]; subst. unfold z in H. cbn [flat_map] in H. rewrite <- app_assoc in H.
          match type of H with context [lex_accept _ (item_tokens i' ++ ?y)] => destruct (item_head i' y Gi') as (t1 & w1 & r1 & Q & _ & N & _) end. rewrite Q in H. assert (Nn : lex_accept T_close_curly ((t1, w1) :: r1) = None) by (destruct t1; try reflexivity; congruence). rewrite Nn in H. discriminate.
  Qed.
End Setting.
