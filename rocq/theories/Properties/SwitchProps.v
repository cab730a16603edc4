(** C53: switch statements do what C says: the value is compared with the case labels, execution goes on at the label with
    that value, else at default, else behind the switch; from there it falls through the labels below until a break, return or
    the end.  The code read_func_body produces for a body that contains switch statements is run by the semantics of
    AllocSpec.v; the specification is SwitchSpec.v (and StmtSpec.v). *)
From Coq Require Import String.
From Verif.Front Require Import LexSpec StmtEval StmtExec StackKeepStmt SwitchParse SwitchEval.
From Verif.Properties Require Import StmtProps.
Open Scope Z_scope.

(** l: what the body consists of; F: the finished function; V: its variables; [place]: where their arrays are *)
Theorem C53_switch_partial :
  forall find_constant find_global find_type find_func special lim {world : Type} (M : meaning Z world) V goff place void
         params n l rest nvars ts' F e T,
  c_like M ->
  (* global variables, parameters and the other variables are kept apart *)
  (forall x v, find_global x = Some v -> v_global V (vi_id v) = true /\ 0 <= vi_ptr v) ->
  (forall p, In p params -> v_global V (vi_id (snd p)) = false /\ (vi_id (snd p) < nvars)%nat /\ 0 <= vi_ptr (snd p) /\ find_constant (fst p) = None) ->
  NoDup (map (fun p => vi_id (snd p)) params) ->
  (* l consists of C statements and switch statements, of the forms that are supported *)
  Forall item_gram l ->
  fine_items (is_constant find_constant) find_type (gtype find_global) (is_func find_func) special l (ctypes [[]; params]) = Some T ->
  (* the body { l } is accepted *)
  read_switch_body find_constant find_global find_type find_func special lim params n
    ((T_open_curly, []) :: flat_map item_tokens l ++ (T_close_curly, []) :: rest) nvars = Some (ts', F, e) ->
  (* V and place are those of the finished function *)
  (forall v, (nvars <= v)%nat -> v_global V v = false /\ v_init V v = p_init F v) -> (forall v, v_func V v = None) ->
  (forall v, In v (c_locals e) -> no_storage V (vi_id v) = (vi_array v =? 0)) ->
  flat_map item_places l = map place (arrays_of e) ->
  (* the reader stops behind the brace, *)
  ts' = rest /\
  (* and however C says l ends, so does the function: with that return value, or for a void function at its end *)
  forall env w out E' w',
    items_exec find_constant find_type (gtype find_global) (gget find_global M goff) (gput find_global M goff) (m_read M) (m_write M) (do_call find_func M)
      l (at_start params env) w out E' w' ->
    let finishes := sruns M V goff place (p_code F) (p_next F) (p_then F) (p_else F) 1 void 0 (mks env w [] None) w' in
    match out with
    | OReturn r => finishes r
    | ONormal => void = true -> finishes None
    | OBreak | OContinue => False
    end.
Proof.
  intros fc fg ft ff special lim world M V goff place void params n l rest nvars ts' F e T HM Hgl Hp ND G Fi H HV Hfun HL Pl.
  unfold read_switch_body in H. cbv zeta in H. change (lex_expect T_open_curly ((T_open_curly, []) :: flat_map item_tokens l ++ (T_close_curly, []) :: rest)) with (Some (flat_map item_tokens l ++ (T_close_curly, []) :: rest)) in H. cbv iota beta in H.
  set (st := mkp _ _ _ _ _ _ _ _ _) in H.
  destruct (read_items _ _ _ _ _ _ _ _ _ _ _ _) as [[[[ts1 st1] o] e1]|] eqn:E1; [|discriminate].
  destruct (connect_opt o 1 st1) as [st2|] eqn:E2; [|discriminate]. apply some_inj in H. injection H as <- <- <-.
  assert (Hi : forall v, (nvars <= v)%nat -> v_init V v = p_init st2 v) by (intros v Hv; apply HV; exact Hv).
  assert (Hg : forall v, (nvars <= v)%nat -> v_global V v = false) by (intros v Hv; apply HV; exact Hv).
  pose proof (items_ok fc fg ff special lim M V goff place 1 void st2 nvars HM Hi Hg Hgl ft Hfun (c_locals e1) HL (stmt_keeps fc fg ft ff special lim 1) n) as OK.
  assert (W : wfs 1 nvars st 0) by (constructor; cbn; try lia; intros c _; repeat split).
  assert (Sc : sco fc V st [[]; params]).
  { constructor; [intros p I|]; cbn [ids concat List.app] in *; rewrite ?app_nil_r in *; [apply Hp; exact I|]. unfold ids. cbn [concat List.app]. rewrite app_nil_r. exact ND. }
  destruct (OK l (mkce [[]; params] []) st 0%nat rest ts1 st1 o e1 T G Fi W Sc E1) as [-> D]. split; [reflexivity|].
  intros env w out E' w' X finishes. destruct D as [_ _ _ _ D5 (new & Nl & _ & R)]. cbn [c_locals] in Nl. rewrite app_nil_r in Nl. subst new.
  assert (R' := R (incl_refl _)). clear R. unfold arrays in R'. rewrite Pl in R'. unfold arrays_of in R'. rewrite map_map in R'. specialize (R' eq_refl).
  assert (C2 : chg (fun k => o = Some k) st1 st2).
  { destruct o as [k|]; cbn in E2.
    - eapply chg_weaken; [eapply chg_connect; [|exact E2]; apply (D5 k); reflexivity|]. intros c _ <-. reflexivity.
    - injection E2 as ->. apply chg_refl. }
  specialize (R' (fun k => o = Some k) (at_start params env) (mks env w [] None) out E' w' C2).
  assert (Y : reach M V goff place 1 void st2 true [[]; params] (c_scopes e1) None None st1 o 0 (len st 0) (mks env w [] None) out E' w').
  { apply R'; auto; [intros c Q _; left; exact Q|]. unfold rel, at_start. repeat constructor. cbn [s_env]. clear. induction params as [|p l IH]; constructor; [repeat split|exact IH]. }
  clear R' X. unfold reach in Y. destruct out.
  - destruct Y as (b' & -> & s' & Ld & _ & <- & _). intros Hv. subst void. apply (tail_run M V goff place 1 true st2). apply Ld. cbn [connect_opt] in E2. destruct (connect_next _ _ _ _ E2) as (Nx & Co & _).
    exists (SFall s'). unfold len. rewrite Co, skipn_all. split; [constructor|]. cbn. left. auto.
  - destruct Y as (k & Q & _). discriminate.
  - destruct Y as (k & Q & _). discriminate.
  - apply (tail_run M V goff place 1 void st2). exact Y.
Qed.
Print Assumptions C53_switch_partial.

(** ** The concrete setting of StmtProps.v. *)
Notation demo_read_items l := (read_switch_body demo_constant demo_global demo_type demo_func demo_special 1000 demo_params 200
  ((T_open_curly, []) :: flat_map item_tokens l ++ [(T_close_curly, [])]) 2).
Notation demo_fine_items l := (fine_items (is_constant demo_constant) demo_type (gtype demo_global) (is_func demo_func) demo_special l (ctypes [[]; demo_params])).
Definition demo_exec_items (l : list item) (n : Z) (w : mem) (out : outcome) (w' : mem) : Prop :=
  exists E', items_exec demo_constant demo_type (gtype demo_global) (gget demo_global demo_M (fun _ => 0)) (gput demo_global demo_M (fun _ => 0)) (m_read demo_M) (m_write demo_M)
    (do_call demo_func demo_M) l (at_start demo_params (demo_env n)) w out E' w'.
(** the theorem applied: whatever is accepted and fine runs as C says *)
Theorem C53_switch_applies : forall l n w r w' ts F e T, Forall item_gram l -> demo_fine_items l = Some T -> demo_read_items l = Some (ts, F, e) ->
  (forall v, In v (c_locals e) -> no_storage (demo_V F e) (vi_id v) = (vi_array v =? 0)) -> flat_map item_places l = map demo_place (arrays_of e) ->
  demo_exec_items l n w (OReturn r) w' -> demo_runs F e n w w' r.
Proof.
  intros q n w r w' ts F e T G Fi R HL Pl [E' X].
  apply (fun A B C D => proj2 (C53_switch_partial demo_constant demo_global demo_type demo_func demo_special 1000 demo_M (demo_V F e) (fun _ => 0) demo_place false
    demo_params 200 q [] 2 ts F e T demo_like A B C G Fi R D (fun _ => eq_refl) HL Pl) (demo_env n) w (OReturn r) E' w' X).
  - intros x v. unfold demo_global. destruct (is x "total"); [|discriminate]. intros Q. injection Q as <-. split; [reflexivity|cbn; lia].
  - intros p [<-|[]]. cbn. repeat split; lia.
  - repeat constructor. intros [].
  - intros v Hv. split; [|reflexivity]. cbn. apply Nat.eqb_neq. lia.
Qed.
Print Assumptions C53_switch_applies.

(** executing items, with the interpreter of StmtExec.v *)
Definition demo_item (i : item) (E : env) (w : mem) : option (outcome * env * mem) :=
  let go := istmt demo_constant demo_type (gtype demo_global) (gget demo_global demo_M (fun _ => 0)) (gput demo_global demo_M (fun _ => 0)) (m_read demo_M) (m_write demo_M) demo_icall 100 in
  match i with
  | IStmt s => go s E w
  | ISwitch c cs =>
      match iexpr demo_constant (gtype demo_global) (gget demo_global demo_M (fun _ => 0)) (m_read demo_M) demo_icall 100 E c w with
      | Some (v, w1) =>
          match go (sequence (flat_map snd (selected demo_constant v cs))) E w1 with
          | Some (o, E', w') => Some (match o with OBreak => ONormal | o => o end, E', w')
          | None => None
          end
      | None => None
      end
  end.
Fixpoint demo_items (l : list item) (E : env) (w : mem) : option (outcome * env * mem) :=
  match l with
  | [] => Some (ONormal, E, w)
  | i :: r => match demo_item i E w with Some (ONormal, E1, w1) => demo_items r E1 w1 | x => x end
  end.
Notation demo_items_exec := (items_exec demo_constant demo_type (gtype demo_global) (gget demo_global demo_M (fun _ => 0)) (gput demo_global demo_M (fun _ => 0)) (m_read demo_M) (m_write demo_M) (do_call demo_func demo_M)).
Lemma demo_item_ok i E w o E' w' : demo_item i E w = Some (o, E', w') ->
  item_exec demo_constant demo_type (gtype demo_global) (gget demo_global demo_M (fun _ => 0)) (gput demo_global demo_M (fun _ => 0)) (m_read demo_M) (m_write demo_M) (do_call demo_func demo_M) i E w o E' w'.
Proof.
  unfold demo_item. destruct i as [s|c cs]; cbv zeta; intros H.
  - cbn [item_exec]. eapply istmt_sound; [apply demo_icall_ok|exact H].
  - cbn [item_exec]. destruct (iexpr _ _ _ _ _ _ _ _ _) as [[v w1]|] eqn:Q; [|discriminate]. destruct (istmt _ _ _ _ _ _ _ _ _ _ _ _) as [[[o1 E1] w2]|] eqn:Q2; [|discriminate]. injection H as <- <- <-.
    econstructor; [eapply iexpr_sound; [apply demo_icall_ok|exact Q]|eapply istmt_sound; [apply demo_icall_ok|exact Q2]].
Qed.
Lemma demo_items_ok l : forall E w o E' w', demo_items l E w = Some (o, E', w') -> demo_items_exec l E w o E' w'.
Proof.
  induction l as [|i r IH]; intros E w o E' w' H; cbn [demo_items] in H; [injection H as <- <- <-; constructor|].
  destruct (demo_item i E w) as [[[o1 E1] w1]|] eqn:Q; [|discriminate]. apply demo_item_ok in Q.
  destruct o1; [eapply I_cons; [exact Q|apply IH; exact H]|..]; injection H as <- <- <-; (apply I_stop; [exact Q|discriminate]).
Qed.
Lemma filter_nil {A} (f : A -> bool) l : filter f l = [] <-> forall x, In x l -> f x = false.
Proof.
  induction l as [|a l IH]; cbn [filter]; [split; [intros _ x []|reflexivity]|]. split.
  - destruct (f a) eqn:Q; [discriminate|]. intros H x [<-|I]; [exact Q|]. apply IH; assumption.
  - intros H. rewrite (H a) by (left; reflexivity). apply IH. intros x I. apply H. right. exact I.
Qed.

(** { int s = 0, k;
      k = f(n, 1);
      switch (k) {
        case 1: s = 10; break;
        case LIMIT: s += 1;
        case 'A': { int s = 5; total = total + s; } s += 2;
        case 9: if (n == 10) return 77; break;
        default: while (1) { s += k; if (s > 20) break; } }
      switch (s) { case 3: return s + total; }
      return s; } *)
Definition sample_items : list item :=
  [IStmt (int_ [mkd 0 (name "s") None (Some zero) 0; mkd 0 (name "k") None None 0]);
   IStmt (SSimple (Assign (lv "k") (RCall (name "f") [v "n"; num "1"])));
   ISwitch (v "k")
     [(LCase (Decimal (bytes "1")), [SSimple (Assign (lv "s") (num "10")); SBreak]);
      (LName (name "LIMIT"), [SSimple (Update (lv "s") BAdd (num "1"))]);
      (LChar 65, [block [int_ [mkd 0 (name "s") None (Some (num "5")) 0]; SSimple (Assign (lv "total") (RBin BAdd (v "total") (v "s")))]; SSimple (Update (lv "s") BAdd (num "2"))]);
      (LCase (Decimal (bytes "9")), [SIf (RBin BEq (v "n") (num "10")) (SReturn (Some (num "77"))); SBreak]);
      (LDefault, [SWhile (num "1") (block [SSimple (Update (lv "s") BAdd (v "k")); SIf (RBin BGt (v "s") (num "20")) SBreak])])];
   ISwitch (v "s") [(LCase (Decimal (bytes "3")), [SReturn (Some (RBin BAdd (v "s") (v "total")))])];
   IStmt (SReturn (Some (v "s")))].
Lemma demo_items_work l n r (P : mem -> bool) : Forall item_gram l -> match demo_fine_items l with Some _ => true | None => false end = true ->
  match demo_read_items l with Some (_, _, e) => forallb (fun v => vi_array v =? 0) (c_locals e) | None => false end = true -> flat_map item_places l = [] ->
  match demo_items l (at_start demo_params (demo_env n)) (fun _ => 0) with Some (OReturn (Some x), _, w') => (x =? r) && P w' | _ => false end = true ->
  demo_fine_items l <> None /\ exists ts F e, demo_read_items l = Some (ts, F, e) /\
  exists w', demo_exec_items l n (fun _ => 0) (OReturn (Some r)) w' /\ demo_runs F e n (fun _ => 0) w' (Some r) /\ P w' = true.
Proof.
  intros G Fi A Pl O. destruct (demo_fine_items l) as [T|] eqn:QT; [|discriminate]. split; [discriminate|].
  destruct (demo_read_items l) as [[[ts F] e]|] eqn:Q; [|discriminate]. exists ts, F, e. split; [reflexivity|].
  destruct (demo_items l _ _) as [[[o E] w']|] eqn:QI; [|discriminate]. destruct o as [| | |[x|]]; try discriminate O. apply andb_true_iff in O. destruct O as [O HP]. apply Z.eqb_eq in O. subst x.
  pose proof (demo_items_ok _ _ _ _ _ _ QI) as X. assert (Xe : demo_exec_items l n (fun _ => 0) (OReturn (Some r)) w') by (exists E; exact X). exists w'. split; [exact Xe|]. split; [|exact HP].
  rewrite forallb_forall in A. eapply C53_switch_applies; [exact G|exact QT|exact Q| | |exact Xe].
  - intros u Hu. rewrite (A u Hu). cbn. destruct (find _ (c_locals e)) as [z|] eqn:Qf; [|reflexivity]. apply find_some in Qf. destruct Qf as [Qf _]. apply A. exact Qf.
  - rewrite Pl. unfold arrays_of. replace (filter _ (rev (c_locals e))) with (@nil vinfo); [reflexivity|]. symmetry. apply (proj2 (filter_nil _ _)). intros u Hu. rewrite (A u); [reflexivity|]. apply in_rev. exact Hu.
Qed.
(** all ways through the first switch, and both through the second *)
Theorem C53_sample : Forall item_gram sample_items /\ demo_fine_items sample_items <> None /\ exists ts F e, demo_read_items sample_items = Some (ts, F, e) /\
  forall n r t, In (n, r, t) [(2, 10, 0); (7, 8, 5); (66, 2, 5); (10, 77, 0); (3, 22, 0)] ->
  exists w', demo_exec_items sample_items n (fun _ => 0) (OReturn (Some r)) w' /\ demo_runs F e n (fun _ => 0) w' (Some r) /\ w' 9000 = t.
Proof.
  assert (G : Forall item_gram sample_items).
  { assert (Step : forall (P : item -> Prop) a l, P a -> Forall P l -> Forall P (a :: l)) by (intros; constructor; assumption).
    unfold sample_items, num, zero, v, lv, int_, block, seq. repeat (apply Step); [..|constructor]; cbn [item_gram sgram fold_right rgram level pgram lgram dgram d_array d_init].
    all: literals. all: unfold case_gram, label_gram; cbn [fst snd sgram fold_right rgram level pgram lgram dgram d_array d_init]; literals.
    all: repeat match goal with |- Forall _ (_ :: _) => constructor end; cbn [sgram fold_right rgram level pgram lgram dgram d_array d_init]; literals. }
  split; [exact G|].
  assert (W : forall n r t, In (n, r, t) [(2, 10, 0); (7, 8, 5); (66, 2, 5); (10, 77, 0); (3, 22, 0)] -> demo_fine_items sample_items <> None /\ exists ts F e, demo_read_items sample_items = Some (ts, F, e) /\
    exists w', demo_exec_items sample_items n (fun _ => 0) (OReturn (Some r)) w' /\ demo_runs F e n (fun _ => 0) w' (Some r) /\ (w' 9000 =? t) = true).
  { intros n r t H. apply (demo_items_work sample_items n r (fun w' => w' 9000 =? t) G); [vm_compute; reflexivity|vm_compute; reflexivity|vm_compute; reflexivity|].
    repeat (destruct H as [H|H]; [injection H as <- <- <-; vm_compute; reflexivity|]). destruct H. }
  destruct (W 2 10 0 (or_introl eq_refl)) as (Nf & ts & F & e & Q & _). split; [exact Nf|]. exists ts, F, e. split; [exact Q|].
  intros n r t H. destruct (W n r t H) as (_ & ts' & F' & e' & Q' & w' & X & Y & Z). rewrite Q in Q'. injection Q' as <- <- <-. exists w'. split; [exact X|]. split; [exact Y|]. apply Z.eqb_eq. exact Z.
Qed.
Print Assumptions C53_sample.
