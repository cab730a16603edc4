(** C47: the statements of a function do what C says: declarations, assignments, calls, if, while, do, for, break, continue, return,
    whatever their number, nesting and values.  The code read_func_body produces for "{ q }" is run by the semantics of
    AllocSpec.v; the specification is StmtSpec.v. *)
From Coq Require Import String.
From Verif.Front Require Import LexSpec StmtEval StmtExec.
Open Scope Z_scope.

(** what the function's body sees at its start: an empty scope, and around it the parameters with their values *)
Definition at_start (params : list (text * vinfo)) (s : nat -> option Z) : env :=
  [[]; map (fun p => (fst p, (vt (snd p), s (vi_id (snd p))))) params].
(** the arrays among the declared variables, in the order of the text *)
Definition arrays_of (e : cenv) : list nat := map vi_id (filter (fun v => negb (vi_array v =? 0)) (rev (c_locals e))).

(** q: the statements of the body; F: the finished function; V: its variables; [place]: where their arrays are *)
Theorem C47_function_partial :
  forall find_constant find_global find_type find_func special lim {world : Type} (M : meaning Z world) V goff place void
         params n q rest nvars ts' F e T,
  c_like M ->
  (* global variables, parameters and the other variables are kept apart *)
  (forall x v, find_global x = Some v -> v_global V (vi_id v) = true /\ 0 <= vi_ptr v) ->
  (forall p, In p params -> v_global V (vi_id (snd p)) = false /\ (vi_id (snd p) < nvars)%nat /\ 0 <= vi_ptr (snd p) /\ find_constant (fst p) = None) ->
  NoDup (map (fun p => vi_id (snd p)) params) ->
  (* q is a sequence of C statements, of the forms that are supported *)
  sgram true q ->
  fine_stmt (is_constant find_constant) find_type (gtype find_global) (is_func find_func) special q (ctypes [[]; params]) = Some T ->
  (* the body { q } is accepted *)
  read_func_body find_constant find_global find_type find_func special lim params n
    ((T_open_curly, []) :: stokens q ++ (T_close_curly, []) :: rest) nvars = Some (ts', F, e) ->
  (* V and place are those of the finished function *)
  (forall v, (nvars <= v)%nat -> v_global V v = false /\ v_init V v = p_init F v) -> (forall v, v_func V v = None) ->
  (forall v, In v (c_locals e) -> no_storage V (vi_id v) = (vi_array v =? 0)) ->
  places q = map place (arrays_of e) ->
  (* the reader stops behind the brace, *)
  ts' = rest /\
  (* and however C says q ends, so does the function: with that return value, or for a void function at its end *)
  forall env w out E' w',
    exec find_constant find_type (gtype find_global) (gget find_global M goff) (gput find_global M goff) (m_read M) (m_write M) (do_call find_func M)
      q (at_start params env) w out E' w' ->
    let finishes := sruns M V goff place (p_code F) (p_next F) (p_then F) (p_else F) 1 void 0 (mks env w [] None) w' in
    match out with
    | OReturn r => finishes r
    | ONormal => void = true -> finishes None
    | OBreak | OContinue => False
    end.
Proof.
  intros fc fg ft ff special lim world M V goff place void params n q rest nvars ts' F e T HM Hgl Hp ND G Fi H HV Hfun HL Pl.
  unfold read_func_body in H. cbv zeta in H. change (lex_expect T_open_curly ((T_open_curly, []) :: stokens q ++ (T_close_curly, []) :: rest)) with (Some (stokens q ++ (T_close_curly, []) :: rest)) in H. cbv iota beta in H.
  set (st := mkp _ _ _ _ _ _ _ _ _) in H.
  destruct (read_block _ _ _ _ _ _ _ _ _ _ _ _ _ _) as [[[[ts1 st1] o] e1]|] eqn:E1; [|discriminate].
  destruct (connect_opt o 1 st1) as [st2|] eqn:E2; [|discriminate]. apply some_inj in H. injection H as <- <- <-.
  assert (Hi : forall v, (nvars <= v)%nat -> v_init V v = p_init st2 v) by (intros v Hv; apply HV; exact Hv).
  assert (Hg : forall v, (nvars <= v)%nat -> v_global V v = false) by (intros v Hv; apply HV; exact Hv).
  destruct (all_stmts fc fg ff special lim M V goff place 1 void st2 nvars HM Hi Hg Hgl ft Hfun (c_locals e1) HL n) as [_ OK].
  assert (W : wfs 1 nvars st 0) by (constructor; cbn; try lia; intros c _; repeat split).
  assert (Sc : sco fc V st [[]; params]).
  { constructor; [intros p I|]; cbn [ids concat List.app] in *; rewrite ?app_nil_r in *; [apply Hp; exact I|]. unfold ids. cbn [concat List.app]. rewrite app_nil_r. exact ND. }
  assert (Tn : tgt 1 None) by (intros k Q; discriminate).
  destruct (OK q None None (mkce [[]; params] []) st 0%nat rest ts1 st1 o e1 T G Fi W Sc Tn Tn E1) as [-> D]. split; [reflexivity|].
  intros env w out E' w' X finishes. destruct (ds_run _ _ _ _ _ _ _ _ _ _ _ _ _ _ _ _ _ _ _ _ _ _ _ D) as (new & Nl & _ & R). cbn [c_locals] in Nl. rewrite app_nil_r in Nl. subst new.
  assert (R' := R (incl_refl _)). clear R. unfold arrays in R'. rewrite Pl in R'. unfold arrays_of in R'. rewrite map_map in R'. specialize (R' eq_refl).
  assert (C2 : chg (fun k => o = Some k) st1 st2).
  { destruct o as [k|]; cbn in E2.
    - eapply chg_weaken; [eapply chg_connect; [|exact E2]; apply (ds_cur _ _ _ _ _ _ _ _ _ _ _ _ _ _ _ _ _ _ _ _ _ _ _ D); reflexivity|]. intros c _ <-. reflexivity.
    - injection E2 as ->. apply chg_refl. }
  specialize (R' (fun k => o = Some k) (at_start params env) (mks env w [] None) out E' w' C2).
  assert (Y : reach M V goff place 1 void st2 true [[]; params] (c_scopes e1) None None st1 o 0 (len st 0) (mks env w [] None) out E' w').
  { apply R'; auto; [intros c Q _; left; exact Q|]. unfold rel, at_start. repeat constructor. cbn [s_env]. clear. induction params as [|p l IH]; constructor; [repeat split|exact IH]. }
  clear R' X. unfold reach in Y. destruct out.
  - destruct Y as (b' & -> & s' & Ld & _ & <- & _). intros Hv. subst void. apply (tail_run M V goff place 1 true st2). apply Ld. cbn [connect_opt] in E2. destruct (connect_next _ _ _ _ E2) as (Nx & Co & _).
    exists (SFall s'). unfold len. rewrite Co, skipn_all. split; [constructor|]. cbn. left. auto.
  - destruct Y as (k & Q & _). discriminate.
  - destruct Y as (k & Q & _). discriminate.
  - apply (tail_run M V goff place 1 void st2). exact Y.
Qed.
Print Assumptions C47_function_partial.

(** ** A concrete setting: int total; enum { LIMIT = 6 }; int f(int x, int y), which returns x - y and adds x to the word at 5000.
    Memory is word by word. *)
Definition name (s : string) : text := bytes s.
Definition binop_of (o : opcode) : option binop :=
  find (fun b => opcode_beq (opc b) o) [BMul; BDiv; BMod; BAdd; BSub; Shl; Shr; BLt; BGt; BLe; BGe; BEq; BNe; BAnd; BXor; BOr].
Definition mem := Z -> Z.
Definition poke (a v : Z) (w : mem) : mem := fun x => if x =? a then v else w x.
Definition demo_M : meaning Z mem :=
  mkmeaning Z mem (fun v => negb (v =? 0)) (fun c => c) (fun c => c) (fun c => c) (fun c => c)
    (fun o a => match o with OP_negate => Some (cun UNeg a) | OP_bit_not => Some (cun UCompl a) | OP_log_not => Some (cun UNot a) | _ => None end)
    (fun o a b => match binop_of o with Some o => cbin o a b | None => None end)
    (fun sz a w => Some (w a)) (fun sz a v w => Some (poke a v w)) (fun _ _ w => Some w)
    (fun f A w => if f =? 7 then Some (poke 5000 (w 5000 + A 0%nat) w, fun _ => A 0%nat - A 1%nat) else None) (fun _ _ _ => None)
    (fun w o => w (9000 + o)) (fun w o v => poke (9000 + o) v w).
Definition is (x : text) (s : string) : bool := if list_eq_dec Z.eq_dec x (name s) then true else false.
Definition demo_constant (x : text) : option Z := if is x "LIMIT" then Some 6 else None.
Definition demo_global (x : text) : option vinfo := if is x "total" then Some (mkvi 0 0 0 4) else None.
Definition demo_type (x : text) : option Z := if is x "int" then Some 4 else if is x "char" then Some 1 else None.
Definition demo_func (x : text) : option Z := if is x "f" then Some 7 else None.
Definition demo_special (x : text) : bool := false.
(** the parameter int n *)
Definition demo_params : list (text * vinfo) := [(name "n", mkvi 1 0 0 4)].
Notation demo_read q := (read_func_body demo_constant demo_global demo_type demo_func demo_special 1000 demo_params 200
  ((T_open_curly, []) :: stokens q ++ [(T_close_curly, [])]) 2).
Notation demo_fine q := (fine_stmt (is_constant demo_constant) demo_type (gtype demo_global) (is_func demo_func) demo_special q (ctypes [[]; demo_params])).
Definition demo_V (F : pst) (e : cenv) : vars :=
  mkvars (fun v => (v =? 0)%nat) (fun _ => None) (p_init F) (fun _ => true)
    (fun v => match find (fun l => (vi_id l =? v)%nat) (c_locals e) with Some l => vi_array l | None => 0 end) (fun _ => false) (fun _ => 4).
(** arrays are put 1000 bytes apart, by the number of the variable *)
Definition demo_place (v : nat) : Z := 10000 + 1000 * Z.of_nat v.
Definition demo_env (n : Z) (v : nat) : option Z := if (v =? 1)%nat then Some n else None.
Definition demo_runs (F : pst) (e : cenv) (n : Z) (w w' : mem) (r : option Z) : Prop :=
  sruns demo_M (demo_V F e) (fun _ => 0) demo_place (p_code F) (p_next F) (p_then F) (p_else F) 1 false 0 (mks (demo_env n) w [] None) w' r.
Definition demo_exec (q : stmt) (n : Z) (w : mem) (out : outcome) (w' : mem) : Prop :=
  exists E', exec demo_constant demo_type (gtype demo_global) (gget demo_global demo_M (fun _ => 0)) (gput demo_global demo_M (fun _ => 0)) (m_read demo_M) (m_write demo_M)
    (do_call demo_func demo_M) q (at_start demo_params (demo_env n)) w out E' w'.
Lemma demo_like : c_like demo_M.
Proof. constructor; try reflexivity. intros o a b r N1 N2 H. destruct o; try congruence; exact H. Qed.

(** the theorem applied: whatever is accepted and fine runs as C says *)
Theorem C47_function_applies : forall q n w r w' ts F e T, sgram true q -> demo_fine q = Some T -> demo_read q = Some (ts, F, e) ->
  (forall v, In v (c_locals e) -> no_storage (demo_V F e) (vi_id v) = (vi_array v =? 0)) -> places q = map demo_place (arrays_of e) ->
  demo_exec q n w (OReturn r) w' -> demo_runs F e n w w' r.
Proof.
  intros q n w r w' ts F e T G Fi R HL Pl [E' X].
  apply (fun A B C D => proj2 (C47_function_partial demo_constant demo_global demo_type demo_func demo_special 1000 demo_M (demo_V F e) (fun _ => 0) demo_place false
    demo_params 200 q [] 2 ts F e T demo_like A B C G Fi R D (fun _ => eq_refl) HL Pl) (demo_env n) w (OReturn r) E' w' X).
  - intros x v. unfold demo_global. destruct (is x "total"); [|discriminate]. intros Q. injection Q as <-. split; [reflexivity|cbn; lia].
  - intros p [<-|[]]. cbn. repeat split; lia.
  - repeat constructor. intros [].
  - intros v Hv. split; [|reflexivity]. cbn. apply Nat.eqb_neq. lia.
Qed.
Print Assumptions C47_function_applies.

Definition num (s : string) : rexpr := RLit (Decimal (bytes s)).
Definition zero : rexpr := RLit (Octal []).
Definition v (s : string) : rexpr := RVar (bytes s).
Definition lv (s : string) : lval := LVar (bytes s).
Definition int_ (ds : list declarator) : stmt := SDecl (name "int") ds.
Definition seq (l : list stmt) : stmt := fold_right SCons SNil l.
Definition block (l : list stmt) : stmt := SBlock (seq l).
(** { int s = 0, a[4], *p; p = a;
      for (int i = 0; i < n; i++) {
        if (i == 2) continue;
        if (i == LIMIT) break;
        a[i % 4] = f(i, 1);
        s += p[i % 4];
        { int i = 7; total = total + i; } }
      do { s = s * 2; if (s == 14) --s; } while (s < 50 && s != 13);
      while (1) if (s > 60) s -= 3; else if (s % 2) { return s + total; } else ++s; } *)
Definition sample : stmt :=
  seq [int_ [mkd 0 (name "s") None (Some zero) 0; mkd 0 (name "a") (Some (Decimal (bytes "4"))) None 14000; mkd 1 (name "p") None None 0];
       SSimple (Assign (lv "p") (v "a"));
       SFor (FDecl (name "int") [mkd 0 (name "i") None (Some zero) 0]) (Some (RBin BLt (v "i") (v "n"))) (Some (Post (lv "i") BAdd))
         (block [SIf (RBin BEq (v "i") (num "2")) SContinue;
                 SIf (RBin BEq (v "i") (v "LIMIT")) SBreak;
                 SSimple (Assign (LIdx (name "a") (RBin BMod (v "i") (num "4"))) (RCall (name "f") [v "i"; num "1"]));
                 SSimple (Update (lv "s") BAdd (RIdx (name "p") (RBin BMod (v "i") (num "4"))));
                 block [int_ [mkd 0 (name "i") None (Some (num "7")) 0]; SSimple (Assign (lv "total") (RBin BAdd (v "total") (v "i")))]]);
       SDo (block [SSimple (Assign (lv "s") (RBin BMul (v "s") (num "2"))); SIf (RBin BEq (v "s") (num "14")) (SSimple (Pre (lv "s") BSub))])
         (RBin LAnd (RBin BLt (v "s") (num "50")) (RBin BNe (v "s") (num "13")));
       SWhile (num "1")
         (SIfElse (RBin BGt (v "s") (num "60")) (SSimple (Update (lv "s") BSub (num "3")))
           (SIfElse (RBin BMod (v "s") (num "2")) (block [SReturn (Some (RBin BAdd (v "s") (v "total")))]) (SSimple (Pre (lv "s") BAdd))))].

(** executing it, by the interpreter of StmtExec.v *)
Definition demo_icall (f : text) (vs : list Z) (w : mem) : option (Z * mem) :=
  match vs with [x; y] => if is f "f" then Some (x - y, poke 5000 (w 5000 + x) w) else None | _ => None end.
Lemma demo_icall_ok f vs w r w' : demo_icall f vs w = Some (r, w') -> do_call demo_func demo_M f vs w r w'.
Proof.
  unfold demo_icall, do_call, demo_func. destruct vs as [|x [|y [|]]]; try discriminate. destruct (is f "f"); [|discriminate]. intros H. injection H as <- <-.
  exists 7. split; [reflexivity|]. intros A P. pose proof (P 0%nat x eq_refl) as P0. pose proof (P 1%nat y eq_refl) as P1. exists (fun _ => A 0%nat - A 1%nat). rewrite <- P0, <- P1. split; reflexivity.
Qed.
Notation demo_interp q n w :=
  (istmt demo_constant demo_type (gtype demo_global) (gget demo_global demo_M (fun _ => 0)) (gput demo_global demo_M (fun _ => 0)) (m_read demo_M) (m_write demo_M) demo_icall 100 q (at_start demo_params (demo_env n)) w).
Lemma demo_interp_ok q n w o E w' : demo_interp q n w = Some (o, E, w') -> demo_exec q n w o w'.
Proof. generalize 100%nat. intros k H. exists E. eapply istmt_sound; [apply demo_icall_ok|exact H]. Qed.
Ltac literals := unfold num, zero, v, lv, int_, block, seq; cbn [sgram fold_right rgram level pgram lgram dgram d_array d_init];
  repeat match goal with
         | |- _ /\ _ => split
         | |- Forall _ [] => constructor
         | |- Forall _ (_ :: _) => constructor
         | |- dgram _ => unfold dgram; cbn [d_array d_init rgram]
         | |- literal_wf (Decimal _) => split; [do 2 eexists; split; [reflexivity|]; vm_compute; split; discriminate|vm_compute bytes; repeat constructor; lia]
         | |- literal_wf (Octal _) => constructor
         end; try reflexivity; try discriminate; try lia; try exact I; auto.
(** the two conditions on the declared variables, computed *)
Definition demo_fits (q : stmt) (e : cenv) : bool :=
  forallb (fun v => Bool.eqb (no_storage (demo_V (mkp 0 0 (fun _ => []) (fun _ => None) (fun _ => None) (fun _ => None) (fun _ => 0%nat) (fun _ => 0) []) e) (vi_id v)) (vi_array v =? 0)) (c_locals e) &&
  (if list_eq_dec Z.eq_dec (places q) (map demo_place (arrays_of e)) then true else false).
Lemma demo_fits_ok q F e : demo_fits q e = true -> (forall v, In v (c_locals e) -> no_storage (demo_V F e) (vi_id v) = (vi_array v =? 0)) /\ places q = map demo_place (arrays_of e).
Proof.
  intros H. apply andb_true_iff in H. destruct H as [A B]. split; [|destruct (list_eq_dec _ _ _); [assumption|discriminate]].
  intros v Hv. rewrite forallb_forall in A. specialize (A v Hv). apply Bool.eqb_prop in A. exact A.
Qed.
Lemma demo_works q n r (P : mem -> bool) : sgram true q -> match demo_fine q with Some _ => true | None => false end = true ->
  match demo_read q with Some (_, _, e) => demo_fits q e | None => false end = true ->
  match demo_interp q n (fun _ => 0) with Some (OReturn (Some x), _, w') => (x =? r) && P w' | _ => false end = true ->
  demo_fine q <> None /\ exists ts F e, demo_read q = Some (ts, F, e) /\
  exists w', demo_exec q n (fun _ => 0) (OReturn (Some r)) w' /\ demo_runs F e n (fun _ => 0) w' (Some r) /\ P w' = true.
Proof.
  intros G Fi A O. destruct (demo_fine q) as [T|] eqn:QT; [|discriminate]. split; [discriminate|].
  destruct (demo_read q) as [[[ts F] e]|] eqn:Q; [|discriminate]. exists ts, F, e. split; [reflexivity|].
  destruct (demo_interp q n (fun _ => 0)) as [[[o E] w']|] eqn:QI; [|discriminate]. destruct o as [| | |[x|]]; try discriminate O. apply andb_true_iff in O. destruct O as [O HP]. apply Z.eqb_eq in O. subst x.
  pose proof (demo_interp_ok _ _ _ _ _ _ QI) as X. exists w'. split; [exact X|]. split; [|exact HP].
  destruct (demo_fits_ok q F e A) as [H1 H2]. eapply C47_function_applies; [exact G|exact QT|exact Q|exact H1|exact H2|exact X].
Qed.
Theorem C47_sample : sgram true sample /\ demo_fine sample <> None /\ exists ts F e, demo_read sample = Some (ts, F, e) /\
  exists w', demo_exec sample 9 (fun _ => 0) (OReturn (Some 94)) w' /\ demo_runs F e 9 (fun _ => 0) w' (Some 94) /\ (w' 5000 =? 13) && (w' 9000 =? 35) = true.
Proof.
  assert (G : sgram true sample) by (unfold sample; literals). split; [exact G|].
  apply (demo_works sample 9 94 (fun w' => (w' 5000 =? 13) && (w' 9000 =? 35)) G); vm_compute; reflexivity.
Qed.
Print Assumptions C47_sample.
