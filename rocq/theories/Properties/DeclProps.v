(** C35: structure layout; C36: enumeration constants. *)
From Coq Require Import String.
From Verif.Base Require Import Int32.
From Verif.Front Require Import Lexer LexSpec Numeric Parse Decls.
From Verif.Properties Require Import NumericProps.
Open Scope list_scope.
Open Scope Z_scope.

(** ** Specification: structure declarations *)
Inductive member :=
| Plain (kw : bool) (tname : text) (ptrs : nat) (name : text) (dim : option literal)  (* member with stars and dimension, e.g. struct T * * name[dim] *)
| FunPtr (tname : text) (ptrs : nat) (name : text) (params : list (text * nat)).      (* pointer to a function of anonymous parameters *)
Definition p (t : token) : token * text := (t, []).
Definition id (w : text) : token * text := (T_identifier, w).
Definition star_tokens (n : nat) : toks := repeat (p T_asterisk) n.
Fixpoint param_tokens (ps : list (text * nat)) : toks :=
  match ps with
  | [] => []
  | [(t, n)] => id t :: star_tokens n
  | (t, n) :: r => id t :: star_tokens n ++ p T_comma :: param_tokens r
  end.
Definition member_tokens (m : member) : toks :=
  match m with
  | Plain kw t n x d => (if kw then [p T_struct] else []) ++ id t :: star_tokens n ++ id x ::
      match d with Some l => [p T_open_square; (T_numeric, literal_text l); p T_close_square] | None => [] end ++ [p T_semicolon]
  | FunPtr t n x ps => id t :: star_tokens n ++ [p T_open_bracket; p T_asterisk; id x; p T_close_bracket; p T_open_bracket] ++
      param_tokens ps ++ [p T_close_bracket; p T_semicolon]
  end.
Definition member_name (m : member) : text := match m with Plain _ _ _ x _ | FunPtr _ _ x _ => x end.
Definition short (w : text) : Prop := Z.of_nat (List.length w) < 32.

(** The size of a member, given the sizes of the types: pointers take 4 bytes, arrays their number of elements. *)
Inductive has_size (sizeof : text -> Z -> Prop) : member -> Z -> Prop :=
| size_ptr kw t n x : (0 < n)%nat -> has_size sizeof (Plain kw t n x None) 4
| size_fun t n x ps : has_size sizeof (FunPtr t n x ps) 4
| size_type kw t x s : sizeof t s -> has_size sizeof (Plain kw t 0 x None) s
| size_array kw t n x l s : has_size sizeof (Plain kw t n x None) s -> literal_wf l -> 0 < literal_value l ->
    has_size sizeof (Plain kw t n x (Some l)) (s * literal_value l).
(** names fit their buffers, array sizes are at most nine characters, function pointers have at most eight parameters *)
Definition member_fits (m : member) : Prop :=
  match m with
  | Plain _ t _ x d => short t /\ short x /\ match d with Some l => Z.of_nat (List.length (literal_text l)) < 10 | None => True end
  | FunPtr t _ x ps => short t /\ short x /\ (List.length ps <= 8)%nat /\ Forall (fun q => short (fst q)) ps
  end.

(** the size of a type already declared *)
Definition declared_size (d : decls) (name : text) (s : Z) : Prop :=
  exists i t, find_type (types d) name 0 = Some i /\ nth_error (types d) i = Some t /\ t_size t = s /\ 0 < s.
Fixpoint sum (l : list Z) : Z := match l with [] => 0 | x :: r => x + sum r end.

(** [t] has the members [ms], of the given sizes, in this order: each starts where the one before ends, the first at 0, and the
    size of [t] is the end of the last. *)
Definition laid_out (t : ty) (ms : list member) (sizes : list Z) : Prop :=
  t_num t = List.length ms /\ t_size t = sum sizes /\
  forall k m, nth_error ms k = Some m ->
    f_name (t_field t k) = member_name m /\ f_offset (t_field t k) = sum (firstn k sizes).

(* ---- proofs ---- *)
Lemma text_eqb_refl a : text_eqb a a = true.
Proof. induction a; cbn; [reflexivity|]. rewrite Z.eqb_refl. exact IHa. Qed.
Lemma text_eqb_eq a : forall b, text_eqb a b = true -> a = b.
Proof. induction a as [|x a IH]; destruct b; cbn; try discriminate; [reflexivity|]. rewrite andb_true_iff, Z.eqb_eq. intros [-> H]. f_equal. auto. Qed.
Lemma strcpy_ok n w : Z.of_nat (List.length w) < n -> strcpy n w = Some w.
Proof. intros H. unfold strcpy. destruct (Z.ltb_spec (Z.of_nat (List.length w)) n); [reflexivity|lia]. Qed.
Lemma lex_ident_ok n w r : Z.of_nat (List.length w) < n -> lex_ident T_identifier n (id w :: r) = Some (w, r).
Proof. intros H. unfold lex_ident, id. cbn [token_eqb]. change (token_eqb T_identifier T_identifier) with true. cbn iota. rewrite strcpy_ok by exact H. reflexivity. Qed.
Lemma stars_ok n : forall z r, match r with (T_asterisk, _) :: _ => False | _ => True end ->
  stars z (star_tokens n ++ r) = (z + Z.of_nat n, r).
Proof.
  induction n as [|n IH]; intros z r H; cbn [star_tokens repeat app].
  - replace (z + Z.of_nat 0) with z by lia. destruct r as [|[t w] r]; [reflexivity|]. destruct t; try reflexivity. contradiction.
  - cbn [stars p]. unfold star_tokens in IH. rewrite IH by exact H. f_equal. lia.
Qed.

Lemma acc_p t t' r : lex_accept t (p t' :: r) = if token_eqb t' t then Some r else None. Proof. reflexivity. Qed.
Lemma acc_id t w r : lex_accept t (id w :: r) = if token_eqb T_identifier t then Some r else None. Proof. reflexivity. Qed.
Lemma exp_p t t' r : lex_expect t (p t' :: r) = if token_eqb t' t then Some r else None. Proof. reflexivity. Qed.
Lemma peek_p t t' r : lex_peek t (p t' :: r) = if token_eqb t' t then Some [] else None. Proof. reflexivity. Qed.
Lemma peek_id w r : lex_peek T_identifier (id w :: r) = Some w. Proof. reflexivity. Qed.
Ltac teq := repeat match goal with |- context [token_eqb ?a ?b] => let v := eval vm_compute in (token_eqb a b) in change (token_eqb a b) with v end; cbv iota.
Ltac lx := repeat (rewrite ?acc_p, ?acc_id, ?exp_p, ?peek_p, ?peek_id; teq).
Lemma read_full_S fuel anon old ts : read_full_var_decl (S fuel) anon old ts =
    match lex_ident T_identifier MAX_TYPE_LEN (match lex_accept T_struct ts with Some r => r | None => ts end) with
    | None => None
    | Some (tname, ts) =>
      let '(ptr, ts) := stars 0 ts in
      match lex_accept T_open_bracket ts with
      | Some ts =>
        match lex_expect T_asterisk ts with
        | None => None
        | Some ts =>
          match lex_ident T_identifier MAX_VAR_LEN ts with
          | None => None
          | Some (name, ts) =>
            match lex_expect T_close_bracket ts with
            | None => None
            | Some ts =>
              match read_parameter_list_decl fuel ts with
              | None => None
              | Some ts => Some (mkfld tname name ptr true (f_array old) (f_offset old), ts)
              end
            end
          end
        end
      | None =>
        match (if anon then Some (f_name old, ts) else lex_ident T_identifier MAX_VAR_LEN ts) with
        | None => None
        | Some (name, ts) =>
          match lex_accept T_open_square ts with
          | Some ts =>
            match lex_peek T_numeric ts with
            | Some w =>
              match strcpy 10 w, lex_expect T_close_square (tl ts) with
              | Some w, Some ts => Some (mkfld tname name ptr false (read_numeric_constant w) (f_offset old), ts)
              | _, _ => None
              end
            | None =>
              match lex_expect T_close_square ts with
              | Some ts => Some (mkfld tname name (ptr + 1) false (f_array old) (f_offset old), ts)
              | None => None
              end
            end
          | None => Some (mkfld tname name ptr false 0 (f_offset old), ts)
          end
        end
      end
    end.
Proof. reflexivity. Qed.
Lemma read_parameter_list_S fuel ts : read_parameter_list_decl (S fuel) ts =
  match lex_expect T_open_bracket ts with
  | None => None
  | Some ts => match read_parameters fuel 0 ts with
               | None => None
               | Some ts => lex_expect T_close_bracket (match lex_accept T_elipsis ts with Some r => r | None => ts end)
               end
  end.
Proof. reflexivity. Qed.
Lemma read_parameters_S fuel vn ts : read_parameters (S fuel) vn ts =
  match lex_peek T_identifier ts with
  | None => Some ts
  | Some _ =>
    if vn <? 8 then
      match read_full_var_decl fuel true (mkfld [] [] 0 false 0 0) ts with
      | None => None
      | Some (_, ts) => read_parameters fuel (vn + 1) (match lex_accept T_comma ts with Some r => r | None => ts end)
      end
    else None
  end.
Proof. reflexivity. Qed.

Lemma read_params ps : forall fuel vn r, (List.length ps + 2 <= fuel)%nat -> vn + Z.of_nat (List.length ps) <= 8 ->
  Forall (fun q => short (fst q)) ps ->
  read_parameters fuel vn (param_tokens ps ++ p T_close_bracket :: r) = Some (p T_close_bracket :: r).
Proof.
  induction ps as [|[t n] ps IH]; intros fuel vn r F V Sh.
  - destruct fuel as [|fuel]; [cbn in F; lia|]. reflexivity.
  - cbn [List.length] in F, V. inversion Sh as [|? ? S1 S2]; subst. cbn in S1. unfold short in S1. destruct fuel as [|[|fuel]]; [lia|lia|].
    rewrite read_parameters_S. destruct (Z.ltb_spec vn 8); [|cbn in V; lia]. rewrite read_full_S.
    destruct ps as [|q ps].
    + cbn [param_tokens app]. lx. rewrite lex_ident_ok by exact S1. rewrite stars_ok by exact I. lx. destruct fuel as [|fuel]; reflexivity.
    + change (param_tokens ((t, n) :: q :: ps)) with (id t :: star_tokens n ++ p T_comma :: param_tokens (q :: ps)).
      rewrite <- app_comm_cons. rewrite <- app_assoc. rewrite <- app_comm_cons. lx.
      rewrite lex_ident_ok by exact S1. rewrite stars_ok by exact I. lx. apply IH; [lia|lia|exact S2].
Qed.

Definition fld_of (m : member) (old : fld) : fld :=
  match m with
  | Plain _ t n x d => mkfld t x (Z.of_nat n) false (match d with Some l => wrap (literal_value l) | None => 0 end) (f_offset old)
  | FunPtr t n x _ => mkfld t x (Z.of_nat n) true (f_array old) (f_offset old)
  end.
Lemma read_member m fuel old r : member_fits m -> (13 <= fuel)%nat ->
  (forall kw t n x l, m = Plain kw t n x (Some l) -> literal_wf l) ->
  read_full_var_decl fuel false old (member_tokens m ++ r) = Some (fld_of m old, p T_semicolon :: r).
Proof.
  intros W F L. destruct fuel as [|fuel]; [lia|]. rewrite read_full_S. destruct m as [kw t n x d|t n x ps]; cbn [member_fits] in W.
  - destruct W as (S1 & S2 & S3). unfold short in S1, S2.
    assert (E : member_tokens (Plain kw t n x d) ++ r = (if kw then [p T_struct] else []) ++ id t :: star_tokens n ++ id x ::
      match d with Some l => [p T_open_square; (T_numeric, literal_text l); p T_close_square] | None => [] end ++ p T_semicolon :: r).
    { cbn [member_tokens]. rewrite <- !app_assoc. cbn [app]. rewrite <- !app_assoc. cbn [app]. rewrite <- !app_assoc. reflexivity. }
    rewrite E. set (k := id t :: _).
    assert (E2 : match lex_accept T_struct ((if kw then [p T_struct] else []) ++ k) with Some r => r | None => (if kw then [p T_struct] else []) ++ k end = k)
      by (destruct kw; reflexivity).
    rewrite E2. unfold k. rewrite lex_ident_ok by exact S1. rewrite stars_ok by exact I. lx. rewrite lex_ident_ok by exact S2. destruct d as [l|].
    + cbn [app]. lx. unfold lex_peek. teq. rewrite strcpy_ok by exact S3. cbn [tl]. lx. rewrite C31_constant by (eapply L; reflexivity). reflexivity.
    + cbn [app]. lx. reflexivity.
  - destruct W as (S1 & S2 & S3 & S4). unfold short in S1, S2.
    assert (E : member_tokens (FunPtr t n x ps) ++ r = id t :: star_tokens n ++ p T_open_bracket :: p T_asterisk :: id x :: p T_close_bracket ::
      p T_open_bracket :: param_tokens ps ++ p T_close_bracket :: p T_semicolon :: r).
    { cbn [member_tokens app]. rewrite <- !app_assoc. cbn [app]. rewrite <- !app_assoc. reflexivity. }
    rewrite E. lx. rewrite lex_ident_ok by exact S1. rewrite stars_ok by exact I. lx. rewrite lex_ident_ok by exact S2. lx.
    destruct fuel as [|fuel]; [lia|]. rewrite read_parameter_list_S. lx. rewrite read_params; [|lia|lia|exact S4]. lx. reflexivity.
Qed.

Lemma sum_app a b : sum (a ++ b) = sum a + sum b.
Proof. induction a; cbn; lia. Qed.
(* sizes as the code computes them *)
Lemma w32_small a : -2147483648 <= a < 2147483648 -> wrap a = a.
Proof. apply wrap_id. Qed.
Lemma size_var_ok l (sizeof : text -> Z -> Prop) m s old off :
  (forall t s, sizeof t s -> 0 < s /\ exists i x, find_type l t 0 = Some i /\ nth_error l i = Some x /\ t_size x = s) ->
  has_size sizeof m s -> s < 2147483648 -> member_fits m -> f_array old = 0 -> 0 < s /\
  size_var l (mkfld (f_type (fld_of m old)) (f_name (fld_of m old)) (f_ptr (fld_of m old)) (f_func (fld_of m old)) (f_array (fld_of m old)) off) = Some s.
Proof.
  intros Z0 H B Wf A. 
  assert (base : forall kw t n x s, has_size sizeof (Plain kw t n x None) s -> 0 < s /\
    (if (0 <? Z.of_nat n) || false then Some 4 else match find_type l t 0 with
       | None => None
       | Some i => match nth_error l i with
                   | None => None
                   | Some t => if t_size t =? 0 then match t_link t with Some j => option_map t_size (nth_error l j) | None => None end else Some (t_size t)
                   end
       end) = Some s).
  { clear H. intros kw t n x s' H. inversion H as [|? ? ? ? | ? ? ? ? Hq|]; subst.
    - split; [lia|]. replace (0 <? Z.of_nat n) with true by lia. reflexivity.
    - destruct (Z0 _ _ Hq) as (P & i & y & -> & -> & ->). split; [exact P|]. change (0 <? Z.of_nat 0) with false. cbn [orb].
      destruct (Z.eqb_spec s' 0); [lia|reflexivity]. }
  destruct m as [kw t n x [l0|]|t n x ps]; unfold size_var; cbn [fld_of f_ptr f_func f_array f_type f_name].
  - inversion H as [| | |? ? ? ? ? s0 H0 Wl P]; subst. destruct (base _ _ _ _ _ H0) as [P0 E0]. rewrite E0.
    assert (literal_value l0 < 2147483648) by nia. rewrite w32_small by lia. replace (0 <? literal_value l0) with true by lia.
    split; [nia|]. unfold imul. rewrite w32_small by nia. reflexivity.
  - destruct (base _ _ _ _ _ H) as [P0 E0]. rewrite E0. split; [exact P0|reflexivity].
  - inversion H; subst. rewrite orb_true_r. rewrite A. split; [lia|reflexivity].
Qed.

Lemma read_members_ok l (sizeof : text -> Z -> Prop) :
  (forall t s, sizeof t s -> 0 < s /\ exists i x, find_type l t 0 = Some i /\ nth_error l i = Some x /\ t_size x = s) ->
  forall ms sizes fuel slots i size r,
  ms <> [] -> Forall2 (has_size sizeof) ms sizes -> Forall member_fits ms ->
  (List.length ms + 13 <= fuel)%nat -> (i + List.length ms <= 64)%nat -> 0 <= size -> size + sum sizes < 2147483648 ->
  (forall k, f_array (slots k) = 0 \/ (k < i)%nat) ->
  exists slots', read_members fuel l slots i size (flat_map member_tokens ms ++ p T_close_curly :: r) = Some (slots', (i + List.length ms)%nat, size + sum sizes, r)
  /\ (forall k, (k < i)%nat -> slots' k = slots k)
  /\ (forall k m, nth_error ms k = Some m -> slots' (i + k)%nat = let v := fld_of m (slots (i + k)%nat) in
        mkfld (f_type v) (f_name v) (f_ptr v) (f_func v) (f_array v) (size + sum (firstn k sizes))).
Proof.
  intros Z0. induction ms as [|m ms IH]; intros sizes fuel slots i size r N Hs Hf F I0 P B A; [contradiction|].
  inversion Hs as [|? s ? sizes' H1 H2]; subst. inversion Hf as [|? ? F1 F2]; subst. cbn [List.length] in F, I0. cbn [sum] in B.
  assert (POS : Forall2 (fun m s => 0 <= s) ms sizes').
  { clear - H2 Z0. induction H2 as [|m s ms ss H _ IH]; constructor; [|exact IH]. clear IH.
    induction H as [| |? ? ? ? Q|? ? ? ? ? ? ? IHh ? ?]; try lia; try (destruct (Z0 _ _ Q); lia); nia. }
  assert (SP : 0 <= sum sizes') by (clear - POS; induction POS; cbn; lia).
  destruct fuel as [|fuel]; [lia|]. cbn [read_members flat_map]. replace (Nat.ltb i MAX_FIELDS) with true by (symmetry; apply Nat.ltb_lt; unfold MAX_FIELDS; lia).
  rewrite <- app_assoc. rewrite (read_member m (S fuel)); [|exact F1|lia|].
  2:{ intros kw t n x l0 ->. inversion H1; assumption. }
  destruct (size_var_ok l sizeof m s (slots i) size Z0 H1 ltac:(lia) F1) as [S0 E]; [destruct (A i); [assumption|lia]|]. rewrite E.
  unfold lex_expect, lex_accept at 1. cbn [p]. change (token_eqb T_semicolon T_semicolon) with true. cbn iota.
  set (v := mkfld _ _ _ _ _ size).
  assert (Ei : iadd size s = size + s) by (unfold iadd; apply w32_small; lia).
  destruct ms as [|m2 ms].
  - inversion H2; subst. cbn [flat_map app]. unfold lex_accept. cbn [p]. change (token_eqb T_close_curly T_close_curly) with true. cbn iota. rewrite Ei.
    exists (upd slots i v). split; [cbn [List.length sum]; repeat f_equal; lia|]. split.
    + intros k Hk. unfold upd. destruct (Nat.eqb_spec k i); [lia|reflexivity].
    + intros [|k] m0 Hk; [|destruct k; discriminate]. injection Hk as <-. unfold upd. rewrite Nat.add_0_r, Nat.eqb_refl. cbn zeta. cbn [firstn sum]. rewrite Z.add_0_r. reflexivity.
  - assert (E3 : lex_accept T_close_curly (flat_map member_tokens (m2 :: ms) ++ p T_close_curly :: r) = None).
    { cbn [flat_map]. destruct m2 as [[] t2 n2 x2 d2|t2 n2 x2 ps2]; reflexivity. }
    rewrite E3, Ei.
    destruct (IH sizes' fuel (upd slots i v) (S i) (size + s) r) as (slots' & E4 & K1 & K2); auto; try discriminate; try lia; try (cbn [List.length] in *; lia).
    { intros k. unfold upd. destruct (Nat.eqb_spec k i); [right; lia|]. destruct (A k); [left; assumption|right; lia]. }
    exists slots'. split; [rewrite E4; cbn [List.length sum]; replace (S i + S (List.length ms))%nat with (i + S (S (List.length ms)))%nat by lia; replace (size + s + sum sizes') with (size + (s + sum sizes')) by lia; reflexivity|]. split.
    + intros k Hk. rewrite K1 by lia. unfold upd. destruct (Nat.eqb_spec k i); [lia|reflexivity].
    + intros [|k] m0 Hk.
      * injection Hk as <-. rewrite Nat.add_0_r, K1 by lia. unfold upd. rewrite Nat.eqb_refl. cbn zeta. cbn [firstn sum]. rewrite Z.add_0_r. reflexivity.
      * cbn [nth_error] in Hk. replace (i + S k)%nat with (S i + k)%nat by lia. rewrite (K2 k m0 Hk). cbn zeta. cbn [firstn sum].
        unfold upd. destruct (Nat.eqb_spec (S i + k) i); [lia|]. replace (size + s + sum (firstn k sizes')) with (size + (s + sum (firstn k sizes'))) by lia. reflexivity.
Qed.

(* looking up in an extended table *)
Lemma find_type_from_app l x name flag : forall i j, find_type_from i l name flag = Some j -> find_type_from i (l ++ x) name flag = Some j.
Proof.
  induction l as [|t l IH]; intros i j H; [discriminate|]. cbn [app find_type_from] in *.
  destruct (t_base t), (flag =? 1), (flag =? 2), (text_eqb (t_name t) name); auto; try (destruct (t_size t =? 0); auto).
Qed.
Lemma find_type_from_new l t name flag : forall i, find_type_from i l name flag = None ->
  (forall u, In u l -> text_eqb (t_name u) name = true -> t_base u = TYPE_typedef -> t_size u <> 0 \/ flag = 2) ->
  find_type_from i (l ++ [t]) name flag = find_type_from (i + List.length l) [t] name flag.
Proof.
  induction l as [|u l IH]; intros i H U; cbn [app List.length]; [rewrite Nat.add_0_r; reflexivity|]. 
  replace (i + S (List.length l))%nat with (S i + List.length l)%nat by lia.
  remember (find_type_from (S i + List.length l) [t] name flag) as R. cbn [find_type_from] in H |- *.
  assert (IH' : find_type_from (S i) l name flag = None -> find_type_from (S i) (l ++ [t]) name flag = R).
  { intros Q. subst R; apply IH; [exact Q|]. intros u0 Hu. apply U. right. exact Hu. }
  destruct (t_base u) eqn:Eb, (flag =? 1) eqn:F1, (flag =? 2) eqn:F2, (text_eqb (t_name u) name) eqn:Et; auto; try discriminate;
    destruct (U u (or_introl eq_refl) Et Eb) as [NZ| -> ]; try discriminate; rewrite (proj2 (Z.eqb_neq _ _) NZ) in H; discriminate.
Qed.
Lemma set_type_length l i t : List.length (set_type l i t) = List.length l.
Proof. revert i. induction l; intros [|i]; cbn; auto. Qed.
Lemma nth_set l i t : (i < List.length l)%nat -> nth_error (set_type l i t) i = Some t.
Proof. revert i. induction l; intros [|i] H; cbn in *; try lia; [reflexivity|]. apply IHl. lia. Qed.
Lemma set_app l x t : set_type (l ++ [x]) (List.length l) t = l ++ [t].
Proof. induction l; cbn; congruence. Qed.
Lemma nth_app_last {A} (l : list A) x : nth_error (l ++ [x]) (List.length l) = Some x.
Proof. induction l; cbn; auto. Qed.
Lemma nth_app_old {A} (l : list A) x i t : nth_error l i = Some t -> nth_error (l ++ x) i = Some t.
Proof. intros H. rewrite nth_error_app1; [exact H|]. apply nth_error_Some. congruence. Qed.
Lemma find_new_struct l name t : find_type l name 2 = None -> t_base t = TYPE_struct -> t_name t = name -> find_type (l ++ [t]) name 2 = Some (List.length l).
Proof.
  intros H B E. unfold find_type in *. rewrite find_type_from_new; [|exact H|auto]. cbn. rewrite B, E, text_eqb_refl. reflexivity.
Qed.

(** ** C35 *)
(** struct TAG { members }; with a new tag *)
Theorem C35_struct : forall d tag ms sizes rest,
  let source := p T_struct :: id tag :: p T_open_curly :: flat_map member_tokens ms ++ p T_close_curly :: p T_semicolon :: rest in
  short tag -> ms <> [] -> (List.length ms <= 64)%nat -> (List.length (types d) < 64)%nat -> find_type (types d) tag 2 = None ->
  Forall member_fits ms -> Forall2 (has_size (declared_size d)) ms sizes -> sum sizes < 2147483648 ->
  exists fuel0, forall fuel, (fuel0 <= fuel)%nat -> exists d' t,
    read_type_decl fuel zero_ty d source = Some (d', rest) /\
    types d' = types d ++ [t] /\ consts d' = consts d /\
    find_type (types d') tag 2 = Some (List.length (types d)) /\ laid_out t ms sizes.
Proof.
  intros d tag ms sizes rest source St N L T Fr Ff Hs B. exists (List.length ms + 13)%nat. intros fuel Fu. unfold source.
  unfold read_type_decl. unfold lex_accept at 1. cbn [p]. change (token_eqb T_struct T_struct) with true. cbn iota. fold (p T_open_curly).
  unfold read_struct. unfold short in St. rewrite lex_ident_ok by (unfold MAX_ID_LEN; lia). rewrite Fr. unfold add_type.
  replace (Nat.ltb (List.length (types d)) MAX_TYPES) with true by (symmetry; apply Nat.ltb_lt; exact T).
  rewrite strcpy_ok by exact St. rewrite nth_app_last, set_app. cbn [t_base t_link t_size t_field t_num zero_ty].
  unfold lex_expect at 1, lex_accept at 1. cbn [p]. change (token_eqb T_open_curly T_open_curly) with true. cbn iota.
  set (l1 := types d ++ [mkty tag TYPE_void None 0 (fun _ => zero_fld) 0]).
  destruct (read_members_ok l1 (declared_size d)) with (ms := ms) (sizes := sizes) (fuel := fuel) (slots := fun _ : nat => zero_fld) (i := O) (size := 0) (r := p T_semicolon :: rest)
    as (slots & E & _ & K); auto; try lia.
  { intros t s (i & x & H1 & H2 & H3 & H4). split; [exact H4|]. exists i, x. unfold l1, find_type in *. rewrite (find_type_from_app _ _ _ _ _ _ H1).
    split; [reflexivity|]. split; [apply nth_app_old; exact H2|exact H3]. }
  change (@flat_map member (token * text)) with (@flat_map member (token * text)) in E. unfold p at 1 in E. unfold p at 1. rewrite E.
  unfold lex_expect, lex_accept. cbn [p]. change (token_eqb T_semicolon T_semicolon) with true. cbn iota.
  unfold l1. rewrite set_app. set (t := mkty tag TYPE_struct None (0 + sum sizes) slots (0 + List.length ms)%nat).
  exists (mkdecls (types d ++ [t]) (consts d)), t. split; [reflexivity|]. split; [reflexivity|]. split; [reflexivity|]. split.
  - cbn [types]. apply find_new_struct; [exact Fr|reflexivity|reflexivity].
  - split; [reflexivity|]. split; [reflexivity|]. intros k m Hk. cbn [t t_field]. specialize (K k m Hk). cbn [Nat.add] in K. rewrite K. cbn zeta. cbn [f_name f_offset].
    split; [destruct m; reflexivity|lia].
Qed.
Print Assumptions C35_struct.

(** typedef struct { members } NAME; (no tag) *)
Theorem C35_typedef_struct : forall d name ms sizes rest,
  let source := p T_typedef :: p T_struct :: p T_open_curly :: flat_map member_tokens ms ++ p T_close_curly :: id name :: p T_semicolon :: rest in
  short name -> ms <> [] -> (List.length ms <= 64)%nat -> (List.length (types d) < 64)%nat ->
  (forall u, In u (types d) -> t_name u <> name) ->
  Forall member_fits ms -> Forall2 (has_size (declared_size d)) ms sizes -> sum sizes < 2147483648 ->
  exists fuel0, forall fuel, (fuel0 <= fuel)%nat -> exists d' t,
    read_type_decl fuel zero_ty d source = Some (d', rest) /\
    types d' = types d ++ [t] /\ consts d' = consts d /\
    find_type (types d') name 1 = Some (List.length (types d)) /\ laid_out t ms sizes.
Proof.
  intros d name ms sizes rest source St N L T Fr Ff Hs B. exists (List.length ms + 13)%nat. intros fuel Fu. unfold source.
  unfold short in St.
  unfold read_type_decl. lx. unfold read_typedef_struct, add_type.
  replace (Nat.ltb (List.length (types d)) MAX_TYPES) with true by (symmetry; apply Nat.ltb_lt; exact T). lx.
  destruct (read_members_ok (types d ++ [zero_ty]) (declared_size d)) with (ms := ms) (sizes := sizes) (fuel := fuel) (slots := fun _ : nat => zero_fld) (i := O) (size := 0) (r := id name :: p T_semicolon :: rest)
    as (slots & E & _ & K); auto; try lia.
  { intros t s (i & x & H1 & H2 & H3 & H4). split; [exact H4|]. exists i, x. unfold find_type in *. rewrite (find_type_from_app _ _ _ _ _ _ H1).
    split; [reflexivity|]. split; [apply nth_app_old; exact H2|exact H3]. }
  cbn [t_field zero_ty]. rewrite E. rewrite lex_ident_ok by exact St. lx. rewrite set_app.
  assert (SP : 0 < sum sizes).
  { destruct ms as [|m ms]; [contradiction|]. inversion Hs as [|? s ? ss H1 H2]; subst. cbn [sum].
    assert (G : forall m s, has_size (declared_size d) m s -> 0 < s).
    { clear. induction 1 as [| |? ? ? ? Q|? ? ? ? ? ? ? IHh ? ?]; try lia. destruct Q as (i1 & t1 & _ & _ & _ & Q). exact Q. }
    assert (0 <= sum ss) by (clear - H2 G; induction H2; cbn; [lia|]; specialize (G _ _ H); lia). specialize (G _ _ H1). lia. }
  set (t := mkty name TYPE_typedef None (0 + sum sizes) slots (0 + List.length ms)%nat).
  exists (mkdecls (types d ++ [t]) (consts d)), t. split; [reflexivity|]. split; [reflexivity|]. split; [reflexivity|]. split.
  - cbn [types]. unfold find_type.
    assert (FN : forall l i, (forall u, In u l -> t_name u <> name) -> find_type_from i l name 1 = None).
    { induction l as [|u l IH]; intros i H; [reflexivity|]. cbn [find_type_from].
      destruct (text_eqb (t_name u) name) eqn:Et; [apply text_eqb_eq in Et; destruct (H u (or_introl eq_refl) Et)|].
      assert (Q : forall j, find_type_from j l name 1 = None) by (intros j; apply IH; intros u0 Hu; apply H; right; exact Hu).
      destruct (t_base u); cbn; apply Q. }
    rewrite find_type_from_new; [|apply FN; exact Fr|].
    + cbn. rewrite text_eqb_refl. destruct (Z.eqb_spec (sum sizes) 0); [lia|]. reflexivity.
    + intros u Hu Ht. apply text_eqb_eq in Ht. destruct (Fr u Hu Ht).
  - split; [reflexivity|]. split; [reflexivity|]. intros k m Hk. cbn [t t_field]. specialize (K k m Hk). cbn [Nat.add] in K. rewrite K. cbn zeta. cbn [f_name f_offset].
    split; [destruct m; reflexivity|lia].
Qed.
Print Assumptions C35_typedef_struct.

Lemma find_tag_inv l tag : forall i j, find_type_from i l tag 2 = Some j -> (i <= j)%nat /\ exists t, nth_error l (j - i) = Some t /\ t_name t = tag /\ t_base t = TYPE_struct.
Proof.
  induction l as [|u l IH]; intros i j H; [discriminate|]. cbn [find_type_from] in H.
  assert (G : find_type_from (S i) l tag 2 = Some j -> (i <= j)%nat /\ exists t, nth_error (u :: l) (j - i) = Some t /\ t_name t = tag /\ t_base t = TYPE_struct).
  { intros Q. destruct (IH _ _ Q) as (L & t & E & En). split; [lia|]. exists t. replace (j - i)%nat with (S (j - S i)) by lia. auto. }
  destruct (t_base u) eqn:Eb; try (apply G; exact H). change (2 =? 1) with false in H. cbn iota in H.
  destruct (text_eqb (t_name u) tag) eqn:Et; [|apply G; exact H]. injection H as <-. split; [lia|]. exists u. rewrite Nat.sub_diag.
  apply text_eqb_eq in Et. auto.
Qed.
Lemma find_tag_set l tag t : t_name t = tag -> t_base t = TYPE_struct -> forall i j, find_type_from i l tag 2 = Some j ->
  find_type_from i (set_type l (j - i) t) tag 2 = Some j.
Proof.
  intros En Eb. induction l as [|u l IH]; intros i j H; [discriminate|].
  assert (G : find_type_from (S i) l tag 2 = Some j -> t_base u <> TYPE_struct \/ text_eqb (t_name u) tag = false ->
     find_type_from i (set_type (u :: l) (j - i) t) tag 2 = Some j).
  { intros Q D. destruct (find_tag_inv _ _ _ _ Q) as [L _]. replace (j - i)%nat with (S (j - S i)) by lia. cbn [set_type find_type_from].
    specialize (IH _ _ Q). destruct (t_base u); try exact IH. destruct D as [D|D]; [contradiction|]. rewrite D. exact IH. }
  cbn [find_type_from] in H. destruct (t_base u) eqn:Ebu; try (apply G; [exact H|left; discriminate]).
  change (2 =? 1) with false in H. cbn iota in H.
  destruct (text_eqb (t_name u) tag) eqn:Et; [|apply G; [exact H|right; reflexivity]].
  injection H as <-. rewrite Nat.sub_diag. cbn [set_type find_type_from]. rewrite Eb, En, text_eqb_refl. reflexivity.
Qed.
Lemma set_same l i t : nth_error l i = Some t -> set_type l i t = l.
Proof. revert i. induction l as [|u l IH]; intros [|i] H; try discriminate; cbn in *; [congruence|]. rewrite IH by exact H. reflexivity. Qed.

(** struct TAG { members }; completing a structure announced before, by typedef struct TAG NAME; *)
Theorem C35_struct_complete : forall d i t0 tag ms sizes rest,
  let source := p T_struct :: id tag :: p T_open_curly :: flat_map member_tokens ms ++ p T_close_curly :: p T_semicolon :: rest in
  short tag -> ms <> [] -> (List.length ms <= 64)%nat ->
  find_type (types d) tag 2 = Some i -> nth_error (types d) i = Some t0 -> t_size t0 = 0 -> (forall k, t_field t0 k = zero_fld) ->
  Forall member_fits ms -> Forall2 (has_size (declared_size d)) ms sizes -> sum sizes < 2147483648 ->
  exists fuel0, forall fuel, (fuel0 <= fuel)%nat -> exists d' t,
    read_type_decl fuel zero_ty d source = Some (d', rest) /\
    types d' = set_type (types d) i t /\ consts d' = consts d /\
    find_type (types d') tag 2 = Some i /\ laid_out t ms sizes.
Proof.
  intros d i t0 tag ms sizes rest source St N L Fr En Z0 Zf Ff Hs B. exists (List.length ms + 13)%nat. intros fuel Fu. unfold source.
  unfold short in St. unfold read_type_decl. lx. unfold read_struct. rewrite lex_ident_ok by (unfold MAX_ID_LEN; lia). rewrite Fr.
  rewrite strcpy_ok by exact St. rewrite En.
  destruct (find_tag_inv _ _ _ _ Fr) as (_ & u & Eu & Nu & Bu). rewrite Nat.sub_0_r, En in Eu. injection Eu as <-.
  replace (mkty tag (t_base t0) (t_link t0) (t_size t0) (t_field t0) (t_num t0)) with t0 by (destruct t0; cbn in *; congruence).
  rewrite set_same by exact En. lx.
  destruct (read_members_ok (types d) (declared_size d)) with (ms := ms) (sizes := sizes) (fuel := fuel) (slots := t_field t0) (i := O) (size := 0) (r := p T_semicolon :: rest)
    as (slots & E & _ & K); auto; try lia.
  { intros t s (i1 & x & H1 & H2 & H3 & H4). split; [exact H4|]. exists i1, x. auto. }
  { intros k. left. rewrite Zf. reflexivity. }
  rewrite E. lx. set (t := mkty tag TYPE_struct (t_link t0) (0 + sum sizes) slots (0 + List.length ms)%nat).
  exists (mkdecls (set_type (types d) i t) (consts d)), t. split; [reflexivity|]. split; [reflexivity|]. split; [reflexivity|]. split.
  - cbn [types]. unfold find_type in *. pose proof (find_tag_set (types d) tag t eq_refl eq_refl O i Fr) as Q. rewrite Nat.sub_0_r in Q. exact Q.
  - split; [reflexivity|]. split; [reflexivity|]. intros k m Hk. cbn [t t_field]. specialize (K k m Hk). cbn [Nat.add] in K. rewrite K. cbn zeta. cbn [f_name f_offset].
    split; [destruct m; reflexivity|lia].
Qed.
Print Assumptions C35_struct_complete.

(** typedef struct TAG { members } NAME; with a new tag: both TAG and NAME get the layout *)
Theorem C35_typedef_tag : forall d tag name ms sizes rest,
  let source := p T_typedef :: p T_struct :: id tag :: p T_open_curly :: flat_map member_tokens ms ++ p T_close_curly :: id name :: p T_semicolon :: rest in
  short name -> short tag -> tag <> [] -> ms <> [] -> (List.length ms <= 64)%nat -> (List.length (types d) < 63)%nat -> find_type (types d) tag 2 = None ->
  Forall member_fits ms -> Forall2 (has_size (declared_size d)) ms sizes -> sum sizes < 2147483648 ->
  exists fuel0, forall fuel, (fuel0 <= fuel)%nat -> exists d' t1 t2,
    read_type_decl fuel zero_ty d source = Some (d', rest) /\
    types d' = types d ++ [t1; t2] /\ consts d' = consts d /\
    t_name t1 = name /\ t_base t1 = TYPE_typedef /\ t_name t2 = tag /\ t_base t2 = TYPE_struct /\
    laid_out t1 ms sizes /\ laid_out t2 ms sizes.
Proof.
  intros d tag name ms sizes rest source Sn St NE N L T Fr Ff Hs B. exists (List.length ms + 13)%nat. intros fuel Fu. unfold source.
  unfold short in Sn, St.
  unfold read_type_decl. lx. unfold read_typedef_struct. unfold add_type at 1.
  replace (Nat.ltb (List.length (types d)) MAX_TYPES) with true by (symmetry; apply Nat.ltb_lt; unfold MAX_TYPES; lia). lx.
  rewrite strcpy_ok by (unfold MAX_ID_LEN; lia).
  assert (Fr2 : find_type (types d ++ [zero_ty]) tag 2 = None).
  { unfold find_type in *. rewrite find_type_from_new; [reflexivity|exact Fr|auto]. }
  rewrite Fr2. unfold add_type.
  assert (L1 : List.length (types d ++ [zero_ty]) = S (List.length (types d))) by (rewrite app_length; cbn; lia).
  replace (Nat.ltb (List.length (types d ++ [zero_ty])) MAX_TYPES) with true by (symmetry; apply Nat.ltb_lt; rewrite L1; unfold MAX_TYPES; lia).
  rewrite strcpy_ok by exact St. rewrite set_app. cbn [t_link t_size t_field t_num zero_ty tl]. lx.
  destruct (read_members_ok ((types d ++ [zero_ty]) ++ [mkty tag TYPE_struct None 0 (fun _ => zero_fld) 0]) (declared_size d)) with (ms := ms) (sizes := sizes) (fuel := fuel) (slots := fun _ : nat => zero_fld) (i := O) (size := 0) (r := id name :: p T_semicolon :: rest)
    as (slots & E & _ & K); auto; try lia.
  { intros t s (i & x & H1 & H2 & H3 & H4). split; [exact H4|]. exists i, x. unfold find_type in *. rewrite <- app_assoc. rewrite (find_type_from_app _ _ _ _ _ _ H1).
    split; [reflexivity|]. split; [apply nth_app_old; exact H2|exact H3]. }
  rewrite E. rewrite lex_ident_ok by exact Sn. rewrite nth_app_last. cbn [t_name t_link]. lx.
  set (t1 := mkty name TYPE_typedef None (0 + sum sizes) slots (0 + List.length ms)%nat).
  set (t2 := mkty tag TYPE_struct None (0 + sum sizes) slots (0 + List.length ms)%nat).
  assert (E1 : set_type ((types d ++ [zero_ty]) ++ [mkty tag TYPE_struct None 0 (fun _ => zero_fld) 0]) (List.length (types d)) t1 = (types d ++ [t1]) ++ [mkty tag TYPE_struct None 0 (fun _ => zero_fld) 0]).
  { clear. generalize (types d). induction l; cbn; congruence. }
  rewrite E1. replace (List.length (types d ++ [zero_ty])) with (List.length (types d ++ [t1])) by (rewrite !app_length; reflexivity). rewrite set_app.
  exists (mkdecls (types d ++ [t1; t2]) (consts d)), t1, t2. split; [rewrite <- app_assoc; reflexivity|]. split; [reflexivity|]. split; [reflexivity|].
  do 4 (split; [reflexivity|]).
  split; (split; [reflexivity|split; [reflexivity|]]); intros k m Hk; cbn [t1 t2 t_field]; specialize (K k m Hk); cbn [Nat.add] in K; rewrite K; cbn zeta; cbn [f_name f_offset];
    (split; [destruct m; reflexivity|lia]).
Qed.
Print Assumptions C35_typedef_tag.

Lemma sum_firstn_le l : Forall (fun s => 0 <= s) l -> forall i j, (i <= j)%nat -> sum (firstn i l) <= sum (firstn j l).
Proof.
  induction 1 as [|s l H F IH]; intros [|i] [|j] L; cbn; try lia; [|specialize (IH i j); lia].
  specialize (IH O j). cbn in IH. lia.
Qed.
Lemma sum_firstn_S l : forall i s, nth_error l i = Some s -> sum (firstn (S i) l) = sum (firstn i l) + s.
Proof. induction l as [|x l IH]; intros [|i] s H; try discriminate; cbn in *; [injection H as ->; lia|]. rewrite (IH _ _ H). lia. Qed.

(** Members laid out this way do not overlap, come in declaration order and lie inside the structure. *)
Theorem C35_no_overlap : forall t ms sizes, laid_out t ms sizes -> List.length sizes = List.length ms -> Forall (fun s => 0 < s) sizes ->
  forall i j si sj, (i < j)%nat -> nth_error sizes i = Some si -> nth_error sizes j = Some sj ->
  0 <= f_offset (t_field t i) /\
  f_offset (t_field t i) + si <= f_offset (t_field t j) /\
  f_offset (t_field t j) + sj <= t_size t.
Proof.
  intros t ms sizes (N & S0 & K) L P i j si sj Lt Hi Hj.
  assert (P' : Forall (fun s => 0 <= s) sizes) by (eapply Forall_impl; [|exact P]; cbn; lia).
  assert (Bi : (i < List.length ms)%nat) by (rewrite <- L; apply nth_error_Some; congruence).
  assert (Bj : (j < List.length ms)%nat) by (rewrite <- L; apply nth_error_Some; congruence).
  destruct (nth_error ms i) as [mi|] eqn:Ei; [|apply nth_error_None in Ei; lia].
  destruct (nth_error ms j) as [mj|] eqn:Ej; [|apply nth_error_None in Ej; lia].
  destruct (K i mi Ei) as [_ ->]. destruct (K j mj Ej) as [_ ->]. rewrite S0.
  rewrite <- (sum_firstn_S _ _ _ Hi), <- (sum_firstn_S _ _ _ Hj).
  split; [apply (sum_firstn_le sizes P' 0 i); lia|]. split; [apply sum_firstn_le; [exact P'|lia]|].
  rewrite <- (firstn_all sizes) at 2. apply sum_firstn_le; [exact P'|]. rewrite L. lia.
Qed.
Print Assumptions C35_no_overlap.

(** A member is found by its name (the names being distinct), at its offset. *)
Theorem C35_member : forall l t ms sizes k m, laid_out t ms sizes -> NoDup (map member_name ms) -> 0 < t_size t ->
  nth_error ms k = Some m ->
  exists v, find_member l (member_name m) t = Some v /\ f_name v = member_name m /\ f_offset v = sum (firstn k sizes).
Proof.
  intros l t ms sizes k m (N & S0 & K) D P Hk. exists (t_field t k). destruct (K k m Hk) as [Kn Ko]. split; [|split; assumption].
  unfold find_member. destruct (Z.eqb_spec (t_size t) 0) as [?|NZ]; [lia|]. rewrite N.
  assert (G : forall n i, (i <= k)%nat -> (k < i + n)%nat -> (i + n <= List.length ms)%nat -> find_field n i (t_field t) (member_name m) = Some (t_field t k)).
  { induction n as [|n IH]; intros i L1 L2 L3; [lia|]. cbn [find_field].
    destruct (nth_error ms i) as [mi|] eqn:Ei; [|apply nth_error_None in Ei; lia]. destruct (K i mi Ei) as [-> _].
    destruct (text_eqb (member_name mi) (member_name m)) eqn:Et.
    - apply text_eqb_eq in Et. assert (i = k); [|congruence].
      apply (NoDup_nth_error (map member_name ms)); [exact D|rewrite map_length; lia|]. rewrite !nth_error_map, Ei, Hk. cbn. congruence.
    - apply IH; try lia. destruct (Nat.eq_dec i k); [|lia]. subst i. rewrite Ei in Hk. injection Hk as ->. rewrite text_eqb_refl in Et. discriminate. }
  apply G; try lia. assert (k < List.length ms)%nat by (apply nth_error_Some; congruence). lia.
Qed.
Print Assumptions C35_member.

(** The elements of an array do not overlap and fill it: the index is scaled by the size of one element. *)
Theorem C35_array_elements : forall l v size scale, 0 < f_array v -> 0 <= f_ptr v ->
  size_var l v = Some size -> index_scale l v = Some scale ->
  (forall i t, find_type l (f_type v) 0 = Some i -> nth_error l i = Some t -> t_size t <> 0) ->
  0 <= scale * f_array v < 2147483648 ->
  size = scale * f_array v /\
  forall i j, 0 <= i < j -> j < f_array v -> 0 <= i * scale /\ i * scale + scale <= j * scale /\ j * scale + scale <= size.
Proof.
  intros l v size scale A P Hs Hi NZ B.
  assert (E : size = scale * f_array v).
  { unfold size_var, index_scale in *. destruct (find_type l (f_type v) 0) as [i|]; [|discriminate].
    destruct (nth_error l i) as [t|] eqn:En; [|discriminate]. specialize (NZ i t eq_refl En). injection Hi as <-.
    destruct (Z.eqb_spec (f_array v) 0); [lia|]. rewrite andb_false_r in *. unfold get_size in *.
    assert (Q : negb (f_ptr v =? 0) = (0 <? f_ptr v)) by lia. rewrite Q in *.
    destruct ((0 <? f_ptr v) || f_func v); [|destruct (Z.eqb_spec (t_size t) 0); [contradiction|]]; injection Hs as <-; replace (0 <? f_array v) with true by lia;
      unfold imul; rewrite w32_small; lia. }
  split; [exact E|]. intros i j Hij Hj. assert (0 <= scale) by nia. nia.
Qed.
Print Assumptions C35_array_elements.

(** Where the claim fails.  A member that is a function pointer keeps whatever the memory of TYPES[] (from malloc, never cleared)
    holds as its array size: *)
Theorem C35_uninitialised_refuted : exists fresh source d1 d2 t1 t2,
  read_type_decl 100 zero_ty initial source = Some (d1, []) /\ read_type_decl 100 fresh initial source = Some (d2, []) /\
  nth_error (types d1) 4 = Some t1 /\ nth_error (types d2) 4 = Some t2 /\ t_size t1 = 4 /\ t_size t2 = 4000.
Proof.
  exists (mkty [] TYPE_void None 0 (fun _ => mkfld [] [] 0 false 1000 0) 0),
    (p T_struct :: id (bytes "S") :: p T_open_curly :: member_tokens (FunPtr (bytes "int") 0 (bytes "f") []) ++ [p T_close_curly; p T_semicolon]).
  do 4 eexists. split; [vm_compute; reflexivity|]. split; [vm_compute; reflexivity|]. repeat split.
Qed.
Print Assumptions C35_uninitialised_refuted.

(** typedef A B; of a structure type A gives B the size of A, but none of its members. *)
Theorem C35_typedef_refuted : exists d, 
  (exists d1, read_type_decl 100 zero_ty initial (p T_typedef :: p T_struct :: p T_open_curly :: member_tokens (Plain false (bytes "int") 0 (bytes "x") None) ++
     [p T_close_curly; id (bytes "A"); p T_semicolon]) = Some (d1, []) /\
   read_type_decl 100 zero_ty d1 [p T_typedef; id (bytes "A"); id (bytes "B"); p T_semicolon] = Some (d, [])) /\
  exists i t, find_type (types d) (bytes "B") 1 = Some i /\ nth_error (types d) i = Some t /\ t_size t = 4 /\ find_member (types d) (bytes "x") t = None.
Proof.
  eexists. split; [eexists; split; [vm_compute; reflexivity|vm_compute; reflexivity]|]. do 2 eexists. split; [vm_compute; reflexivity|]. repeat split.
Qed.
Print Assumptions C35_typedef_refuted.

(** A structure tag hides a type name: C keeps the two apart.  With typedef int A; and struct A { char c; }; in the other order,
    a member of type A gets one byte. *)
Theorem C35_namespace_refuted : exists d1 d2 d3 t,
  read_type_decl 100 zero_ty initial (p T_struct :: id (bytes "A") :: p T_open_curly :: member_tokens (Plain false (bytes "char") 0 (bytes "c") None) ++ [p T_close_curly; p T_semicolon]) = Some (d1, []) /\
  read_type_decl 100 zero_ty d1 [p T_typedef; id (bytes "int"); id (bytes "A"); p T_semicolon] = Some (d2, []) /\
  read_type_decl 100 zero_ty d2 (p T_struct :: id (bytes "B") :: p T_open_curly :: member_tokens (Plain false (bytes "A") 0 (bytes "a") None) ++ [p T_close_curly; p T_semicolon]) = Some (d3, []) /\
  nth_error (types d3) 6 = Some t /\ t_size t = 1.
Proof. do 4 eexists. split; [vm_compute; reflexivity|]. split; [vm_compute; reflexivity|]. split; [vm_compute; reflexivity|]. repeat split. Qed.
Print Assumptions C35_namespace_refuted.

(** a non-trivial instance: struct node { char tag; struct node *next; int (*cmp)(int, char *); int data[10]; } *)
Definition node : list member :=
  [Plain false (bytes "char") 0 (bytes "tag") None; Plain true (bytes "node") 1 (bytes "next") None;
   FunPtr (bytes "int") 0 (bytes "cmp") [(bytes "int", O); (bytes "char", 1%nat)];
   Plain false (bytes "int") 0 (bytes "data") (Some (Decimal (bytes "10")))].
Example C35_sample : Forall member_fits node /\ Forall2 (has_size (declared_size initial)) node [1; 4; 4; 40] /\
  find_type (types initial) (bytes "node") 2 = None /\ sum [1; 4; 4; 40] = 49.
Proof.
  split; [|split; [|split; reflexivity]].
  - repeat (apply Forall_cons; [cbn; unfold short; cbn; repeat split; try lia; repeat (apply Forall_cons; [unfold short; cbn; lia|]); try apply Forall_nil|]). apply Forall_nil.
  - assert (I4 : declared_size initial (bytes "int") 4) by (exists 2%nat, (builtin "int" TYPE_int 4); repeat split).
    assert (C1 : declared_size initial (bytes "char") 1) by (exists 1%nat, (builtin "char" TYPE_char 1); repeat split).
    apply Forall2_cons; [apply size_type; exact C1|]. apply Forall2_cons; [apply size_ptr; lia|]. apply Forall2_cons; [apply size_fun|].
    apply Forall2_cons; [|apply Forall2_nil]. change 40 with (4 * literal_value (Decimal (bytes "10"))). apply size_array; [apply size_type; exact I4| |reflexivity].
    split; [exists 49, [48]; split; [reflexivity|lia]|]. change (bytes "10") with [49; 48]; repeat (apply Forall_cons; [lia|]). apply Forall_nil.
Qed.

(** ** C36 *)
(** an enumerator: a name and perhaps an explicit value *)
Notation enumerator := (text * option literal)%type.
Definition enumerator_tokens (e : enumerator) : toks :=
  id (fst e) :: match snd e with Some l => [p T_assign; (T_numeric, literal_text l)] | None => [] end.
Fixpoint enum_tokens (es : list enumerator) : toks :=
  match es with
  | [] => []
  | [e] => enumerator_tokens e
  | e :: r => enumerator_tokens e ++ p T_comma :: enum_tokens r
  end.
(** C11 6.7.2.2: the explicit value, or one more than the enumerator before, or 0 for the first ([next]) *)
Fixpoint enum_values (next : Z) (es : list enumerator) : list (text * Z) :=
  match es with
  | [] => []
  | (x, d) :: r => let v := match d with Some l => literal_value l | None => next end in (x, v) :: enum_values (v + 1) r
  end.
(** a lookup finds the first declaration of a name *)
Fixpoint first_value (l : list (text * Z)) (x : text) : option Z :=
  match l with [] => None | (y, v) :: r => if text_eqb y x then Some v else first_value r x end.
Definition enumerator_fits (e : enumerator) : Prop :=
  short (fst e) /\ match snd e with Some l => literal_wf l /\ Z.of_nat (List.length (literal_text l)) < 64 | None => True end.

Lemma acc_num t w r : lex_accept t ((T_numeric, w) :: r) = if token_eqb T_numeric t then Some r else None. Proof. reflexivity. Qed.
Lemma read_enumerators_ok es : forall fuel cs val r, es <> [] -> Forall enumerator_fits es ->
  (List.length es <= fuel)%nat -> (List.length cs + List.length es <= 1024)%nat ->
  Forall (fun q => -2147483648 <= snd q < 2147483648) (enum_values val es) ->
  read_enumerators fuel cs (wrap val) (enum_tokens es ++ p T_close_curly :: r) = Some (cs ++ enum_values val es, p T_close_curly :: r).
Proof.
  induction es as [|[x d] es IH]; intros fuel cs val r N F L B V; [contradiction|].
  inversion F as [|? ? [S1 S2] F']; subst. cbn [List.length] in L, B. destruct fuel as [|fuel]; [lia|].
  cbn [fst snd] in *. unfold short in S1. cbn [enum_values] in V. inversion V as [|? ? V1 V2]; subst. cbn [snd] in V1.
  set (k := match es with [] => p T_close_curly :: r | _ :: _ => p T_comma :: enum_tokens es ++ p T_close_curly :: r end).
  assert (E : enum_tokens ((x, d) :: es) ++ p T_close_curly :: r = id x :: match d with Some l => [p T_assign; (T_numeric, literal_text l)] | None => [] end ++ k).
  { unfold k. destruct es as [|e es]; cbn [enum_tokens enumerator_tokens fst snd app]; [reflexivity|]. rewrite <- app_assoc. reflexivity. }
  rewrite E. cbn [read_enumerators]. rewrite lex_ident_ok by (unfold MAX_ID_LEN; lia).
  set (v := match d with Some l => literal_value l | None => val end) in *.
  match goal with |- match ?X with _ => _ end = _ => assert (E2 : X = Some (v, k)) end.
  { unfold v. destruct d as [l|]; cbn [app].
    - lx. unfold lex_ident. teq. destruct S2 as [Wl Sl]. rewrite strcpy_ok by exact Sl. rewrite C31_constant by exact Wl. rewrite w32_small; [reflexivity|exact V1].
    - unfold k. rewrite w32_small by exact V1. destruct es; lx; reflexivity. }
  rewrite E2. unfold add_constant. replace (Nat.ltb (List.length cs) MAX_CONSTANTS) with true by (symmetry; apply Nat.ltb_lt; unfold MAX_CONSTANTS; lia).
  rewrite strcpy_ok by exact S1. unfold k. destruct es as [|e es].
  - lx. cbn [enum_values]. fold v. reflexivity.
  - lx. cbn [enum_values]. fold v.
    change (iadd v 1) with (wrap (v + 1)).
    rewrite IH; auto; [|discriminate|lia|rewrite app_length; cbn [List.length] in *; lia]. rewrite <- app_assoc. reflexivity.
Qed.
Lemma find_constant_first cs x : find_constant cs x = first_value cs x.
Proof. induction cs as [|[y v] cs IH]; cbn; [reflexivity|]. rewrite IH. reflexivity. Qed.

(** typedef enum { enumerators } NAME; adds the constants with their C values after those declared before; a lookup by name gives
    the first declaration of that name. *)
Theorem C36_enum : forall d es name rest,
  let source := p T_typedef :: p T_enum :: p T_open_curly :: enum_tokens es ++ p T_close_curly :: id name :: p T_semicolon :: rest in
  es <> [] -> short name -> Forall enumerator_fits es -> (List.length (types d) < 64)%nat ->
  (List.length (consts d) + List.length es <= 1024)%nat ->
  Forall (fun q => -2147483648 <= snd q < 2147483648) (enum_values 0 es) ->
  forall fuel, (List.length es <= fuel)%nat -> exists d' t,
    read_type_decl fuel zero_ty d source = Some (d', rest) /\
    types d' = types d ++ [t] /\ t_name t = name /\ t_size t = 4 /\
    consts d' = consts d ++ enum_values 0 es /\
    forall x, find_constant (consts d') x = first_value (consts d ++ enum_values 0 es) x.
Proof.
  intros d es name rest source N S0 F T B V fuel L. unfold source, read_type_decl. lx. unfold read_enum, add_type.
  replace (Nat.ltb (List.length (types d)) MAX_TYPES) with true by (symmetry; apply Nat.ltb_lt; exact T). lx.
  change 0 with (wrap 0) at 1. rewrite read_enumerators_ok by assumption. lx. unfold short in S0. rewrite lex_ident_ok by (unfold MAX_ID_LEN; lia).
  rewrite strcpy_ok by exact S0. rewrite exp_p; teq. rewrite set_app. do 2 eexists. split; [reflexivity|]. repeat split.
Qed.
Print Assumptions C36_enum.

(** Not accepted, though valid C: negative values, enumerations without typedef, a comma after the last enumerator. *)
Theorem C36_rejected_refuted : forall source, In source
  [ [p T_typedef; p T_enum; p T_open_curly; id (bytes "A"); p T_assign; p T_minus; (T_numeric, bytes "1"); p T_close_curly; id (bytes "E"); p T_semicolon];
    [p T_enum; p T_open_curly; id (bytes "A"); p T_close_curly; p T_semicolon];
    [p T_typedef; p T_enum; p T_open_curly; id (bytes "A"); p T_comma; p T_close_curly; id (bytes "E"); p T_semicolon] ] ->
  forall fuel, read_type_decl fuel zero_ty initial source = None.
Proof.
  intros source H fuel. do 3 (destruct fuel as [|fuel]; [repeat destruct H as [<-|H]; try contradiction; vm_compute; reflexivity|]).
  repeat destruct H as [<-|H]; try contradiction; vm_compute; reflexivity.
Qed.
Print Assumptions C36_rejected_refuted.

(** a non-trivial instance: typedef enum { A, B, C = 0x10, D, A } E; *)
Definition enum_sample : list enumerator :=
  [(bytes "A", None); (bytes "B", None); (bytes "C", Some (Hex (bytes "10"))); (bytes "D", None); (bytes "A", None)].
Example C36_sample : Forall enumerator_fits enum_sample /\ map snd (enum_values 0 enum_sample) = [0; 1; 16; 17; 18] /\
  first_value (enum_values 0 enum_sample) (bytes "A") = Some 0.
Proof.
  split; [|split; reflexivity].
  repeat (apply Forall_cons; [split; [unfold short; cbn; lia|cbn; try exact I]|]); try apply Forall_nil.
  split; [split; [discriminate|]|lia]. change (bytes "10") with [49; 48]. repeat (apply Forall_cons; [lia|]). apply Forall_nil.
Qed.
