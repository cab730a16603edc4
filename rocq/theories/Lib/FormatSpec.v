(** Specification of numerals and of the printf directives of the embedded libc. *)
From Verif.Lib Require Export CMem.

(** A digit sequence (most significant first), its value, and when it is the canonical
    numeral of a number: digits below the base, no superfluous leading zero. *)
Definition value (b : Z) (ds : list Z) : Z := fold_left (fun acc d => acc * b + d) ds 0.
Definition numeral (b : Z) (ds : list Z) (n : Z) : Prop :=
  Forall (fun d => 0 <= d < b) ds /\ value b ds = n /\ (ds = [0] \/ 0 < hd 0 ds).
Definition digit_char (d : Z) : Z := if d <? 10 then 48 + d else 97 + d - 10.   (* 0..9 a..f *)

(** the canonical numeral as a function ([numeral_digits], [numeral_unique] below) *)
Fixpoint digits_fuel (k : nat) (b n : Z) : list Z :=
  match k with
  | O => [n]
  | S k => if n <? b then [n] else digits_fuel k b (n / b) ++ [n mod b]
  end.
Definition digits (b n : Z) : list Z := digits_fuel 32 b n.

(** A field: prefix (sign or 0 / 0x), digits, minimum width, zero flag. *)
Definition field (zero : bool) (w : Z) (prefix body : list Z) : list Z :=
  let fill := repeat (if zero then 48 else 32) (Z.to_nat (w - zlen prefix - zlen body)) in
  if zero then prefix ++ fill ++ body else fill ++ prefix ++ body.

Inductive base := Oct | Dec | Hex.
Definition base_num (k : base) : Z := match k with Oct => 8 | Dec => 10 | Hex => 16 end.
(** what is printed: %d the signed value, %o and %x the unsigned one *)
Definition magnitude (k : base) (v : Z) : Z := match k with Dec => Z.abs v | _ => w32 v end.
Definition prefix_of (k : base) (alt : bool) (v : Z) : list Z :=
  match k with
  | Dec => if v <? 0 then [45] else []
  | Oct => if alt && negb (v =? 0) then [48] else []
  | Hex => if alt && negb (v =? 0) then [48; 120] else []
  end.
Definition number_text (k : base) (alt zero : bool) (w v : Z) : list Z :=
  field zero w (prefix_of k alt v) (map digit_char (digits (base_num k) (magnitude k v))).

(** Format strings: characters, %% and conversions. *)
Inductive dir :=
| Lit (c : Z)
| Percent
| Str
| Chr
| Num (k : base) (alt zero : bool) (w : Z).     (* w = 0: no width *)

Definition dir_text (d : dir) : list Z :=
  match d with
  | Lit c => [c]
  | Percent => [37; 37]
  | Str => [37; 115]
  | Chr => [37; 99]
  | Num k alt zero w =>
      37 :: (if alt then [35] else []) ++ (if zero then [48] else []) ++
      (if w =? 0 then [] else map digit_char (digits 10 w)) ++
      [match k with Oct => 111 | Dec => 100 | Hex => 120 end]
  end.
Definition format_text (ds : list dir) : list Z := concat (map dir_text ds).
Definition dir_ok (d : dir) : Prop :=
  match d with Lit c => 0 < c < 256 /\ c <> 37 | Num _ _ _ w => 0 <= w < 2147483648 | _ => True end.

(** the text a directive produces for the argument [v]; [strs v] is the string at [v] *)
Definition piece (strs : Z -> list Z) (d : dir) (v : Z) : list Z :=
  match d with
  | Lit c => [c]
  | Percent => [37]
  | Str => strs v
  | Chr => [v mod 256]
  | Num k alt zero w => number_text k alt zero w v
  end.
Definition takes_arg (d : dir) : bool := match d with Lit _ | Percent => false | _ => true end.
(** the whole output: each conversion takes the next argument *)
Fixpoint output (strs : Z -> list Z) (args : Z -> Z) (i : Z) (ds : list dir) : list Z :=
  match ds with
  | [] => []
  | d :: r => piece strs d (args i) ++ output strs args (if takes_arg d then i + 1 else i) r
  end.

(** *** [digits] is the canonical numeral, and there is only one *)
Lemma value_app b s t : value b (s ++ t) = value b s * b ^ zlen t + value b t.
Proof.
  unfold value. rewrite fold_left_app. generalize (fold_left (fun acc d => acc * b + d) s 0) as x.
  induction t as [|d t IH] using rev_ind; intros x.
  - cbn. change (zlen []) with 0. lia.
  - rewrite !fold_left_app. cbn [fold_left]. rewrite IH, zlen_app. change (zlen [d]) with 1.
    rewrite Z.pow_add_r by (pose proof (zlen_nonneg t); lia). lia.
Qed.
Lemma value_snoc b s d : value b (s ++ [d]) = value b s * b + d.
Proof. rewrite value_app. change (zlen [d]) with 1. change (value b [d]) with (0 * b + d). rewrite Z.pow_1_r. lia. Qed.

Lemma value_range b ds : 1 < b -> Forall (fun d => 0 <= d < b) ds -> 0 <= value b ds < b ^ zlen ds.
Proof.
  intros Hb. induction ds as [|d ds IH] using rev_ind; intros F.
  - cbn. lia.
  - apply Forall_app in F. destruct F as [F1 F2]. inversion F2; subst. specialize (IH F1).
    rewrite value_snoc, zlen_app. change (zlen [d]) with 1.
    rewrite Z.pow_add_r by (pose proof (zlen_nonneg ds); lia). rewrite Z.pow_1_r. nia.
Qed.

Lemma digits_fuel_numeral : forall k b n, 1 < b -> 0 <= n < b ^ (Z.of_nat k + 1) ->
  numeral b (digits_fuel k b n) n.
Proof.
  induction k as [|k IH]; intros b n Hb Hn.
  - cbn [digits_fuel]. replace (Z.of_nat 0 + 1) with 1 in Hn by lia. rewrite Z.pow_1_r in Hn.
    split; [constructor; [lia|constructor]|]. split; [cbn; lia|]. cbn. destruct (Z.eq_dec n 0) as [->|]; [left; reflexivity|right; lia].
  - cbn [digits_fuel]. destruct (Z.ltb_spec n b).
    + split; [constructor; [lia|constructor]|]. split; [cbn; lia|]. cbn. destruct (Z.eq_dec n 0) as [->|]; [left; reflexivity|right; lia].
    + assert (Hq : 0 <= n / b < b ^ (Z.of_nat k + 1)).
      { replace (Z.of_nat (S k) + 1) with (Z.succ (Z.of_nat k + 1)) in Hn by lia. rewrite Z.pow_succ_r in Hn by lia.
        split; [apply Z.div_pos; lia|]. apply Z.div_lt_upper_bound; lia. }
      destruct (IH b (n / b) Hb Hq) as (F & V & L). split; [|split].
      * apply Forall_app. split; [exact F|]. constructor; [apply Z.mod_pos_bound; lia|constructor].
      * rewrite value_snoc, V. pose proof (Z.div_mod n b ltac:(lia)). lia.
      * right. assert (0 < n / b) by (apply Z.div_str_pos; lia).
        destruct L as [L|L]; [rewrite L in V; cbn in V; lia|].
        destruct (digits_fuel k b (n / b)); [cbn in L; lia|exact L].
Qed.

Theorem numeral_digits : forall b n, 1 < b -> 0 <= n < 4294967296 -> numeral b (digits b n) n.
Proof.
  intros b n Hb Hn. apply digits_fuel_numeral; [exact Hb|]. split; [lia|].
  apply Z.lt_le_trans with (2 ^ 32); [lia|]. apply Z.le_trans with (b ^ 32); [apply Z.pow_le_mono_l; lia|].
  apply Z.pow_le_mono_r; lia.
Qed.

Lemma numeral_unique_aux b : 1 < b -> forall ds n, Forall (fun d => 0 <= d < b) ds -> value b ds = n -> (ds = [] \/ 0 < hd 0 ds) ->
  forall es, Forall (fun d => 0 <= d < b) es -> value b es = n -> (es = [] \/ 0 < hd 0 es) -> ds = es.
Proof.
  intros Hb. assert (P : forall ds, Forall (fun d => 0 <= d < b) ds -> (ds = [] \/ 0 < hd 0 ds) -> value b ds = 0 -> ds = []).
  { intros ds F L V. destruct ds as [|d ds]; [reflexivity|]. destruct L as [L|L]; [discriminate|]. cbn in L.
    change (d :: ds) with ([d] ++ ds) in V. rewrite value_app in V. inversion F; subst.
    pose proof (value_range b ds Hb H2). change (value b [d]) with (0 * b + d) in V.
    pose proof (Z.pow_pos_nonneg b (zlen ds) ltac:(lia) (zlen_nonneg ds)). nia. }
  induction ds as [|d ds IH] using rev_ind; intros n F V L es F' V' L'.
  - cbn in V. symmetry. apply P; auto. lia.
  - destruct es as [|e es _] using rev_ind.
    + cbn in V'. apply P; auto. lia.
    + rewrite value_snoc in V, V'. apply Forall_app in F, F'. destruct F as [F1 F2], F' as [F1' F2'].
      inversion F2; inversion F2'; subst. assert (d = e /\ value b ds = value b es) as [-> E].
      { destruct (Z.div_mod_unique b (value b ds) (value b es) d e) as [A B]; [left; lia|left; lia|lia|]. auto. }
      f_equal. eapply IH; eauto.
      * destruct ds; [left; reflexivity|]. destruct L as [L|L]; [discriminate|right; exact L].
      * destruct es; [left; reflexivity|]. destruct L' as [L'|L']; [discriminate|right; exact L'].
Qed.

Theorem numeral_unique : forall b ds es n, 1 < b -> numeral b ds n -> numeral b es n -> ds = es.
Proof.
  intros b ds es n Hb (F & V & L) (F' & V' & L').
  destruct (Z.eq_dec n 0) as [->|N].
  - assert (Z1 : forall ds, Forall (fun d => 0 <= d < b) ds -> value b ds = 0 -> (ds = [0] \/ 0 < hd 0 ds) -> ds = [0]).
    { clear - Hb. intros ds F V [L|L]; [exact L|]. exfalso.
      assert (ds = []). { eapply (numeral_unique_aux b Hb ds 0 F V (or_intror L) []); auto. } subst ds. cbn in L. lia. }
    rewrite (Z1 ds), (Z1 es); auto.
  - eapply numeral_unique_aux; eauto.
    + right. destruct L as [->|L]; [cbn in V; lia|exact L].
    + right. destruct L' as [->|L']; [cbn in V'; lia|exact L'].
Qed.
