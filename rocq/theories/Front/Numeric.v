(** Integer literals (src/parser.c), and what they mean in C. *)
From Verif.Base Require Export Int32.
From Verif.Front Require Export Lexer.
Open Scope Z_scope.

(** ** Model *)
(* src/parser.c:169-177, the loop over the digits after 0x *)
Definition hex_digit_step (value c : Z) : Z :=
  let value := imul value 16 in
  let value := if is_digit c then iadd value (c - 48) else value in
  let c := Z.lor c 32 in
  if (97 <=? c) && (c <=? 102) then iadd value ((c - 97) + 10) else value.
(* src/parser.c:162-187 read_numeric_constant; [first] is buffer[0], [i] the index, the text ends at its terminator *)
Fixpoint numeric_loop (first : Z) (i : Z) (value : Z) (s : text) : Z :=
  match s with
  | [] => value
  | c :: r =>
      if (i =? 1) && (c =? 120) then fold_left hex_digit_step r 0
      else if first =? 48 then numeric_loop first (i + 1) (isub (iadd (imul value 8) c) 48) r
      else numeric_loop first (i + 1) (isub (iadd (imul value 10) c) 48) r
  end.
Definition read_numeric_constant (buffer : text) : Z := numeric_loop (hd 0 buffer) 0 0 buffer.

(* src/parser.c:638-652: one hexadecimal digit; None = error("Invalid numeric constant") *)
Definition param_hex_digit (c : Z) : option Z :=
  if is_digit c then Some (c - 48)
  else let c := Z.lor c 32 in if (97 <=? c) && (c <=? 102) then Some ((c - 97) + 10) else None.
Definition param_oct_digit (c : Z) : option Z := if 55 <? c then None else Some (c - 48).
Definition param_dec_digit (c : Z) : option Z := Some (c - 48).
(* the do-while loops of src/parser.c:638-652, 654-660 and 663-666: reading stops at the first
   character (or the terminator) the condition rejects, but never before the first one *)
Fixpoint param_loop (digit : Z -> option Z) (more : Z -> bool) (base : Z) (value : Z) (s : text) : option Z :=
  match s with
  | [] => match digit 0 with Some d => Some (iadd (imul value base) d) | None => None end
  | c :: r =>
      match digit c with
      | None => None
      | Some d => let value := iadd (imul value base) d in
                  match r with
                  | [] => Some value
                  | c' :: _ => if more c' then param_loop digit more base value r else Some value
                  end
      end
  end.
(* src/parser.c:623-679 read_numeric_param: the constant loaded by the generated instruction *)
Definition read_numeric_param (token : text) (is_neg : bool) : option Z :=
  let '(is_neg, rest) := if hd 0 token =? 45 then (negb is_neg, tl token) else (is_neg, token) in
  let v := if hd 0 token =? 48 then
             if hd 0 (tl token) =? 120 then param_loop param_hex_digit is_hex 16 0 (tl (tl token))
             else param_loop param_oct_digit is_digit 8 0 rest
           else param_loop param_dec_digit is_digit 10 0 rest in
  match v with Some value => Some (if is_neg then ineg value else value) | None => None end.

(** ** Specification (ISO C 6.4.4.1) *)
Definition digit_value (c : Z) : Z :=
  if (48 <=? c) && (c <=? 57) then c - 48 else if (97 <=? c) && (c <=? 102) then c - 87 else c - 55.
(** positional notation: the leading digit counts base^(number of digits after it) *)
Fixpoint number (base : Z) (ds : text) : Z :=
  match ds with [] => 0 | d :: r => digit_value d * base ^ Z.of_nat (length r) + number base r end.
Inductive literal :=
| Decimal (ds : text)   (* 1-9 then digits *)
| Octal (ds : text)     (* 0 then octal digits *)
| Hex (ds : text).      (* 0x then hexadecimal digits *)
Definition literal_text (l : literal) : text :=
  match l with Decimal ds => ds | Octal ds => 48 :: ds | Hex ds => 48 :: 120 :: ds end.
Definition literal_value (l : literal) : Z :=
  match l with Decimal ds => number 10 ds | Octal ds => number 8 ds | Hex ds => number 16 ds end.
Definition literal_wf (l : literal) : Prop :=
  match l with
  | Decimal ds => (exists d r, ds = d :: r /\ 49 <= d <= 57) /\ Forall (fun c => 48 <= c <= 57) ds
  | Octal ds => Forall (fun c => 48 <= c <= 55) ds
  | Hex ds => ds <> [] /\ Forall (fun c => 48 <= c <= 57 \/ 97 <= c <= 102 \/ 65 <= c <= 70) ds
  end.

(** ** Proofs *)
Lemma wrap_mul_add v b d : wrap (wrap (wrap v * b) + d) = wrap (v * b + d).
Proof.
  apply wrap_eq. unfold wrap.
  destruct (s32_mod (s32 v * b)) as [k ->]. destruct (s32_mod v) as [j ->]. unfold w32.
  replace ((v + j * 4294967296) * b + k * 4294967296 + d) with (v * b + d + (j * b + k) * 4294967296) by ring.
  apply Z_mod_plus_full.
Qed.

Fixpoint horner (base : Z) (v : Z) (ds : text) : Z :=
  match ds with [] => v | d :: r => horner base (v * base + digit_value d) r end.
Lemma horner_number base ds : forall v, horner base v ds = v * base ^ Z.of_nat (length ds) + number base ds.
Proof.
  induction ds as [|d r IH]; intros v; cbn [horner number length]; [cbn; lia|].
  rewrite IH, Nat2Z.inj_succ, Z.pow_succ_r by lia. ring.
Qed.

Lemma lor32_upper c : 65 <= c <= 70 -> Z.lor c 32 = c + 32.
Proof. intros H. assert (c = 65 \/ c = 66 \/ c = 67 \/ c = 68 \/ c = 69 \/ c = 70) as D by lia. repeat destruct D as [->|D]; try subst c; reflexivity. Qed.
Lemma lor32_lower c : 97 <= c <= 102 -> Z.lor c 32 = c.
Proof. intros H. assert (c = 97 \/ c = 98 \/ c = 99 \/ c = 100 \/ c = 101 \/ c = 102) as D by lia. repeat destruct D as [->|D]; try subst c; reflexivity. Qed.
Lemma lor32_digit c : 48 <= c <= 57 -> Z.lor c 32 = c.
Proof. intros H. assert (c = 48 \/ c = 49 \/ c = 50 \/ c = 51 \/ c = 52 \/ c = 53 \/ c = 54 \/ c = 55 \/ c = 56 \/ c = 57) as D by lia. repeat destruct D as [->|D]; try subst c; reflexivity. Qed.
Definition hexch c := 48 <= c <= 57 \/ 97 <= c <= 102 \/ 65 <= c <= 70.
Lemma hex_step v c : hexch c -> hex_digit_step (wrap v) c = wrap (v * 16 + digit_value c).
Proof.
  intros H. unfold hex_digit_step, digit_value, is_digit, iadd, imul.
  destruct H as [H|[H|H]].
  - rewrite lor32_digit by lia. rewrite (proj2 (andb_true_iff (48 <=? c) (c <=? 57))) by lia.
    replace ((97 <=? c) && (c <=? 102)) with false by lia. apply wrap_mul_add.
  - rewrite lor32_lower by lia. replace ((48 <=? c) && (c <=? 57)) with false by lia.
    rewrite (proj2 (andb_true_iff (97 <=? c) (c <=? 102))) by lia. rewrite wrap_mul_add. f_equal. lia.
  - rewrite lor32_upper by lia. replace ((48 <=? c) && (c <=? 57)) with false by lia.
    replace ((97 <=? c) && (c <=? 102)) with false by lia. replace ((97 <=? c + 32) && (c + 32 <=? 102)) with true by lia.
    rewrite wrap_mul_add. f_equal. lia.
Qed.
Lemma hex_fold ds : Forall hexch ds -> forall v, fold_left hex_digit_step ds (wrap v) = wrap (horner 16 v ds).
Proof. induction 1 as [|c r H F IH]; intros v; [reflexivity|]. cbn [fold_left horner]. rewrite hex_step by exact H. apply IH. Qed.
Lemma dec_value c : 48 <= c <= 57 -> digit_value c = c - 48.
Proof. intros. unfold digit_value. replace ((48 <=? c) && (c <=? 57)) with true by lia. reflexivity. Qed.
Lemma dec_step v b c : 48 <= c <= 57 -> isub (iadd (imul (wrap v) b) c) 48 = wrap (v * b + digit_value c).
Proof.
  intros H. rewrite dec_value by exact H. unfold isub, iadd, imul. rewrite wrap_mul_add.
  apply wrap_eq. unfold wrap. destruct (s32_mod (v * b + c)) as [k ->]. unfold w32.
  replace (v * b + c + k * 4294967296 - 48) with (v * b + (c - 48) + k * 4294967296) by ring. apply Z_mod_plus_full.
Qed.
Lemma numeric_digits f b ds : (if f =? 48 then 8 else 10) = b -> Forall (fun c => 48 <= c <= 57) ds ->
  forall i v, numeric_loop f i (wrap v) ds = wrap (horner b v ds).
Proof.
  intros Eb. induction 1 as [|c r H F IH]; intros i v; [reflexivity|].
  cbn [numeric_loop horner]. replace ((i =? 1) && (c =? 120)) with false by lia.
  destruct (f =? 48); subst b; rewrite dec_step by exact H; apply IH.
Qed.

Lemma param_digits digit more b ds :
  ds <> [] ->
  Forall (fun c => digit c = Some (digit_value c) /\ more c = true) ds ->
  forall v, param_loop digit more b (wrap v) ds = Some (wrap (horner b v ds)).
Proof.
  intros N F. induction F as [|c r [H1 H2] F IH]; intros v; [contradiction|].
  cbn [param_loop horner]. rewrite H1. unfold iadd, imul. rewrite wrap_mul_add.
  destruct r as [|c' r']; [reflexivity|]. rewrite (proj2 (Forall_inv F)). apply IH. discriminate.
Qed.
