(** C51: files are read and written byte for byte (lib/c.c fopen, fgets, fputc; src/elf.c, src/parser.c load_source_file). *)
From Verif.Lib Require Import CMem LibcFile.
Open Scope Z_scope.

(** *** Specification (ISO C 7.19) *)
(** [l] is what fgets takes from [s] when there is room for [k] characters: the longest part at the front of [s] of at most [k]
    characters with no newline in it but at its end *)
Definition is_line (k : Z) (s l : list Z) : Prop :=
  exists t, s = l ++ t /\ zlen l <= k /\ (forall a b, l = a ++ 10 :: b -> b = []) /\
    (zlen l = k \/ t = [] \/ exists a, l = a ++ [10]).
(** the file behind [fd] is open for reading (writing), is called [name], has the bytes [c]; the offset is [p] *)
Definition reading (o : os) (fd : Z) (name c : list Z) (p : nat) : Prop := opened o fd = Some (mkfile name p false) /\ disk o name = Some c.
Definition writing (o : os) (fd : Z) (name c : list Z) (p : nat) : Prop := opened o fd = Some (mkfile name p true) /\ disk o name = Some c.
(** nothing but the file number [fd] has changed *)
Definition others (o o' : os) (fd : Z) : Prop := forall x, x <> fd -> opened o' x = opened o x.

(** *** Proof *)
Lemma skipn_nth {A} (c : list A) p : match nth_error c p with Some b => skipn p c = b :: skipn (S p) c | None => skipn p c = [] end.
Proof. revert p. induction c as [|a c IH]; intros [|p]; cbn; auto. apply IH. Qed.

Lemma line_nil k s : k = 0 \/ s = [] -> 0 <= k -> is_line k s [].
Proof.
  intros H K. exists s. split; [reflexivity|]. rewrite zlen_nil. split; [exact K|]. split; [intros a b E; destruct a; discriminate|].
  destruct H; [left; lia|right; left; assumption].
Qed.
Lemma line_newline k s : 1 <= k -> is_line k (10 :: s) [10].
Proof.
  intros K. exists s. split; [reflexivity|]. rewrite zlen_cons, zlen_nil. split; [lia|]. split; [|right; right; exists []; reflexivity].
  intros a b E. destruct a as [|x [|y a]]; cbn in E; congruence.
Qed.
Lemma line_cons k c s l : c <> 10 -> is_line (k - 1) s l -> is_line k (c :: s) (c :: l).
Proof.
  intros N (t & E & L & H & D). exists t. rewrite zlen_cons. split; [cbn; congruence|]. split; [lia|]. split.
  - intros a b Q. destruct a as [|x a]; cbn in Q; [injection Q as Q _; contradiction|]. injection Q as _ Q. exact (H a b Q).
  - destruct D as [D|[D|[a D]]]; [left; lia|right; left; exact D|right; right; exists (c :: a); cbn; congruence].
Qed.

Lemma read1_ok o fd name c p : reading o fd name c p ->
  match skipn p c with
  | [] => sys_read1 fd o = (0, 0, o)
  | b :: _ => exists o', sys_read1 fd o = (1, b, o') /\ reading o' fd name c (S p) /\ disk o' = disk o /\ others o o' fd
  end.
Proof.
  intros [A B]. unfold sys_read1. rewrite A. cbn [f_write f_name f_pos]. rewrite B. pose proof (skipn_nth c p) as H.
  destruct (nth_error c p) as [b|]; rewrite H; [|reflexivity]. eexists. split; [reflexivity|]. cbn [disk set_open]. split; [|split; [reflexivity|]].
  - split; [cbn; rewrite Z.eqb_refl; reflexivity|exact B].
  - intros x N. cbn. destruct (Z.eqb_spec x fd); [contradiction|reflexivity].
Qed.

Lemma skipn_S {A} p (c : list A) b r : skipn p c = b :: r -> skipn (S p) c = r.
Proof. pose proof (skipn_nth c p) as H. destruct (nth_error c p); rewrite H; intros E; congruence. Qed.

Lemma loop_ok str n fd name c h0 : 0 < n < 2147483648 -> accessible h0 str n ->
  forall rest pre fuel h o p, reading o fd name c p -> skipn p c = rest -> Forall is_byte rest -> zlen pre <= n - 1 ->
  (Z.to_nat (n - zlen pre) <= fuel)%nat -> (forall x, h x = blit h0 str pre x) ->
  exists l r h' o', fgets_loop fuel str n fd (zlen pre) (h, o) = Some (r, (h', o')) /\ is_line (n - 1 - zlen pre) rest l /\
    reading o' fd name c (p + length l) /\ disk o' = disk o /\ others o o' fd /\
    (rest = [] -> pre = [] -> 1 < n -> r = 0 /\ h' = h) /\
    (rest <> [] \/ pre <> [] \/ n = 1 -> r = str /\ forall x, h' x = blit h0 str (pre ++ l ++ [0]) x).
Proof.
  intros Hn Acc. induction rest as [|b rest IH]; intros pre fuel h o p R Sk Bs Lp Hf Hh.
  all: pose proof (zlen_nonneg pre) as P0; destruct fuel as [|fuel]; [lia|]; cbn [fgets_loop].
  all: assert (Ac : h (str + zlen pre) <> None) by (rewrite Hh, blit_out by lia; apply Acc; lia).
  - pose proof (read1_ok _ _ _ _ _ R) as Rd. rewrite Sk in Rd. destruct (Z.ltb_spec (zlen pre) (n - 1)) as [Lt|Ge].
    + unfold fbind, fgetc at 1. cbn [snd fst]. rewrite Rd. cbn [Z.ltb Z.compare]. rewrite Z.eqb_refl. destruct (Z.eqb_spec (zlen pre) 0) as [Z0|Z0].
      * assert (pre = []) as -> by (destruct pre; [reflexivity|rewrite zlen_cons in Z0; pose proof (zlen_nonneg pre); lia]).
        exists [], 0, h, o. unfold fret. rewrite Nat.add_0_r. repeat (split; [first [reflexivity|assumption|apply line_nil; [right; reflexivity|lia]|intros ? ?; reflexivity|intros; split; reflexivity]|]).
        intros [N|[N|N]]; [congruence|congruence|lia].
      * unfold fstore. cbn [fst snd]. rewrite store_ok by exact Ac. unfold fret. exists [], str, (CMem.upd h (str + zlen pre) 0), o. rewrite Nat.add_0_r.
        split; [reflexivity|]. split; [apply line_nil; [right; reflexivity|lia]|]. split; [exact R|]. split; [reflexivity|]. split; [intros ? ?; reflexivity|].
        split; [intros _ -> _; rewrite zlen_nil in Z0; lia|]. intros _. split; [reflexivity|]. intros x. cbn [app].
        rewrite (upd_ext _ _ _ _ _ Hh). apply blit_snoc. unfold is_byte. lia.
    + unfold fbind, fstore. cbn [fst snd]. rewrite store_ok by exact Ac. unfold fret. exists [], str, (CMem.upd h (str + zlen pre) 0), o. rewrite Nat.add_0_r.
      split; [reflexivity|]. split; [apply line_nil; [right; reflexivity|lia]|]. split; [exact R|]. split; [reflexivity|]. split; [intros ? ?; reflexivity|].
      split; [intros _ -> K; rewrite zlen_nil in Ge; lia|]. intros _. split; [reflexivity|]. intros x. cbn [app].
      rewrite (upd_ext _ _ _ _ _ Hh). apply blit_snoc. unfold is_byte. lia.
  - pose proof (read1_ok _ _ _ _ _ R) as Rd. rewrite Sk in Rd. destruct Rd as (o1 & Rd & R1 & D1 & O1). apply skipn_S in Sk.
    inversion Bs as [|? ? Bb Bs']; subst. destruct (Z.ltb_spec (zlen pre) (n - 1)) as [Lt|Ge].
    + unfold fbind at 1. unfold fgetc at 1. cbn [snd fst]. rewrite Rd. change (1 <? 1) with false. cbv iota.
      destruct (Z.eqb_spec b (-1)) as [->|_]; [unfold is_byte in Bb; lia|].
      assert (Hh1 : forall x, CMem.upd h (str + zlen pre) b x = blit h0 str (pre ++ [b]) x) by (intros x; rewrite (upd_ext _ _ _ _ _ Hh); apply blit_snoc; exact Bb).
      unfold fbind at 1. unfold fstore at 1. cbn [fst snd]. rewrite store_ok by exact Ac.
      destruct (Z.eqb_spec b 10) as [->|N10].
      * unfold fbind, fstore. cbn [fst snd].
        assert (Ac1 : CMem.upd h (str + zlen pre) 10 (str + zlen pre + 1) <> None) by (rewrite Hh1, blit_out by (rewrite zlen_app, zlen_cons, zlen_nil; lia); replace (str + zlen pre + 1) with (str + (zlen pre + 1)) by lia; apply Acc; lia).
        rewrite store_ok by exact Ac1. unfold fret. eexists [10], str, _, o1. split; [reflexivity|]. split; [apply line_newline; lia|].
        split; [cbn [length]; rewrite Nat.add_1_r; exact R1|]. split; [exact D1|]. split; [exact O1|]. split; [discriminate|]. intros _. split; [reflexivity|]. intros x.
        rewrite (upd_ext _ _ _ _ _ Hh1). replace (str + zlen pre + 1) with (str + zlen (pre ++ [10])) by (rewrite zlen_app, zlen_cons, zlen_nil; lia).
        rewrite blit_snoc by (unfold is_byte; lia). rewrite <- app_assoc. reflexivity.
      * replace (iadd (zlen pre) 1) with (zlen (pre ++ [b])) by (rewrite zlen_app, zlen_cons, zlen_nil; symmetry; apply wrap_id; unfold is_i32; lia).
        destruct (IH (pre ++ [b]) fuel (CMem.upd h (str + zlen pre) b) o1 (S p) R1 eq_refl Bs') as (l & r & h' & o' & E & Li & R' & D' & O' & _ & Wr); [rewrite zlen_app, zlen_cons, zlen_nil; lia|rewrite zlen_app, zlen_cons, zlen_nil; lia|exact Hh1|].
        exists (b :: l), r, h', o'. split; [exact E|]. split; [apply line_cons; [exact N10|]; replace (n - 1 - zlen pre - 1) with (n - 1 - zlen (pre ++ [b])) by (rewrite zlen_app, zlen_cons, zlen_nil; lia); exact Li|].
        split; [cbn [length]; replace (p + S (length l))%nat with (S p + length l)%nat by lia; exact R'|]. split; [congruence|]. split; [intros x Nx; rewrite O' by exact Nx; apply O1; exact Nx|].
        split; [discriminate|]. intros _. destruct Wr as [-> Wr]; [right; left; destruct pre; discriminate|]. split; [reflexivity|]. intros x. rewrite Wr, <- app_assoc. reflexivity.
    + unfold fbind, fstore. cbn [fst snd]. rewrite store_ok by exact Ac. unfold fret. exists [], str, (CMem.upd h (str + zlen pre) 0), o. rewrite Nat.add_0_r.
      split; [reflexivity|]. split; [apply line_nil; [left; lia|lia]|]. split; [exact R|]. split; [reflexivity|]. split; [intros ? ?; reflexivity|].
      split; [discriminate|]. intros _. split; [reflexivity|]. intros x. cbn [app].
      rewrite (upd_ext _ _ _ _ _ Hh). apply blit_snoc. unfold is_byte. lia.
Qed.

(** fgets, for a buffer of any size and any bytes in the file: at the end of the file nothing happens and the result is NULL;
    otherwise the buffer holds the next line, or as much of it as fits, and a zero, nothing else in memory is touched, and exactly
    these bytes have been read *)
Theorem C51_fgets : forall fuel str n fd name c p h o,
  0 < n < 2147483648 -> (Z.to_nat n <= fuel)%nat -> accessible h str n -> reading o fd name c p -> Forall is_byte c ->
  exists l r h' o', fgets fuel str n fd (h, o) = Some (r, (h', o')) /\ is_line (n - 1) (skipn p c) l /\
    reading o' fd name c (p + length l) /\ disk o' = disk o /\ others o o' fd /\
    (skipn p c = [] -> 1 < n -> r = 0 /\ h' = h) /\
    (skipn p c <> [] \/ n = 1 -> r = str /\ forall x, h' x = blit h str (l ++ [0]) x).
Proof.
  intros fuel str n fd name c p h o Hn Hf Ac R Bs. unfold fgets.
  destruct (loop_ok str n fd name c h Hn Ac (skipn p c) [] fuel h o p R eq_refl) as (l & r & h' & o' & E & Li & R' & D & O & Z0 & Wr).
  - rewrite Forall_forall in *. intros x Hx. apply Bs. rewrite <- (firstn_skipn p c). apply in_or_app. right. exact Hx.
  - rewrite zlen_nil. lia.
  - rewrite zlen_nil. lia.
  - intros x. rewrite blit_nil. reflexivity.
  - change (zlen []) with 0 in *. rewrite Z.sub_0_r in Li. exists l, r, h', o'. repeat (split; [assumption|]). split; [intros S N; apply Z0; auto|].
    intros [N|N]; apply Wr; auto.
Qed.
Print Assumptions C51_fgets.

Lemma string_at_ok l : forall fuel h a, text l -> (length l < fuel)%nat -> bytes_at h a (l ++ [0]) -> string_at fuel h a = l.
Proof.
  induction l as [|b l IH]; intros fuel h a T L B; (destruct fuel as [|fuel]; [cbn in L; lia|]); cbn [string_at app] in *; apply bytes_at_cons in B; destruct B as [B0 B]; rewrite B0.
  - reflexivity.
  - inversion T; subst. destruct (Z.eqb_spec b 0); [lia|]. f_equal. apply IH; auto. cbn in L. lia.
Qed.
Lemma text_bytes l : text l -> Forall is_byte l.
Proof. unfold text. apply Forall_impl. unfold is_byte. intros; lia. Qed.
Lemma text_skipn p l : text l -> text (skipn p l).
Proof. unfold text. rewrite !Forall_forall. intros H x Hx. apply H. rewrite <- (firstn_skipn p l). apply in_or_app. auto. Qed.
Lemma skipn_skipn_add {A} (c : list A) p q : skipn q (skipn p c) = skipn (p + q) c.
Proof. revert c. induction p as [|p IH]; intros c; [reflexivity|]. destruct c; cbn [skipn plus]; [destruct q; reflexivity|apply IH]. Qed.

(** reading a file to its end with fgets, with a buffer of any size: the strings delivered, one after the other, are what is left
    of the file *)
Theorem C51_read_all : forall buffer n fd name c, 1 < n < 2147483648 -> buffer <> 0 -> text c ->
  forall fuel p h o, accessible h buffer n -> reading o fd name c p -> (length (skipn p c) < fuel)%nat ->
  exists ls h' o', read_all fuel buffer n fd (h, o) = Some (ls, (h', o')) /\ concat ls = skipn p c /\ Forall (fun l => exists s, is_line (n - 1) s l) ls /\
    accessible h' buffer n /\ (forall x, x < buffer \/ buffer + n <= x -> h' x = h x) /\ disk o' = disk o /\ others o o' fd.
Proof.
  intros buffer n fd name c Hn Nb T. induction fuel as [|fuel IH]; intros p h o Ac R L; [lia|]. cbn [read_all].
  destruct (C51_fgets (Z.to_nat n) buffer n fd name c p h o ltac:(lia) ltac:(lia) Ac R (text_bytes c T)) as (l & r & h1 & o1 & E & Li & R1 & D1 & O1 & Z0 & Wr).
  unfold fbind at 1. rewrite E. destruct (skipn p c) as [|b t] eqn:Sk.
  - destruct (Z0 eq_refl ltac:(lia)) as [-> ->]. rewrite Z.eqb_refl. unfold fret. exists [], h, o1. split; [reflexivity|]. split; [reflexivity|]. split; [constructor|].
    split; [exact Ac|]. split; [reflexivity|]. auto.
  - destruct (Wr ltac:(left; discriminate)) as [-> Hw]. clear Z0 Wr. destruct (Z.eqb_spec buffer 0); [contradiction|]. cbn [fst].
    destruct Li as (t' & Et & Ll & Nl & Dl). assert (Hl : l <> []).
    { intros ->. cbn [app] in Et. subst t'. destruct Dl as [Q|[Q|[a Q]]]; [rewrite zlen_nil in Q; lia|discriminate|destruct a; discriminate]. }
    assert (Tl : text l) by (pose proof (text_skipn p c T) as Q; rewrite Sk, Et in Q; unfold text in *; rewrite Forall_app in Q; apply Q).
    assert (Sk' : skipn (p + length l) c = t') by (rewrite <- skipn_skipn_add, Sk, Et, skipn_app, Nat.sub_diag, skipn_all; reflexivity).
    assert (Ac1 : accessible h1 buffer n).
    { intros i Hi. rewrite Hw. unfold blit. destruct (_ && _); [discriminate|]. apply Ac. exact Hi. }
    rewrite Et, app_length in L. assert (0 < length l)%nat by (destruct l; [congruence|cbn; lia]).
    destruct (IH (p + length l)%nat h1 o1 Ac1 R1) as (ls & h2 & o2 & E2 & C2 & F2 & A2 & K2 & D2 & O2); [rewrite Sk'; lia|].
    unfold fbind at 1. rewrite E2. unfold fret. eexists (_ :: ls), h2, o2. split; [reflexivity|].
    assert (string_at (Z.to_nat n) h1 buffer = l) as ->.
    { apply string_at_ok; [exact Tl|clear -Ll Hn; unfold zlen in Ll; lia|]. intros i Hi. rewrite Hw. apply blit_in. exact Hi. }
    split; [cbn [concat]; rewrite C2, Sk'; symmetry; exact Et|]. split; [constructor; [exists (b :: t), t'; auto|exact F2]|]. split; [exact A2|].
    split; [|split; [congruence|intros x Nx; rewrite O2 by exact Nx; apply O1; exact Nx]].
    intros x Hx. rewrite K2 by exact Hx. rewrite Hw. apply blit_out. rewrite zlen_app, zlen_cons, zlen_nil. lia.
Qed.
Print Assumptions C51_read_all.

(** loading a file that is there: opened, read to its end and closed; the text read is the file *)
Theorem C51_load_file : forall fuel fd file buffer n c h o, 1 < n < 2147483648 -> buffer <> 0 -> fd <> 0 -> text c -> accessible h buffer n ->
  disk o file = Some c -> (length c < fuel)%nat ->
  exists ls h' o', load_file fuel fd file buffer n (h, o) = Some (Some ls, (h', o')) /\ concat ls = c /\
    (forall x, x < buffer \/ buffer + n <= x -> h' x = h x) /\ disk o' = disk o /\ others o o' fd /\ opened o' fd = None.
Proof.
  intros fuel fd file buffer n c h o Hn Nb Nf T Ac D L. unfold load_file, fbind at 1, fopen. cbn [name_eq wb rb]. change (name_eq rb wb) with false. change (name_eq rb rb) with true.
  cbv iota. cbn [fst snd]. unfold sys_open. rewrite D. change (Z.testbit 0 9) with false. change (0 mod 4 =? 1) with false. cbv iota. destruct (Z.eqb_spec fd 0); [contradiction|].
  set (o1 := set_open o fd (Some (mkfile file 0 false))). assert (R : reading o1 fd file c 0) by (split; [cbn; rewrite Z.eqb_refl; reflexivity|exact D]).
  destruct (C51_read_all buffer n fd file c Hn Nb T fuel 0%nat h o1 Ac R L) as (ls & h2 & o2 & E & C & _ & _ & K & D2 & O2).
  unfold fbind at 1. rewrite E. unfold fbind, fclose, fret, sys_close. cbn [fst snd]. eexists ls, h2, _. split; [reflexivity|]. split; [exact C|]. split; [exact K|]. split; [exact D2|].
  split; [|cbn; rewrite Z.eqb_refl; reflexivity]. intros x Nx. cbn. destruct (Z.eqb_spec x fd); [contradiction|]. rewrite O2 by exact Nx. cbn. destruct (Z.eqb_spec x fd); [contradiction|reflexivity].
Qed.
Print Assumptions C51_load_file.

(** ** Writing. *)
Lemma put_at c p b : (p <= length c)%nat -> put_byte c p b = firstn p c ++ b :: skipn (S p) c.
Proof. intros H. unfold put_byte. replace (p - length c)%nat with O by lia. reflexivity. Qed.
Lemma name_eq_refl x : name_eq x x = true.
Proof. unfold name_eq. destruct (list_eq_dec Z.eq_dec x x); congruence. Qed.
Lemma name_neq x y : x <> y -> name_eq x y = false.
Proof. unfold name_eq. destruct (list_eq_dec Z.eq_dec x y); congruence. Qed.
Lemma puts_ok l : forall fd name c p h o, writing o fd name c p -> (p <= length c)%nat ->
  exists o', fputs_all l fd (h, o) = Some (tt, (h, o')) /\ writing o' fd name (firstn p c ++ map (fun b => b mod 256) l ++ skipn (p + length l) c) (p + length l) /\
    (forall x, x <> name -> disk o' x = disk o x) /\ others o o' fd.
Proof.
  induction l as [|b l IH]; intros fd name c p h o W L.
  - exists o. cbn [fputs_all map app length]. rewrite Nat.add_0_r, firstn_skipn. split; [reflexivity|]. split; [exact W|]. split; [reflexivity|intros ? ?; reflexivity].
  - cbn [fputs_all]. unfold fbind, fputc. cbn [fst snd]. unfold sys_write1. destruct W as [W1 W2]. rewrite W1. cbn [f_write f_name f_pos]. rewrite W2. cbv zeta.
    set (c1 := put_byte c p (b mod 256)). set (o1 := set_open (set_disk o name c1) fd (Some (mkfile name (S p) true))).
    assert (L1 : (S p <= length c1)%nat) by (unfold c1; rewrite put_at by exact L; rewrite app_length, firstn_length; cbn [length]; lia).
    assert (WW : writing o1 fd name c1 (S p)) by (split; cbn; [rewrite Z.eqb_refl; reflexivity|rewrite name_eq_refl; reflexivity]).
    destruct (IH fd name c1 (S p) h o1 WW L1) as (o2 & E & W2' & D & O). exists o2. split; [exact E|].
    assert (Q : firstn (S p) c1 = firstn p c ++ [b mod 256]).
    { unfold c1. rewrite put_at by exact L. rewrite firstn_app, firstn_firstn, firstn_length. replace (Nat.min (S p) p) with p by lia. rewrite Nat.min_l by lia. replace (S p - p)%nat with 1%nat by lia. reflexivity. }
    assert (Q2 : skipn (S p + length l) c1 = skipn (p + length (b :: l)) c).
    { rewrite <- skipn_skipn_add. unfold c1. rewrite put_at by exact L. rewrite (skipn_app (S p)), firstn_length, Nat.min_l by lia. rewrite (skipn_all2 (firstn p c)) by (rewrite firstn_length; lia).
      replace (S p - p)%nat with 1%nat by lia. cbn [skipn app]. change (skipn (length l) (skipn (S p) c) = skipn (p + length (b :: l)) c). rewrite skipn_skipn_add. f_equal. cbn. lia. }
    split; [|split].
    + rewrite Q, Q2 in W2'. cbn [map length] in *. rewrite <- app_assoc in W2'. cbn [app] in W2'. replace (S p + length l)%nat with (p + S (length l))%nat in W2' by lia. exact W2'.
    + intros x Nx. rewrite D by exact Nx. cbn. rewrite name_neq by exact Nx. reflexivity.
    + intros x Nx. rewrite O by exact Nx. cbn. destruct (Z.eqb_spec x fd); [contradiction|reflexivity].
Qed.

(** writing a file byte by byte, as the ELF writer does.  The file begins with these bytes and no other file changes; what the file
    had beyond them before stays *)
Theorem C51_write_file : forall fd name bytes h o,
  exists o', write_file fd name bytes (h, o) = Some (0, (h, o')) /\
    disk o' name = Some (map (fun b => b mod 256) bytes ++ skipn (length bytes) (match disk o name with Some old => old | None => [] end)) /\
    (forall x, x <> name -> disk o' x = disk o x) /\ others o o' fd /\ opened o' fd = None.
Proof.
  intros fd name bytes h o. unfold write_file, fbind at 1, fopen. change (name_eq wb wb) with true. cbv iota. cbn [fst snd]. unfold sys_open.
  change (Z.testbit 65 9) with false. change (Z.testbit 65 6) with true. change (65 mod 4 =? 1) with true. cbv iota zeta.
  set (old := match disk o name with Some old => old | None => [] end).
  assert (G : exists o1, (match disk o name with Some _ => (fd, set_open o fd (Some (mkfile name 0 true))) | None => (fd, set_open (set_disk o name []) fd (Some (mkfile name 0 true))) end) = (fd, o1) /\
    writing o1 fd name old 0 /\ (forall x, x <> name -> disk o1 x = disk o x) /\ others o o1 fd).
  { subst old. destruct (disk o name) as [c|] eqn:D; eexists; (split; [reflexivity|]); (split; [split; cbn; [rewrite Z.eqb_refl; reflexivity|rewrite ?name_eq_refl; auto]|]);
      (split; [intros x Nx; cbn; rewrite ?name_neq by exact Nx; reflexivity|intros x Nx; cbn; destruct (Z.eqb_spec x fd); [contradiction|reflexivity]]). }
  destruct G as (o1 & E1 & W & D1 & O1). assert (E1' : (match disk o name with Some _ => (fd, set_open o fd (Some (mkfile name 0 true))) | None => (fd, set_open (set_disk o name []) fd (Some (mkfile name 0 true))) end) = (fd, o1)) by exact E1.
  clear E1. destruct (puts_ok bytes fd name old 0 h o1 W ltac:(lia)) as (o2 & E2 & [_ W2] & D2 & O2).
  assert (X : (let '(r, o0) := match disk o name with Some _ => (fd, set_open o fd (Some (mkfile name 0 true))) | None => (fd, set_open (set_disk o name []) fd (Some (mkfile name 0 true))) end in Some (r, (h, o0))) = Some (fd, (h, o1))) by (rewrite E1'; reflexivity).
  rewrite X. unfold fbind at 1. rewrite E2. unfold fclose, sys_close. cbn [fst snd]. eexists. split; [reflexivity|]. cbn [disk set_open].
  split; [exact W2|]. split; [intros x Nx; rewrite D2 by exact Nx; apply D1; exact Nx|]. split; [|cbn; rewrite Z.eqb_refl; reflexivity].
  intros x Nx. cbn. destruct (Z.eqb_spec x fd); [contradiction|]. rewrite O2 by exact Nx. apply O1. exact Nx.
Qed.
Print Assumptions C51_write_file.

(** a file that was not there holds exactly the bytes written, and loading it gives them back *)
Theorem C51_round_trip : forall fd fd2 name bytes h o buffer n fuel, disk o name = None -> text bytes -> 1 < n < 2147483648 -> buffer <> 0 -> fd2 <> 0 -> accessible h buffer n ->
  (length bytes < fuel)%nat ->
  exists o1 ls h' o2, write_file fd name bytes (h, o) = Some (0, (h, o1)) /\ disk o1 name = Some bytes /\
    load_file fuel fd2 name buffer n (h, o1) = Some (Some ls, (h', o2)) /\ concat ls = bytes.
Proof.
  intros fd fd2 name bytes h o buffer n fuel N T Hn Nb Nf Ac L. destruct (C51_write_file fd name bytes h o) as (o1 & E & D & _). rewrite N in D.
  assert (D' : disk o1 name = Some bytes).
  { rewrite D. f_equal. rewrite (skipn_all2 []) by (cbn; lia). rewrite app_nil_r. clear -T. induction T as [|b l H T IH]; [reflexivity|]. cbn [map]. rewrite IH. f_equal. apply Z.mod_small. lia. }
  destruct (C51_load_file fuel fd2 name buffer n bytes h o1 Hn Nb Nf T Ac D' L) as (ls & h' & o2 & E2 & C & _).
  exists o1, ls, h', o2. auto.
Qed.
Print Assumptions C51_round_trip.

(** ** Where it fails. *)
(** opening with "wb" does not empty the file: writing "x" over a file with "abc" leaves "xbc" (C: the file is "x") *)
Theorem C51_truncate_refuted : exists fd name bytes h o o', write_file fd name bytes (h, o) = Some (0, (h, o')) /\
  disk o name = Some [97; 98; 99] /\ bytes = [120] /\ disk o' name = Some [120; 98; 99].
Proof.
  exists 3, [102], [120], (fun _ => None), (mkos (fun _ => Some [97; 98; 99]) (fun _ => None)). destruct (C51_write_file 3 [102] [120] (fun _ => None) (mkos (fun _ => Some [97; 98; 99]) (fun _ => None))) as (o' & E & D & _).
  exists o'. split; [exact E|]. split; [reflexivity|]. split; [reflexivity|]. rewrite D. reflexivity.
Qed.
Print Assumptions C51_truncate_refuted.
(** opening a file that is not there does not give NULL, so loading it is not noticed to fail: it is taken for an empty file *)
Theorem C51_missing_refuted : forall fd file buffer n h o fuel, 1 < n -> disk o file = None -> opened o (-2) = None ->
  exists o', load_file (S fuel) fd file buffer n (h, o) = Some (Some [], (h, o')) /\ forall m, fopen fd file rb (h, o) = Some (m, (h, o)) -> m <> 0.
Proof.
  intros fd file buffer n h o fuel Hn D O. exists (set_open o (-2) None). split.
  - unfold load_file, fbind at 1, fopen. change (name_eq rb wb) with false. change (name_eq rb rb) with true. cbv iota. cbn [fst snd]. unfold sys_open. rewrite D.
    change (Z.testbit 0 6) with false. cbv iota. change (-2 =? 0) with false. cbv iota. cbn [read_all]. unfold fbind at 1 2, fgets.
    destruct (Z.to_nat n) as [|k] eqn:K; [lia|]. cbn [fgets_loop]. destruct (Z.ltb_spec 0 (n - 1)); [|lia]. unfold fbind at 1, fgetc. cbn [snd fst]. unfold sys_read1. rewrite O.
    reflexivity.
  - intros m. unfold fopen. change (name_eq rb wb) with false. change (name_eq rb rb) with true. cbv iota. cbn [fst snd]. unfold sys_open. rewrite D. change (Z.testbit 0 6) with false. cbv iota.
    intros E. injection E as <-. discriminate.
Qed.
Print Assumptions C51_missing_refuted.
(** writing the byte 255 as a (signed) char: it is written, and the result says it is not *)
Theorem C51_fputc_refuted : forall fd name c h o, writing o fd name c (length c) ->
  exists o', fputc (-1) fd (h, o) = Some (-1, (h, o')) /\ disk o' name = Some (c ++ [255]).
Proof.
  intros fd name c h o [A B]. unfold fputc, sys_write1. cbn [fst snd]. rewrite A. cbn [f_write f_name f_pos]. rewrite B. eexists. split; [reflexivity|]. cbn. rewrite name_eq_refl.
  rewrite put_at by lia. rewrite firstn_all, skipn_all2 by lia. reflexivity.
Qed.
Print Assumptions C51_fputc_refuted.

(** ** A case. *)
(** "ab\ncd" read with room for 3 characters: "ab\n", "cd" *)
Example C51_case : exists ls h' o',
  load_file 10 3 [102] 100 4 ((fun a => if (100 <=? a) && (a <? 104) then Some 7 else None), mkos (fun x => if name_eq x [102] then Some [97; 98; 10; 99; 100] else None) (fun _ => None)) = Some (Some ls, (h', o')) /\
  ls = [[97; 98; 10]; [99; 100]] /\ h' 102 = Some 0 /\ h' 103 = Some 0.
Proof. unfold load_file. eexists _, _, _. split; [vm_compute; reflexivity|]. split; [reflexivity|]. split; vm_compute; reflexivity. Qed.
