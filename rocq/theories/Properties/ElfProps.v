(** C14: the output file is a well-formed ELF executable that loads the code and data
    where they were compiled for. *)
From Coq Require Import Ascii String.
From Verif.Base Require Import Int32 Mem.
From Verif.Ir Require Import Ph2 Ph2Sem Layout.
From Verif.Rv Require RvISA RvGen RvExec RvProg.
From Verif.Arm Require ArmISA ArmGen ArmExec ArmProg.
From Verif.Properties Require LayoutSpec RvWhole ArmWhole.
From Verif.Out Require Import Elf.
Open Scope list_scope.
Open Scope Z_scope.

(** *** Specification: reading an ELF32 little-endian file (System V gABI) *)

Definition u8 (f : list Z) (o : Z) : Z := nth (Z.to_nat o) f 0.
Definition u16 (f : list Z) (o : Z) : Z := u8 f o + 256 * u8 f (o + 1).
Definition u32 (f : list Z) (o : Z) : Z :=
  u8 f o + 256 * u8 f (o + 1) + 65536 * u8 f (o + 2) + 16777216 * u8 f (o + 3).
Definition slice (f : list Z) (o n : Z) : list Z := firstn (Z.to_nat n) (skipn (Z.to_nat o) f).
Definition size (f : list Z) : Z := Z.of_nat (List.length f).

Record segment := mkseg { sg_addr : Z; sg_bytes : list Z; sg_flags : Z }.
Record image := mkimg { im_machine : Z; im_flags : Z; im_entry : Z; im_segs : list segment }.

(** program header [i]; None if malformed or not loadable by a paged loader *)
Definition read_segment (f : list Z) (o : Z) : option segment :=
  let off := u32 f (o + 4) in
  let va := u32 f (o + 8) in
  let fsz := u32 f (o + 16) in
  let msz := u32 f (o + 20) in
  if (u32 f o =? 1)                          (* PT_LOAD *)
     && (off + fsz <=? size f)               (* contents inside the file *)
     && (fsz <=? msz)
     && ((va - off) mod 4096 =? 0)           (* mappable *)
     && (va + msz <=? 4294967296)
  then Some (mkseg va (slice f off fsz ++ List.repeat 0 (Z.to_nat (msz - fsz))) (u32 f (o + 24)))
  else None.

Fixpoint all_some {A} (l : list (option A)) : option (list A) :=
  match l with
  | [] => Some []
  | Some x :: r => option_map (cons x) (all_some r)
  | None :: _ => None
  end.

Definition elf_load (f : list Z) : option image :=
  let phoff := u32 f 28 in
  let phnum := u16 f 44 in
  if (52 <=? size f)
     && (u32 f 0 =? 0x464c457f)              (* 0x7f 'E' 'L' 'F' *)
     && (u8 f 4 =? 1) && (u8 f 5 =? 1) && (u8 f 6 =? 1)   (* 32-bit, little endian, v1 *)
     && (u16 f 16 =? 2) && (u32 f 20 =? 1)   (* ET_EXEC, EV_CURRENT *)
     && (u16 f 40 =? 52) && (u16 f 42 =? 32) (* e_ehsize, e_phentsize *)
     && (phoff + 32 * phnum <=? size f)
  then option_map (mkimg (u16 f 18) (u32 f 36) (u32 f 24))
         (all_some (map (fun i => read_segment f (phoff + 32 * Z.of_nat i)) (seq 0 (Z.to_nat phnum))))
  else None.

(** sections *)
Record section := mksec { sc_name : list Z; sc_type : Z; sc_addr : Z; sc_bytes : list Z;
                          sc_link : Z; sc_entsize : Z }.
Fixpoint until0 (l : list Z) : list Z :=
  match l with [] => [] | c :: r => if c =? 0 then [] else c :: until0 r end.

Definition read_section (f : list Z) (i : Z) : option section :=
  let shoff := u32 f 32 in
  let names := shoff + 40 * u16 f 50 in
  let o := shoff + 40 * i in
  if (u16 f 46 =? 40) && (i <? u16 f 48) && (u16 f 50 <? u16 f 48)
     && (shoff + 40 * u16 f 48 <=? size f)                    (* table inside the file *)
     && (u32 f (o + 16) + u32 f (o + 20) <=? size f)          (* contents inside the file *)
     && (u32 f o <=? u32 f (names + 20))
  then Some (mksec (until0 (skipn (Z.to_nat (u32 f o)) (slice f (u32 f (names + 16)) (u32 f (names + 20)))))
                   (u32 f (o + 4)) (u32 f (o + 12)) (slice f (u32 f (o + 16)) (u32 f (o + 20)))
                   (u32 f (o + 24)) (u32 f (o + 36)))
  else None.

(** *** What the compiler hands to the writer *)
Record buffers_ok (code data_buf : list Z) (data_len : Z) : Prop := {
  bo_code : size code <= MAX_CODE;
  bo_buf : size data_buf = MAX_DATA;
  bo_len : 0 <= data_len <= MAX_DATA }.

(** *** Proof support *)
Lemma extract_byte v b : 0 <= b -> e_extract_byte v b = (v / 2 ^ (b * 8)) mod 256.
Proof.
  intros H. unfold e_extract_byte. rewrite Z.shiftr_div_pow2 by lia.
  change 255 with (Z.ones 8). rewrite Z.land_ones by lia. reflexivity.
Qed.

Lemma wint_val v : e_extract_byte v 0 + 256 * e_extract_byte v 1 + 65536 * e_extract_byte v 2 +
   16777216 * e_extract_byte v 3 = w32 v.
Proof.
  rewrite !extract_byte by lia. change (0 * 8) with 0. change (1 * 8) with 8.
  change (2 * 8) with 16. change (3 * 8) with 24.
  change (2 ^ 0) with 1. change (2 ^ 8) with 256. change (2 ^ 16) with 65536.
  change (2 ^ 24) with 16777216. rewrite Z.div_1_r. unfold w32, M32.
  Z.div_mod_to_equations. lia.
Qed.

Lemma u8_app2 a b o : 0 <= o -> u8 (a ++ b) (size a + o) = u8 b o.
Proof.
  intros H. unfold u8, size. rewrite app_nth2; [f_equal; lia|lia].
Qed.
Lemma u8_app1 a b o : 0 <= o < size a -> u8 (a ++ b) o = u8 a o.
Proof. intros H. unfold u8, size in *. apply app_nth1. lia. Qed.

Lemma u32_app2 a b o : 0 <= o -> u32 (a ++ b) (size a + o) = u32 b o.
Proof. intros H. unfold u32. rewrite <- !Z.add_assoc, !u8_app2 by lia. reflexivity. Qed.
Lemma u32_app1 a b o : 0 <= o -> o + 3 < size a -> u32 (a ++ b) o = u32 a o.
Proof. intros H H1. unfold u32. rewrite !u8_app1 by lia. reflexivity. Qed.
Lemma u16_app1 a b o : 0 <= o -> o + 1 < size a -> u16 (a ++ b) o = u16 a o.
Proof. intros H H1. unfold u16. rewrite !u8_app1 by lia. reflexivity. Qed.

Lemma slice_mid a b c o n : o = size a -> n = size b -> slice (a ++ b ++ c) o n = b.
Proof.
  intros -> ->. unfold slice, size. rewrite !Nat2Z.id.
  rewrite skipn_app, skipn_all, Nat.sub_diag. cbn [skipn app].
  rewrite firstn_app, firstn_all, Nat.sub_diag. cbn. apply app_nil_r.
Qed.

Lemma size_app a b : size (a ++ b) = size a + size b.
Proof. unfold size. rewrite app_length. lia. Qed.
Lemma size_pos a : 0 <= size a.
Proof. unfold size. lia. Qed.

Lemma align4_spec n : 0 <= n -> align4 n mod 4 = 0 /\ n <= align4 n < n + 4.
Proof.
  intros H. unfold align4. change 3 with (Z.ones 2). rewrite Z.land_ones by lia.
  change (2 ^ 2) with 4. pose proof (Z.mod_pos_bound n 4). destruct (Z.eqb_spec (n mod 4) 0); [lia|].
  Z.div_mod_to_equations. lia.
Qed.

Lemma wint_length v : List.length (wint v) = 4%nat.
Proof. reflexivity. Qed.

(** field of a list that begins with explicit [wint]s *)
Ltac field :=
  unfold u32, u16, u8;
  repeat match goal with |- context [Z.to_nat ?z] =>
    let n := eval vm_compute in (Z.to_nat z) in change (Z.to_nat z) with n end;
  cbn [nth app wint map wbyte].

Section File.
  Variable t : elf_target.
  Variables (code data_buf : list Z) (data_len : Z).
  Hypothesis OK : buffers_ok code data_buf data_len.
  Hypothesis Ht : t = riscv_elf \/ t = arm_elf.

  Let ci := size code.
  Let di := align4 data_len.
  Let data := firstn (Z.to_nat di) data_buf.
  Let H := elf_generate_header t ci di 0 0.
  Let strs := wbyte 0 ++ wstr ".shstrtab" ++ wbyte 0 ++ wstr ".text" ++ wbyte 0 ++ wstr ".data" ++
    wbyte 0 ++ wstr ".symtab" ++ wbyte 0 ++ wstr ".strtab" ++ wbyte 0.
  Let table := sechdr 0 0 0 0 0 0 0 0 0 0 ++
    sechdr 0xb 1 7 (ELF_START + elf_header_len) elf_header_len ci 0 0 4 0 ++
    sechdr 0x11 1 3 (elf_code_start + ci) (elf_header_len + ci) di 0 0 4 0 ++
    sechdr 0x17 2 0 0 (elf_header_len + ci + di) 0 4 0 4 16 ++
    sechdr 0x1f 3 0 0 (elf_header_len + ci + di + 0) 0 0 0 1 0 ++
    sechdr 1 3 0 0 (elf_header_len + ci + di + 0 + 0) 39 0 0 1 0.
  Let F := elf_generate t code data_buf data_len.

  Lemma di_bounds : 0 <= di <= MAX_DATA /\ di mod 4 = 0 /\ data_len <= di < data_len + 4.
  Proof.
    destruct OK. destruct (align4_spec data_len) as [A B]; [lia|]. unfold di, MAX_DATA in *.
    split; [|auto]. Z.div_mod_to_equations. lia.
  Qed.
  Lemma ci_bounds : 0 <= ci <= MAX_CODE.
  Proof. destruct OK. pose proof (size_pos code). unfold ci in *. lia. Qed.
  Lemma data_size : size data = di.
  Proof.
    destruct OK. pose proof di_bounds. unfold size in *. unfold data. rewrite firstn_length_le; lia.
  Qed.
  Lemma H_size : size H = 84. Proof. reflexivity. Qed.
  Lemma strs_size : size strs = 39. Proof. reflexivity. Qed.
  Lemma table_size : size table = 240. Proof. reflexivity. Qed.

  Lemma F_eq : F = H ++ code ++ data ++ strs ++ table.
  Proof.
    unfold F, elf_generate, elf_generate_sections. change (align4 0) with 0.
    fold ci di. reflexivity.
  Qed.
  Lemma F_size : size F = 84 + ci + di + 279.
  Proof. rewrite F_eq, !size_app, H_size, data_size, strs_size, table_size. unfold ci. lia. Qed.

  Lemma Hw (o v : Z) : u32 H o = v -> 0 <= o -> o + 3 < 84 -> u32 F o = v.
  Proof. intros <- H0 H1. rewrite F_eq, u32_app1; auto. Qed.
  Lemma Hh (o v : Z) : u16 H o = v -> 0 <= o -> o + 1 < 84 -> u16 F o = v.
  Proof. intros <- H0 H1. rewrite F_eq, u16_app1; auto. Qed.
  Lemma Hb (o v : Z) : u8 H o = v -> 0 <= o -> o < 84 -> u8 F o = v.
  Proof. intros <- H0 H1. rewrite F_eq, u8_app1; auto. Qed.

  Definition shoff := 84 + ci + di + 39.
  Lemma Tw (o v : Z) : u32 table o = v -> 0 <= o -> u32 F (shoff + o) = v.
  Proof.
    intros <- H0.
    assert (E : F = (H ++ code ++ data ++ strs) ++ table) by (rewrite F_eq, <- !app_assoc; reflexivity).
    rewrite E.
    replace (shoff + o) with (size (H ++ code ++ data ++ strs) + o).
    - apply u32_app2; assumption.
    - rewrite !size_app, H_size, data_size, strs_size. unfold shoff, ci. lia.
  Qed.

  Lemma w32_small v : 0 <= v < 4294967296 -> w32 v = v.
  Proof. intros. unfold w32, M32. apply Z.mod_small. lia. Qed.

  Ltac fld := unfold H, table, elf_generate_header, sechdr; field; rewrite ?wint_val; try reflexivity;
              try (apply w32_small; pose proof ci_bounds; pose proof di_bounds;
                   unfold ELF_START, elf_header_len, elf_code_start, MAX_CODE, MAX_DATA in *; lia).

  Lemma f_load : elf_load F =
    Some (mkimg (elf_machine t) (elf_flags t) (ELF_START + 84)
            [mkseg (ELF_START + 84) (code ++ data) 7]).
  Proof.
    pose proof ci_bounds as Bc. pose proof di_bounds as Bd.
    unfold elf_load.
    rewrite (Hw 0 0x464c457f) by (lia || reflexivity).
    rewrite (Hb 4 1), (Hb 5 1), (Hb 6 1) by (lia || reflexivity).
    rewrite (Hh 16 2), (Hw 20 1), (Hh 40 52), (Hh 42 32), (Hh 44 1), (Hw 28 52) by (lia || reflexivity).
    rewrite (Hh 18 (elf_machine t)) by (lia || (destruct Ht as [-> | ->]; reflexivity)).
    rewrite (Hw 36 (elf_flags t)) by (lia || (destruct Ht as [-> | ->]; reflexivity)).
    rewrite (Hw 24 (ELF_START + 84)) by (lia || reflexivity).
    rewrite F_size.
    replace (52 <=? 84 + ci + di + 279) with true by lia.
    replace (52 + 32 * 1 <=? 84 + ci + di + 279) with true by lia.
    cbn [Z.eqb Pos.eqb andb]. change (Z.to_nat 1) with 1%nat. cbn [seq map all_some option_map].
    unfold read_segment. change (52 + 32 * Z.of_nat 0) with 52.
    change (52 + 4) with 56. change (52 + 8) with 60. change (52 + 16) with 68.
    change (52 + 20) with 72. change (52 + 24) with 76.
    rewrite (Hw 52 1), (Hw 56 84), (Hw 60 (ELF_START + 84)), (Hw 76 7) by (lia || reflexivity).
    rewrite (Hw 68 (ci + di)) by (lia || fld).
    rewrite (Hw 72 (ci + di)) by (lia || fld).
    rewrite F_size.
    replace (84 + (ci + di) <=? 84 + ci + di + 279) with true by lia.
    rewrite Z.leb_refl. change ((ELF_START + 84 - 84) mod 4096 =? 0) with true.
    replace (ELF_START + 84 + (ci + di) <=? 4294967296) with true
      by (unfold ELF_START, MAX_CODE, MAX_DATA in *; lia).
    cbn [andb Z.eqb Pos.eqb]. rewrite Z.sub_diag. cbn [Z.to_nat List.repeat].
    rewrite app_nil_r. rewrite F_eq.
    rewrite (app_assoc code). rewrite slice_mid;
      [reflexivity|rewrite H_size; reflexivity|rewrite size_app, data_size; reflexivity].
  Qed.

  (** the string table and the six sections *)
  Lemma f_section i name ty addr b off link ent nm :
    (i < 6)%nat ->
    u32 table (40 * Z.of_nat i) = nm -> u32 table (40 * Z.of_nat i + 4) = ty ->
    u32 table (40 * Z.of_nat i + 12) = addr ->
    u32 table (40 * Z.of_nat i + 16) = off -> u32 table (40 * Z.of_nat i + 20) = size b ->
    u32 table (40 * Z.of_nat i + 24) = link -> u32 table (40 * Z.of_nat i + 36) = ent ->
    off + size b <= 84 + ci + di + 39 -> slice F off (size b) = b -> nm <= 39 ->
    until0 (skipn (Z.to_nat nm) strs) = name ->
    read_section F (Z.of_nat i) = Some (mksec name ty addr b link ent).
  Proof.
    intros Hi Hn Hty Had Hof Hsz Hl He Hin Hsl Hnm Hname.
    pose proof ci_bounds as Bc. pose proof di_bounds as Bd.
    unfold read_section.
    rewrite (Hh 46 40), (Hh 48 6), (Hh 50 5) by (lia || reflexivity).
    rewrite (Hw 32 shoff) by (lia || (unfold shoff; fld; etransitivity; [apply w32_small|];
        unfold elf_header_len, MAX_CODE, MAX_DATA in *; lia)).
    rewrite (Tw (40 * Z.of_nat i) nm) by (assumption || lia).
    assert (X : forall k v, u32 table (40 * Z.of_nat i + k) = v -> 0 <= k ->
                u32 F (shoff + 40 * Z.of_nat i + k) = v).
    { intros k v Hv Hk. rewrite <- Z.add_assoc. apply Tw; [exact Hv|lia]. }
    rewrite (X 4 ty), (X 12 addr), (X 16 off), (X 20 (size b)), (X 24 link), (X 36 ent) by (assumption || lia).
    rewrite <- (Z.add_assoc shoff (40 * 5) 16), <- (Z.add_assoc shoff (40 * 5) 20).
    change (40 * 5 + 16) with 216. change (40 * 5 + 20) with 220.
    rewrite (Tw 216 (84 + ci + di)) by (lia || (fld; etransitivity; [apply w32_small|];
        unfold elf_header_len, MAX_CODE, MAX_DATA in *; lia)).
    rewrite (Tw 220 39) by (lia || reflexivity).
    rewrite F_size.
    replace (Z.of_nat i <? 6) with true by lia.
    replace (shoff + 40 * 6 <=? 84 + ci + di + 279) with true by (unfold shoff; lia).
    replace (off + size b <=? 84 + ci + di + 279) with true by lia.
    replace (nm <=? 39) with true by lia.
    cbn [Z.eqb Z.ltb Z.compare Pos.compare Pos.compare_cont Pos.eqb andb].
    rewrite Hsl. do 2 f_equal.
    rewrite <- Hname. do 2 f_equal. rewrite F_eq. rewrite (app_assoc code), (app_assoc H).
    apply slice_mid; [|reflexivity].
    rewrite !size_app, H_size, data_size. unfold ci. lia.
  Qed.
End File.

(** the byte string of a C string literal, as in the source *)
Definition named (s : string) (ty addr : Z) (b : list Z) (link ent : Z) : section :=
  mksec (bytes s) ty addr b link ent.

(** *** C14 *)
Theorem C14_elf_loads : forall t code data_buf data_len,
  t = riscv_elf \/ t = arm_elf -> buffers_ok code data_buf data_len ->
  exists pad, (List.length pad < 4)%nat /\
    elf_load (elf_generate t code data_buf data_len) =
      Some (mkimg (elf_machine t) (elf_flags t) elf_code_start
        [mkseg elf_code_start (code ++ firstn (Z.to_nat data_len) data_buf ++ pad) 7]).
Proof.
  intros t code db dl Ht OK. pose proof (di_bounds _ _ _ OK) as [B1 [B2 B3]].
  destruct OK as [O1 O2 O3] eqn:EO. clear EO.
  exists (firstn (Z.to_nat (align4 dl - dl)) (skipn (Z.to_nat dl) db)). split.
  - pose proof (firstn_le_length (Z.to_nat (align4 dl - dl)) (skipn (Z.to_nat dl) db)). 
    rewrite firstn_length. lia.
  - pose proof (f_load t code db dl OK Ht) as E. change (ELF_START + 84) with elf_code_start in E.
    rewrite E. do 4 f_equal. f_equal.
    rewrite <- (firstn_skipn (Z.to_nat dl) db) at 1.
    replace (Z.to_nat (align4 dl)) with (Z.to_nat dl + Z.to_nat (align4 dl - dl))%nat by lia.
    unfold size in *.
    rewrite firstn_app. rewrite firstn_length_le by lia.
    rewrite firstn_all2 by (rewrite firstn_length_le; lia). f_equal. f_equal. lia.
Qed.
Print Assumptions C14_elf_loads.

Theorem C14_sections : forall t code data_buf data_len,
  t = riscv_elf \/ t = arm_elf -> buffers_ok code data_buf data_len ->
  let f := elf_generate t code data_buf data_len in
  let data := firstn (Z.to_nat (align4 data_len)) data_buf in
  read_section f 0 = Some (named "" 0 0 [] 0 0) /\
  read_section f 1 = Some (named ".text" 1 elf_code_start code 0 0) /\
  read_section f 2 = Some (named ".data" 1 (elf_code_start + size code) data 0 0) /\
  read_section f 3 = Some (named ".symtab" 2 0 [] 4 16) /\
  read_section f 4 = Some (named ".strtab" 3 0 [] 0 0) /\
  exists names, read_section f 5 = Some (named ".shstrtab" 3 0 names 0 0) /\ size names = 39.
Proof.
  intros t code db dl Ht OK f data.
  pose proof (ci_bounds _ _ _ OK) as Bc. pose proof (di_bounds _ _ _ OK) as Bd.
  pose proof (data_size _ _ _ OK) as Ds. pose proof (F_eq t code db dl) as FE.
  pose proof (H_size t code dl) as Hs.
  assert (SL : forall a b c o n, f = a ++ b ++ c -> o = size a -> n = size b -> slice f o n = b).
  { intros a b c o n E Ho Hn. rewrite E. apply slice_mid; assumption. }
  assert (S0 : forall o, slice f o 0 = []) by reflexivity.
  Ltac fl := unfold sechdr; field; rewrite ?wint_val; try reflexivity;
    unfold elf_code_start, w32, M32, ELF_START, elf_header_len, MAX_CODE, MAX_DATA, size in *;
    rewrite ?Z.mod_small by lia; lia.
  refine (conj _ (conj _ (conj _ (conj _ (conj _ _))))).
  - apply (f_section t code db dl OK 0 [] 0 0 [] 0 0 0 0); try reflexivity; try lia.
    change (size []) with 0. lia.
  - apply (f_section t code db dl OK 1 (bytes ".text") 1 elf_code_start code 84 0 0 0xb);
      try reflexivity; try lia; try fl.
    apply (SL (elf_generate_header t (size code) (align4 dl) 0 0) code _ _ _ FE); reflexivity.
  - apply (f_section t code db dl OK 2 (bytes ".data") 1 (elf_code_start + size code) data (84 + size code) 0 0 0x11);
      try reflexivity; try lia; try fl.
    + fold data in Ds. rewrite Ds. fl.
    + fold data in Ds. rewrite Ds. lia.
    + rewrite app_assoc in FE. apply (SL _ data _ _ _ FE); [rewrite size_app; reflexivity|reflexivity].
  - apply (f_section t code db dl OK 3 (bytes ".symtab") 2 0 [] (84 + size code + align4 dl) 4 16 0x17);
      try reflexivity; try lia; try fl.
    change (size []) with 0. lia.
  - apply (f_section t code db dl OK 4 (bytes ".strtab") 3 0 [] (84 + size code + align4 dl) 0 0 0x1f);
      try reflexivity; try lia; try fl.
    change (size []) with 0. lia.
  - exists (wbyte 0 ++ wstr ".shstrtab" ++ wbyte 0 ++ wstr ".text" ++ wbyte 0 ++ wstr ".data" ++
    wbyte 0 ++ wstr ".symtab" ++ wbyte 0 ++ wstr ".strtab" ++ wbyte 0). split; [|reflexivity].
    apply (f_section t code db dl OK 5 (bytes ".shstrtab") 3 0 _ (84 + size code + align4 dl) 0 0 1);
      try reflexivity; try lia; try fl.
    rewrite app_assoc in FE. rewrite app_assoc in FE. apply (SL _ _ _ _ _ FE); [|reflexivity].
    rewrite !size_app. rewrite Ds, Hs. lia.
Qed.
Print Assumptions C14_sections.

(** Observation: whenever the code is a whole number of words, the section header table
    is not 4-byte aligned (the gABI asks for natural alignment; Linux does not look). *)
Theorem C14_section_table_misaligned : forall t code data_buf data_len,
  buffers_ok code data_buf data_len -> size code mod 4 = 0 ->
  u32 (elf_generate t code data_buf data_len) 32 mod 4 = 3.
Proof.
  intros t code db dl OK Hc.
  pose proof (ci_bounds _ _ _ OK) as Bc. pose proof (di_bounds _ _ _ OK) as Bd.
  rewrite (Hw t code db dl 32 (84 + size code + align4 dl + 39)); try lia.
  unfold elf_generate_header. fl.
Qed.
Print Assumptions C14_section_table_misaligned.

(** *** The file, loaded, is the machine state C12 and C13 start from *)

(** memory in which the loader has placed the segments of the file *)
Definition mapped (m : mem) (im : image) : Prop :=
  forall sg, In sg (im_segs im) -> forall k, (k < List.length (sg_bytes sg))%nat ->
    ldb m (sg_addr sg + Z.of_nat k) = nth k (sg_bytes sg) 0.

(* src/elf.c:64-67 elf_write_code_int, called by emit for each word *)
Definition code_bytes (ws : list Z) : list Z := flat_map wint ws.

Lemma code_bytes_size ws : size (code_bytes ws) = 4 * Z.of_nat (List.length ws).
Proof.
  unfold size. induction ws as [|w ws IH]; [reflexivity|].
  cbn [code_bytes flat_map List.length]. rewrite app_length. fold (code_bytes ws). cbn [wint map List.length]. lia.
Qed.

Lemma words_of_bytes m : forall ws a rest,
  (forall k, (k < List.length (code_bytes ws ++ rest))%nat ->
     ldb m (a + Z.of_nat k) = nth k (code_bytes ws ++ rest) 0) -> words_at m a ws.
Proof.
  induction ws as [|w ws IH]; intros a rest Hk; [exact I|].
  cbn [code_bytes flat_map] in Hk. fold (code_bytes ws) in Hk.
  cbn [wint map app] in Hk. cbn [words_at]. split.
  - unfold ldw. rewrite <- (wint_val w).
    pose proof (Hk 0%nat) as H0. pose proof (Hk 1%nat) as H1.
    pose proof (Hk 2%nat) as H2. pose proof (Hk 3%nat) as H3. cbn [nth List.length app] in *.
    change (Z.of_nat 0) with 0 in H0. change (Z.of_nat 1) with 1 in H1.
    change (Z.of_nat 2) with 2 in H2. change (Z.of_nat 3) with 3 in H3. rewrite Z.add_0_r in H0.
    rewrite H0, H1, H2, H3 by lia. reflexivity.
  - apply (IH (a + 4) rest). intros k Hlt.
    pose proof (Hk (4 + k)%nat) as Hh. cbn [nth List.length app Nat.add] in Hh.
    replace (a + Z.of_nat (S (S (S (S k))))) with (a + 4 + Z.of_nat k) in Hh by lia.
    apply Hh. lia.
Qed.

Lemma file_maps : forall t ws data_buf data_len im m,
  t = riscv_elf \/ t = arm_elf -> buffers_ok (code_bytes ws) data_buf data_len ->
  elf_load (elf_generate t (code_bytes ws) data_buf data_len) = Some im -> mapped m im ->
  im_entry im = elf_code_start /\ words_at m elf_code_start ws /\
  forall k, 0 <= k < data_len ->
    ldb m (elf_code_start + 4 * Z.of_nat (List.length ws) + k) = u8 data_buf k.
Proof.
  intros t ws db dl im m Ht OK Hl Hm.
  destruct (C14_elf_loads t _ _ _ Ht OK) as (pad & _ & E). rewrite E in Hl.
  inversion Hl; subst im; clear Hl. cbn [im_entry].
  specialize (Hm _ (or_introl eq_refl)). cbn [sg_bytes sg_addr] in Hm.
  destruct OK as [O1 O2 O3].
  split; [reflexivity|]. split.
  - eapply words_of_bytes. exact Hm.
  - intros k Hk. specialize (Hm (List.length (code_bytes ws) + Z.to_nat k)%nat).
    pose proof (code_bytes_size ws) as Cs. unfold size in *.
    rewrite app_length, app_length, firstn_length_le in Hm by lia.
    replace (elf_code_start + Z.of_nat (List.length (code_bytes ws) + Z.to_nat k))
      with (elf_code_start + 4 * Z.of_nat (List.length ws) + k) in Hm by lia.
    rewrite Hm by lia. rewrite app_nth2 by lia.
    replace (List.length (code_bytes ws) + Z.to_nat k - List.length (code_bytes ws))%nat with (Z.to_nat k) by lia.
    rewrite app_nth1 by (rewrite firstn_length_le; lia).
    unfold u8. rewrite <- (firstn_skipn (Z.to_nat dl) db) at 2.
    rewrite app_nth1 by (rewrite firstn_length_le; lia). reflexivity.
Qed.

(** From the bytes of the output file to the behaviour of the program (RISC-V). *)
Theorem C14_rv_file_executes : forall p hard e ws data_buf data_len im os sp0 x m n,
  RvWhole.rv_loadable p hard elf_code_start e ws ->
  buffers_ok (code_bytes ws) data_buf data_len ->
  elf_load (elf_generate riscv_elf (code_bytes ws) data_buf data_len) = Some im ->
  mapped m im -> x 2 = sp0 ->
  (forall v mm, os_nargs os 93 = 1%nat /\ os_call os 93 [v] mm = None) ->
  (forall k, 0 <= k < data_len ->
     ldb m (l_data (RvProg.rv_layout hard p elf_code_start (List.length ws)) + k) = u8 data_buf k) /\
  match RvWhole.rv_program_run p hard elf_code_start ws os sp0 n (init_st p sp0 m) with
  | Ok t s => exists k r, RvISA.rv_run os k (RvISA.mkrv (im_entry im) x m) = (t, RvISA.Running r) /\
                          RvWhole.rv_shows p hard elf_code_start sp0 s r
  | Halt t => exists k, RvISA.rv_run os k (RvISA.mkrv (im_entry im) x m) = (t, RvISA.Exited)
  | UB => True
  end.
Proof.
  intros p hard e ws db dl im os sp0 x m n Hld OK Hl Hm Hx Hos.
  destruct (file_maps riscv_elf ws db dl im m (or_introl eq_refl) OK Hl Hm) as (He & Hw & Hd).
  rewrite He. split; [exact Hd|].
  apply (RvWhole.C12_rv_executes p hard elf_code_start e ws os sp0 x m n Hld Hos). split; auto.
Qed.
Print Assumptions C14_rv_file_executes.

(** The same for ARM (with the conditions of C13). *)
Theorem C14_arm_file_executes : forall p hard e ws data_buf data_len im os sp0 x fl m n,
  ArmWhole.arm_loadable p hard elf_code_start sp0 e ws ->
  buffers_ok (code_bytes ws) data_buf data_len ->
  elf_load (elf_generate arm_elf (code_bytes ws) data_buf data_len) = Some im ->
  mapped m im -> x 13 = sp0 ->
  (forall v mm, os_nargs os 1 = 1%nat /\ os_call os 1 [v] mm = None) ->
  (forall k, 0 <= k < data_len ->
     ldb m (l_data (ArmProg.arm_layout hard p elf_code_start (List.length ws)) + k) = u8 data_buf k) /\
  match ArmWhole.arm_program_run p hard elf_code_start ws os sp0 n (init_st p sp0 m) with
  | Ok t s => exists k r, ArmISA.arm_run os k (ArmISA.mkarm (im_entry im) x fl m) = (t, ArmISA.ARunning r) /\
                          ArmWhole.arm_shows p hard elf_code_start sp0 s r
  | Halt t => exists k, ArmISA.arm_run os k (ArmISA.mkarm (im_entry im) x fl m) = (t, ArmISA.AExited)
  | UB => True
  end.
Proof.
  intros p hard e ws db dl im os sp0 x fl m n Hld OK Hl Hm Hx Hos.
  destruct (file_maps arm_elf ws db dl im m (or_intror eq_refl) OK Hl Hm) as (He & Hw & Hd).
  rewrite He. split; [exact Hd|].
  apply (ArmWhole.C13_arm_executes_partial p hard elf_code_start e ws os sp0 x fl m n Hld Hos). split; auto.
Qed.
Print Assumptions C14_arm_file_executes.

(** non-vacuity: code of two words, three bytes of data in a full-size buffer *)
Example C14_case : buffers_ok (code_bytes [0x13; 0x73]) ([1; 2; 3] ++ List.repeat 9 262141) 3.
Proof.
  constructor; vm_compute; intuition congruence.
Qed.
Example C14_case_file :
  elf_load (elf_generate riscv_elf (code_bytes [0x13; 0x73]) [1; 2; 3; 9; 9; 9] 3) =
  Some (mkimg 0xf3 0 0x10054 [mkseg 0x10054 [0x13; 0; 0; 0; 0x73; 0; 0; 0; 1; 2; 3; 9] 7]).
Proof. vm_compute. reflexivity. Qed.
(** the demonstration program of C12 as a file, mapped into memory *)
Example C14_case_mapped : LayoutSpec.demo_cs = elf_code_start /\
  buffers_ok (code_bytes (snd RvWhole.demo_ew)) (List.repeat 0 262144) 0.
Proof. split; [reflexivity|]. constructor; try (vm_compute; intuition congruence). Qed.
