(** Model of src/elf.c: the ELF writer. Buffers are byte lists; an index into a buffer
    is the length of what has been written. *)
From Coq Require Import Ascii String.
From Verif.Base Require Import Int32.
Open Scope Z_scope.
Open Scope list_scope.

Definition bytes (s : string) : list Z :=
  List.map (fun c => Z.of_nat (nat_of_ascii c)) (list_ascii_of_string s).

(* src/defs.h:31-36,48; src/globals.c:69-70,900 *)
Definition MAX_CODE : Z := 262144.
Definition MAX_DATA : Z := 262144.
Definition ELF_START : Z := 0x10000.
Definition elf_header_len : Z := 0x54.
Definition elf_code_start : Z := ELF_START + elf_header_len.

(* src/elf.c:37-40 *)
Definition e_extract_byte (v b : Z) : Z := Z.land (Z.shiftr v (b * 8)) 255.
(* src/elf.c:42-47 elf_write_int; the three elf_write_*_int append its bytes *)
Definition wint (v : Z) : list Z := map (e_extract_byte v) [0; 1; 2; 3].
(* src/elf.c:27-35 elf_write_header_byte / elf_write_section_byte *)
Definition wbyte (v : Z) : list Z := [v mod 256].
(* src/elf.c:15-25 elf_write_section_str *)
Definition wstr (s : string) : list Z := bytes s.

(* src/elf.c:214-227 elf_align, one index *)
Definition align4 (n : Z) : Z :=
  let remainder := Z.land n 3 in
  if remainder =? 0 then n else n + (4 - remainder).

Record elf_target := mktgt { elf_machine : Z; elf_flags : Z }.
(* mk/riscv.mk:14-15, mk/arm.mk *)
Definition riscv_elf := mktgt 0xf3 0.
Definition arm_elf := mktgt 0x28 0x5000200.

Section Gen.
  Variable t : elf_target.
  Variables code_idx data_idx symtab_index strtab_index symbol_index : Z.

  (* src/elf.c:69-120 elf_generate_header *)
  Definition elf_generate_header : list Z :=
    wint 0x464c457f ++
    wbyte 1 ++ wbyte 1 ++ wbyte 1 ++ wbyte 0 ++
    wint 0 ++ wint 0 ++
    wbyte 2 ++ wbyte 0 ++
    wbyte (elf_machine t) ++ wbyte 0 ++
    wint 1 ++
    wint (ELF_START + elf_header_len) ++
    wint 0x34 ++
    wint (elf_header_len + code_idx + data_idx + 39 + symtab_index + strtab_index) ++
    wint (elf_flags t) ++
    wbyte 0x34 ++ wbyte 0 ++
    wbyte 0x20 ++ wbyte 0 ++
    wbyte 1 ++ wbyte 0 ++
    wbyte 0x28 ++ wbyte 0 ++
    wbyte 6 ++ wbyte 0 ++
    wbyte 5 ++ wbyte 0 ++
    (* program header *)
    wint 1 ++
    wint elf_header_len ++
    wint (ELF_START + elf_header_len) ++
    wint (ELF_START + elf_header_len) ++
    wint (code_idx + data_idx) ++
    wint (code_idx + data_idx) ++
    wint 7 ++
    wint 4.

  Definition sechdr (a b c d e f g h i j : Z) : list Z :=
    wint a ++ wint b ++ wint c ++ wint d ++ wint e ++ wint f ++ wint g ++ wint h ++ wint i ++ wint j.

  (* src/elf.c:122-212 elf_generate_sections; [symtab], [strtab] the table contents *)
  Definition elf_generate_sections (symtab strtab : list Z) : list Z :=
    symtab ++ strtab ++
    wbyte 0 ++ wstr ".shstrtab" ++
    wbyte 0 ++ wstr ".text" ++
    wbyte 0 ++ wstr ".data" ++
    wbyte 0 ++ wstr ".symtab" ++
    wbyte 0 ++ wstr ".strtab" ++
    wbyte 0 ++
    sechdr 0 0 0 0 0 0 0 0 0 0 ++
    sechdr 0xb 1 7 (ELF_START + elf_header_len) elf_header_len code_idx 0 0 4 0 ++
    sechdr 0x11 1 3 (elf_code_start + code_idx) (elf_header_len + code_idx) data_idx 0 0 4 0 ++
    sechdr 0x17 2 0 0 (elf_header_len + code_idx + data_idx) symtab_index 4 symbol_index 4 16 ++
    sechdr 0x1f 3 0 0 (elf_header_len + code_idx + data_idx + symtab_index) strtab_index 0 0 1 0 ++
    sechdr 1 3 0 0 (elf_header_len + code_idx + data_idx + symtab_index + strtab_index) 39 0 0 1 0.
End Gen.

(* src/elf.c:244-267 elf_generate.  [code]: the bytes of elf_code[0..elf_code_idx);
   [data_buf]: the whole elf_data allocation (its bytes past [data_len] are whatever
   malloc returned); [data_len] = elf_data_idx on entry.  The symbol indices are reset
   to 0 first, so the symbol and string tables are written empty. *)
Definition elf_generate (t : elf_target) (code data_buf : list Z) (data_len : Z) : list Z :=
  let symbol_index := 0 in
  let symtab_index := align4 0 in
  let strtab_index := align4 0 in
  let data_idx := align4 data_len in
  let code_idx := Z.of_nat (List.length code) in
  elf_generate_header t code_idx data_idx symtab_index strtab_index ++
  code ++
  firstn (Z.to_nat data_idx) data_buf ++
  elf_generate_sections code_idx data_idx symtab_index strtab_index symbol_index [] [].
