(** RV32IM: instruction decoder and execution, written from
    "The RISC-V Instruction Set Manual, Volume I" (chapters 2 and 7).
    Specification side: nothing here is derived from the shecc sources. *)
From Verif.Base Require Export Int32 Mem Os.

Inductive rop := ADD | SUB | SLL | SLT | SLTU | XOR | SRL | SRA | OR | AND
               | MUL | DIV | REM.
Inductive iop := ADDI | SLTI | SLTIU | XORI | ORI | ANDI | SLLI | SRLI | SRAI.
Inductive lop := LB | LH | LW | LBU | LHU.
Inductive sop := SB | SH | SW.
Inductive bop := BEQ | BNE | BLT | BGE | BLTU | BGEU.

Inductive rvinstr :=
| IR (o : rop) (rd rs1 rs2 : Z)
| II (o : iop) (rd rs1 imm : Z)
| IL (o : lop) (rd rs1 imm : Z)
| IS (o : sop) (rs1 rs2 imm : Z)      (* mem[rs1+imm] := rs2 *)
| IB (o : bop) (rs1 rs2 imm : Z)
| IJAL (rd imm : Z)
| IJALR (rd rs1 imm : Z)
| ILUI (rd imm : Z)                   (* imm: the value with its low 12 bits zero *)
| IAUIPC (rd imm : Z)
| IECALL
| IEBREAK.

Definition rv_decode (w : Z) : option rvinstr :=
  let opc := bits w 0 7 in
  let rd := bits w 7 5 in
  let f3 := bits w 12 3 in
  let rs1 := bits w 15 5 in
  let rs2 := bits w 20 5 in
  let f7 := bits w 25 7 in
  let immI := sext 12 (bits w 20 12) in
  let immS := sext 12 (bits w 25 7 * 32 + bits w 7 5) in
  let immB := sext 13 (bits w 31 1 * 4096 + bits w 7 1 * 2048
                       + bits w 25 6 * 32 + bits w 8 4 * 2) in
  let immU := bits w 12 20 * 4096 in
  let immJ := sext 21 (bits w 31 1 * 1048576 + bits w 12 8 * 4096
                       + bits w 20 1 * 2048 + bits w 21 10 * 2) in
  match opc with
  | 51 => (* OP *)
      match f7, f3 with
      | 0, 0 => Some (IR ADD rd rs1 rs2)
      | 32, 0 => Some (IR SUB rd rs1 rs2)
      | 0, 1 => Some (IR SLL rd rs1 rs2)
      | 0, 2 => Some (IR SLT rd rs1 rs2)
      | 0, 3 => Some (IR SLTU rd rs1 rs2)
      | 0, 4 => Some (IR XOR rd rs1 rs2)
      | 0, 5 => Some (IR SRL rd rs1 rs2)
      | 32, 5 => Some (IR SRA rd rs1 rs2)
      | 0, 6 => Some (IR OR rd rs1 rs2)
      | 0, 7 => Some (IR AND rd rs1 rs2)
      | 1, 0 => Some (IR MUL rd rs1 rs2)
      | 1, 4 => Some (IR DIV rd rs1 rs2)
      | 1, 6 => Some (IR REM rd rs1 rs2)
      | _, _ => None
      end
  | 19 => (* OP-IMM *)
      match f3 with
      | 0 => Some (II ADDI rd rs1 immI)
      | 2 => Some (II SLTI rd rs1 immI)
      | 3 => Some (II SLTIU rd rs1 immI)
      | 4 => Some (II XORI rd rs1 immI)
      | 6 => Some (II ORI rd rs1 immI)
      | 7 => Some (II ANDI rd rs1 immI)
      | 1 => if f7 =? 0 then Some (II SLLI rd rs1 rs2) else None
      | 5 => if f7 =? 0 then Some (II SRLI rd rs1 rs2)
             else if f7 =? 32 then Some (II SRAI rd rs1 rs2) else None
      | _ => None
      end
  | 3 => (* LOAD *)
      match f3 with
      | 0 => Some (IL LB rd rs1 immI)
      | 1 => Some (IL LH rd rs1 immI)
      | 2 => Some (IL LW rd rs1 immI)
      | 4 => Some (IL LBU rd rs1 immI)
      | 5 => Some (IL LHU rd rs1 immI)
      | _ => None
      end
  | 35 => (* STORE *)
      match f3 with
      | 0 => Some (IS SB rs1 rs2 immS)
      | 1 => Some (IS SH rs1 rs2 immS)
      | 2 => Some (IS SW rs1 rs2 immS)
      | _ => None
      end
  | 99 => (* BRANCH *)
      match f3 with
      | 0 => Some (IB BEQ rs1 rs2 immB)
      | 1 => Some (IB BNE rs1 rs2 immB)
      | 4 => Some (IB BLT rs1 rs2 immB)
      | 5 => Some (IB BGE rs1 rs2 immB)
      | 6 => Some (IB BLTU rs1 rs2 immB)
      | 7 => Some (IB BGEU rs1 rs2 immB)
      | _ => None
      end
  | 111 => Some (IJAL rd immJ)
  | 103 => if f3 =? 0 then Some (IJALR rd rs1 immI) else None
  | 55 => Some (ILUI rd immU)
  | 23 => Some (IAUIPC rd immU)
  | 115 => if w =? 115 then Some IECALL
           else if w =? 1048691 then Some IEBREAK else None
  | _ => None
  end.

Record rvstate := mkrv { rpc : Z; rx : Z -> Z; rm : mem }.

Definition rget (s : rvstate) (r : Z) : Z := if r =? 0 then 0 else rx s r.
Definition xset (x : Z -> Z) (r v : Z) : Z -> Z :=
  if r =? 0 then x else fun q => if q =? r then w32 v else x q.

Definition rop_eval (o : rop) (a b : Z) : Z :=
  match o with
  | ADD => a + b
  | SUB => a - b
  | SLL => a * 2 ^ (b mod 32)
  | SLT => if s32 a <? s32 b then 1 else 0
  | SLTU => if a <? b then 1 else 0
  | XOR => Z.lxor a b
  | SRL => a / 2 ^ (b mod 32)
  | SRA => s32 a / 2 ^ (b mod 32)
  | OR => Z.lor a b
  | AND => Z.land a b
  | MUL => a * b
  | DIV => if b =? 0 then -1 else Z.quot (s32 a) (s32 b)
  | REM => if b =? 0 then a else Z.rem (s32 a) (s32 b)
  end.

Definition iop_eval (o : iop) (a imm : Z) : Z :=
  match o with
  | ADDI => a + imm
  | SLTI => if s32 a <? imm then 1 else 0
  | SLTIU => if a <? w32 imm then 1 else 0
  | XORI => Z.lxor a (w32 imm)
  | ORI => Z.lor a (w32 imm)
  | ANDI => Z.land a (w32 imm)
  | SLLI => a * 2 ^ imm
  | SRLI => a / 2 ^ imm
  | SRAI => s32 a / 2 ^ imm
  end.

Definition bop_eval (o : bop) (a b : Z) : bool :=
  match o with
  | BEQ => a =? b
  | BNE => negb (a =? b)
  | BLT => s32 a <? s32 b
  | BGE => negb (s32 a <? s32 b)
  | BLTU => a <? b
  | BGEU => negb (a <? b)
  end.

Definition lop_eval (o : lop) (m : mem) (a : Z) : Z :=
  match o with
  | LB => sext 8 (ldb m a)
  | LH => sext 16 (ldh m a)
  | LW => ldw m a
  | LBU => ldb m a
  | LHU => ldh m a
  end.

Definition sop_eval (o : sop) (m : mem) (a v : Z) : mem :=
  match o with SB => stb m a v | SH => sth m a v | SW => stw m a v end.

Inductive rvres := RNext (s : rvstate) | REcall (s : rvstate) | RStuck.

Definition rv_exec (i : rvinstr) (s : rvstate) : rvres :=
  let pc4 := w32 (rpc s + 4) in
  match i with
  | IR o rd a b =>
      RNext (mkrv pc4 (xset (rx s) rd (rop_eval o (rget s a) (rget s b))) (rm s))
  | II o rd a imm =>
      RNext (mkrv pc4 (xset (rx s) rd (iop_eval o (rget s a) imm)) (rm s))
  | IL o rd a imm =>
      RNext (mkrv pc4 (xset (rx s) rd (lop_eval o (rm s) (rget s a + imm))) (rm s))
  | IS o a b imm =>
      RNext (mkrv pc4 (rx s) (sop_eval o (rm s) (rget s a + imm) (rget s b)))
  | IB o a b imm =>
      RNext (mkrv (if bop_eval o (rget s a) (rget s b)
                   then w32 (rpc s + imm) else pc4) (rx s) (rm s))
  | IJAL rd imm =>
      RNext (mkrv (w32 (rpc s + imm)) (xset (rx s) rd pc4) (rm s))
  | IJALR rd a imm =>
      let t := w32 (rget s a + imm) in
      RNext (mkrv (t - t mod 2) (xset (rx s) rd pc4) (rm s))
  | ILUI rd imm => RNext (mkrv pc4 (xset (rx s) rd imm) (rm s))
  | IAUIPC rd imm => RNext (mkrv pc4 (xset (rx s) rd (rpc s + imm)) (rm s))
  | IECALL => REcall (mkrv pc4 (rx s) (rm s))
  | IEBREAK => RStuck
  end.

(** fetch, decode, execute; a misaligned pc traps *)
Definition rv_step (s : rvstate) : rvres :=
  if rpc s mod 4 =? 0 then
    match rv_decode (ldw (rm s) (rpc s)) with
    | Some i => rv_exec i s
    | None => RStuck
    end
  else RStuck.

Inductive rvstatus := Running (s : rvstate) | Exited | Stuck.

(** Linux RV32: number in a7, arguments in a0..a5, result in a0. *)
Definition rv_sys_args (s : rvstate) : list Z :=
  [rget s 10; rget s 11; rget s 12; rget s 13; rget s 14; rget s 15].

Fixpoint rv_run (os : osspec) (n : nat) (s : rvstate) : list event * rvstatus :=
  match n with
  | O => ([], Running s)
  | S n' =>
      match rv_step s with
      | RNext s' => rv_run os n' s'
      | REcall s' =>
          let num := rget s 17 in
          let args := firstn (os_nargs os num) (rv_sys_args s) in
          match os_call os num args (rm s) with
          | Some (r, m') =>
              let (t, st) := rv_run os n' (mkrv (rpc s') (xset (rx s') 10 r) m') in
              ((num, args) :: t, st)
          | None => ([(num, args)], Exited)
          end
      | RStuck => ([], Stuck)
      end
  end.

(** [n] ordinary (non-system-call) steps *)
Fixpoint rv_steps (n : nat) (s : rvstate) : option rvstate :=
  match n with
  | O => Some s
  | S n' => match rv_step s with RNext s' => rv_steps n' s' | _ => None end
  end.
