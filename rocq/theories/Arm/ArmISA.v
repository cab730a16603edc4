(** ARMv7-A, A32 state: instruction decoder and execution, written from the "ARM
    Architecture Reference Manual, ARMv7-A and ARMv7-R edition" (chapters A5, A8).
    Specification side: nothing here is derived from the shecc sources.

    Instructions outside the subset below, and encodings the manual calls
    UNPREDICTABLE, do not decode ([None]); a processor in a state the model does
    not cover (Thumb state, alignment fault) is [AStuck]. *)
From Verif.Base Require Export Int32 Mem Os.

Inductive cond := EQ | NE | CS | CC | MI | PL | VS | VC | HI | LS | GE | LT | GT | LE | AL.
Inductive dpop := AND | EOR | SUB | RSB | ADD | TST | TEQ | CMP | CMN | ORR | MOV | BIC | MVN.
Inductive shty := LSL | LSR | ASR.

(** second operand of a data-processing instruction *)
Inductive op2 :=
| OImm (imm8 rot : Z)          (* imm8 rotated right by 2*rot *)
| OReg (rm : Z) (t : shty) (amt : Z)   (* rm shifted by a constant *)
| ORsr (rm : Z) (t : shty) (rs : Z).   (* rm shifted by the low byte of rs *)

Inductive ainstr :=
| ADp (o : dpop) (s : bool) (rd rn : Z) (x : op2)
| AMovw (rd imm : Z)
| AMovt (rd imm : Z)
| AMul (rd rn rm : Z)
| ASdiv (rd rn rm : Z)
| ALdr (byte : bool) (rt rn ofs : Z)
| AStr (byte : bool) (rt rn ofs : Z)
| AStmdb (wb : bool) (rn : Z) (regs : Z)   (* regs: bit mask *)
| ALdmia (wb : bool) (rn : Z) (regs : Z)
| AB (ofs : Z)                 (* offset relative to pc + 8 *)
| ABl (ofs : Z)
| ABlx (rm : Z)
| ASvc (imm : Z).

Definition cond_of (c : Z) : option cond :=
  match c with
  | 0 => Some EQ | 1 => Some NE | 2 => Some CS | 3 => Some CC | 4 => Some MI
  | 5 => Some PL | 6 => Some VS | 7 => Some VC | 8 => Some HI | 9 => Some LS
  | 10 => Some GE | 11 => Some LT | 12 => Some GT | 13 => Some LE | 14 => Some AL
  | _ => None
  end.

(** data-processing opcode field (bits 24..21); the comparisons exist only with S=1 *)
Definition dp_of (o : Z) (s : bool) : option dpop :=
  match o with
  | 0 => Some AND | 1 => Some EOR | 2 => Some SUB | 3 => Some RSB | 4 => Some ADD
  | 8 => if s then Some TST else None | 9 => if s then Some TEQ else None
  | 10 => if s then Some CMP else None | 11 => if s then Some CMN else None
  | 12 => Some ORR | 13 => Some MOV | 14 => Some BIC | 15 => Some MVN
  | _ => None
  end.

Definition sh_of (t : Z) : option shty :=
  match t with 0 => Some LSL | 1 => Some LSR | 2 => Some ASR | _ => None end.

Definition obind {A B} (o : option A) (f : A -> option B) : option B :=
  match o with Some x => f x | None => None end.

Definition bit (w k : Z) : bool := (w / 2 ^ k) mod 2 =? 1.

(** the fields: op = bits 27..20, rn = 19..16, rd = 15..12, lo = 11..0 *)
Definition adec (op rn rd lo : Z) : option ainstr :=
  let s := bit op 0 in
  let rm := lo mod 16 in
  if op <? 32 then
    if bit lo 4 && bit lo 7 then
      if (op =? 0) && (lo / 16 mod 16 =? 9) && (rd =? 0) then
        let rs := lo / 256 in
        if (rn =? 15) || (rm =? 15) || (rs =? 15) then None else Some (AMul rn rm rs)
      else None
    else if (op / 8 =? 2) && negb s then
      if (op =? 18) && (lo / 16 =? 243) && (rd =? 15) && (rn =? 15) && negb (rm =? 15)
      then Some (ABlx rm) else None
    else
      obind (dp_of (op / 2) s) (fun o =>
      obind (sh_of (lo / 32 mod 4)) (fun t =>
        if bit lo 4 then
          if (rd =? 15) || (rn =? 15) || (rm =? 15) || (lo / 256 =? 15) then None
          else Some (ADp o s rd rn (ORsr rm t (lo / 256)))
        else
          let amt := lo / 128 in
          Some (ADp o s rd rn (OReg rm t (match t with LSL => amt | _ => if amt =? 0 then 32 else amt end)))))
  else if op <? 64 then
    if op =? 48 then (if rd =? 15 then None else Some (AMovw rd (rn * 4096 + lo)))
    else if op =? 52 then (if rd =? 15 then None else Some (AMovt rd (rn * 4096 + lo)))
    else obind (dp_of (op / 2 - 16) s) (fun o => Some (ADp o s rd rn (OImm (lo mod 256) (lo / 256))))
  else if op <? 96 then
    (* single data transfer, immediate offset; only P=1, W=0 *)
    if bit op 4 && negb (bit op 1) && negb (rd =? 15) then
      let ofs := if bit op 3 then lo else - lo in
      Some (if s then ALdr (bit op 2) rd rn ofs else AStr (bit op 2) rd rn ofs)
    else None
  else if op <? 128 then
    if (op =? 113) && (lo / 16 mod 16 =? 1) && (rd =? 15) then
      if (rn =? 15) || (rm =? 15) || (lo / 256 =? 15) then None
      else Some (ASdiv rn rm (lo / 256))
    else None
  else if op <? 160 then
    let regs := rd * 4096 + lo in
    if (rn =? 15) || (regs =? 0) || (bit regs 15) || (bit op 1 && bit regs rn) then None
    else if (op =? 144) || (op =? 146) then Some (AStmdb (bit op 1) rn regs)
    else if (op =? 137) || (op =? 139) then Some (ALdmia (bit op 1) rn regs)
    else None
  else if op <? 192 then
    let o := sext 26 ((((op mod 16) * 16 + rn) * 16 + rd) * 4096 * 4 + lo * 4) in
    Some (if op <? 176 then AB o else ABl o)
  else if 240 <=? op then Some (ASvc ((((op mod 16) * 16 + rn) * 16 + rd) * 4096 + lo))
  else None.

Definition arm_decode (w : Z) : option (cond * ainstr) :=
  match cond_of (bits w 28 4), adec (bits w 20 8) (bits w 16 4) (bits w 12 4) (bits w 0 12) with
  | Some c, Some i => Some (c, i)
  | _, _ => None
  end.

Record flags := mkfl { fN : bool; fZ : bool; fC : bool; fV : bool }.
Record armstate := mkarm { apc : Z; ax : Z -> Z; af : flags; am : mem }.

(** reading r15 gives the address of the instruction plus 8 *)
Definition aget (s : armstate) (r : Z) : Z := if r =? 15 then w32 (apc s + 8) else ax s r.
Definition aset (x : Z -> Z) (r v : Z) : Z -> Z := fun q => if q =? r then w32 v else x q.

Definition cond_ok (c : cond) (f : flags) : bool :=
  match c with
  | EQ => fZ f | NE => negb (fZ f) | CS => fC f | CC => negb (fC f)
  | MI => fN f | PL => negb (fN f) | VS => fV f | VC => negb (fV f)
  | HI => fC f && negb (fZ f) | LS => negb (fC f && negb (fZ f))
  | GE => eqb (fN f) (fV f) | LT => negb (eqb (fN f) (fV f))
  | GT => negb (fZ f) && eqb (fN f) (fV f)
  | LE => negb (negb (fZ f) && eqb (fN f) (fV f))
  | AL => true
  end.

(** shifter: value and carry out ([c]: carry in) *)
Definition shift_c (t : shty) (v n : Z) (c : bool) : Z * bool :=
  if n =? 0 then (v, c) else
  match t with
  | LSL => (w32 (v * 2 ^ n), if n <=? 32 then bit v (32 - n) else false)
  | LSR => (v / 2 ^ n, bit v (n - 1))
  | ASR => (w32 (s32 v / 2 ^ n), bit (s32 v) (n - 1))
  end.

Definition ror32 (v n : Z) : Z := w32 (v / 2 ^ n + v * 2 ^ (32 - n)).

Definition op2_eval (s : armstate) (x : op2) : Z * bool :=
  let c := fC (af s) in
  match x with
  | OImm b r => let v := ror32 b (2 * r) in (v, if r =? 0 then c else bit v 31)
  | OReg rm t n => shift_c t (aget s rm) n c
  | ORsr rm t rs => shift_c t (aget s rm) (aget s rs mod 256) c
  end.

(** a + b + carry: result, carry, overflow *)
Definition add_c (a b : Z) (c : bool) : Z * bool * bool :=
  let ci := if c then 1 else 0 in
  let r := w32 (a + b + ci) in
  (r, negb (r =? a + b + ci), negb (s32 r =? s32 a + s32 b + ci)).

Definition notw (v : Z) : Z := 4294967295 - v.

(** result and new flags *)
Definition dp_eval (o : dpop) (a b : Z) (sc : bool) (f : flags) : Z * flags :=
  let logic r := (w32 r, mkfl (bit (w32 r) 31) (w32 r =? 0) sc (fV f)) in
  let arith t := let '(r, c, v) := t in (r, mkfl (bit r 31) (r =? 0) c v) in
  match o with
  | AND | TST => logic (Z.land a b)
  | EOR | TEQ => logic (Z.lxor a b)
  | ORR => logic (Z.lor a b)
  | BIC => logic (Z.land a (notw b))
  | MOV => logic b
  | MVN => logic (notw b)
  | ADD | CMN => arith (add_c a b false)
  | SUB | CMP => arith (add_c a (notw b) true)
  | RSB => arith (add_c (notw a) b true)
  end.

Definition is_test (o : dpop) : bool :=
  match o with TST | TEQ | CMP | CMN => true | _ => false end.

Fixpoint reg_list (regs : Z) (k : nat) : list Z :=
  match k with
  | O => []
  | S k' => reg_list regs k' ++ (if bit regs (Z.of_nat k') then [Z.of_nat k'] else [])
  end.
Definition regs_of (regs : Z) : list Z := reg_list regs 15.

Fixpoint st_regs (m : mem) (a : Z) (x : Z -> Z) (l : list Z) : mem :=
  match l with [] => m | r :: l' => st_regs (stw m a (x r)) (a + 4) x l' end.
Fixpoint ld_regs (m : mem) (a : Z) (x : Z -> Z) (l : list Z) : Z -> Z :=
  match l with [] => x | r :: l' => ld_regs m (a + 4) (aset x r (ldw m a)) l' end.

Inductive armres := ANext (s : armstate) | ASvcall (s : armstate) | AStuck.

(** branch to an address: ARM state requires bits 1..0 = 00 *)
Definition bx (t : Z) (x : Z -> Z) (f : flags) (m : mem) : armres :=
  if t mod 4 =? 0 then ANext (mkarm t x f m) else AStuck.

Definition arm_exec1 (i : ainstr) (s : armstate) : armres :=
  let pc4 := w32 (apc s + 4) in
  let x := ax s in let f := af s in let m := am s in
  match i with
  | ADp o sf rd rn y =>
      let (b, sc) := op2_eval s y in
      let (r, f') := dp_eval o (aget s rn) b sc f in
      let f1 := if sf then f' else f in
      if is_test o then ANext (mkarm pc4 x f1 m)
      else if rd =? 15 then (if sf then AStuck else bx r x f m)
      else ANext (mkarm pc4 (aset x rd r) f1 m)
  | AMovw rd imm => ANext (mkarm pc4 (aset x rd imm) f m)
  | AMovt rd imm => ANext (mkarm pc4 (aset x rd (imm * 65536 + x rd mod 65536)) f m)
  | AMul rd rn rm => ANext (mkarm pc4 (aset x rd (x rn * x rm)) f m)
  | ASdiv rd rn rm =>
      let r := if x rm =? 0 then 0 else Z.quot (s32 (x rn)) (s32 (x rm)) in
      ANext (mkarm pc4 (aset x rd r) f m)
  | ALdr b rt rn ofs =>
      let a := aget s rn + ofs in
      ANext (mkarm pc4 (aset x rt (if b then ldb m a else ldw m a)) f m)
  | AStr b rt rn ofs =>
      let a := aget s rn + ofs in
      ANext (mkarm pc4 x f (if b then stb m a (x rt) else stw m a (x rt)))
  | AStmdb wb rn regs =>
      let l := regs_of regs in
      let a := x rn - 4 * Z.of_nat (length l) in
      if a mod 4 =? 0 then
        ANext (mkarm pc4 (if wb then aset x rn a else x) f (st_regs m a x l))
      else AStuck
  | ALdmia wb rn regs =>
      let l := regs_of regs in
      let a := x rn in
      if a mod 4 =? 0 then
        let x1 := ld_regs m a x l in
        ANext (mkarm pc4 (if wb then aset x1 rn (a + 4 * Z.of_nat (length l)) else x1) f m)
      else AStuck
  | AB ofs => ANext (mkarm (w32 (apc s + 8 + ofs)) x f m)
  | ABl ofs => ANext (mkarm (w32 (apc s + 8 + ofs)) (aset x 14 pc4) f m)
  | ABlx rm => bx (x rm) (aset x 14 pc4) f m
  | ASvc _ => ASvcall (mkarm pc4 x f m)
  end.

Definition arm_exec (ci : cond * ainstr) (s : armstate) : armres :=
  if cond_ok (fst ci) (af s) then arm_exec1 (snd ci) s
  else ANext (mkarm (w32 (apc s + 4)) (ax s) (af s) (am s)).

(** fetch, decode, execute; a misaligned pc traps *)
Definition arm_step (s : armstate) : armres :=
  if apc s mod 4 =? 0 then
    match arm_decode (ldw (am s) (apc s)) with
    | Some i => arm_exec i s
    | None => AStuck
    end
  else AStuck.

Inductive armstatus := ARunning (s : armstate) | AExited | AStopped.

(** Linux EABI: number in r7, arguments in r0..r5, result in r0. *)
Definition arm_sys_args (s : armstate) : list Z :=
  [ax s 0; ax s 1; ax s 2; ax s 3; ax s 4; ax s 5].

Fixpoint arm_run (os : osspec) (n : nat) (s : armstate) : list event * armstatus :=
  match n with
  | O => ([], ARunning s)
  | S n' =>
      match arm_step s with
      | ANext s' => arm_run os n' s'
      | ASvcall s' =>
          let num := ax s 7 in
          let args := firstn (os_nargs os num) (arm_sys_args s) in
          match os_call os num args (am s) with
          | Some (r, m') =>
              let (t, st) := arm_run os n' (mkarm (apc s') (aset (ax s') 0 r) (af s') m') in
              ((num, args) :: t, st)
          | None => ([(num, args)], AExited)
          end
      | AStuck => ([], AStopped)
      end
  end.

(** [n] ordinary (non-system-call) steps *)
Fixpoint arm_steps (n : nat) (s : armstate) : option armstate :=
  match n with
  | O => Some s
  | S n' => match arm_step s with ANext s' => arm_steps n' s' | _ => None end
  end.
