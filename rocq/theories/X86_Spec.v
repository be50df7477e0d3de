(** The x86-64 machine, as far as the code generator uses it: a decoder of instructions and what they do.
    Written from the architecture's definition, not from the code generator. *)
From Coq Require Import List ZArith Bool.
Import ListNotations.
Local Open Scope Z_scope.

(** ** Values *)
Definition low (size v : Z) : Z := v mod 2 ^ (8 * size).
Definition sval (size v : Z) : Z :=
  let u := low size v in if u <? 2 ^ (8 * size - 1) then u else u - 2 ^ (8 * size).

(** ** State *)
Record flags := Flags { zf : bool; sf : bool; ovf : bool; cf : bool; pf : bool }.
Record state := State { gpr : Z -> Z; xmm : Z -> Z; mem : Z -> Z; flg : flags }.
Definition set (f : Z -> Z) (k v : Z) : Z -> Z := fun x => if x =? k then v else f x.
Definition wrap (a : Z) : Z := a mod 2 ^ 64.
(** little-endian memory *)
Fixpoint load (n : nat) (m : Z -> Z) (a : Z) : Z :=
  match n with O => 0 | S k => m (wrap a) mod 256 + 256 * load k m (a + 1) end.
Fixpoint store (n : nat) (m : Z -> Z) (a v : Z) : Z -> Z :=
  match n with O => m | S k => set (store k m (a + 1) (v / 256)) (wrap a) (v mod 256) end.

(** ** Operands.  [High r] is the second byte of rax, rcx, rdx or rbx. *)
Inductive operand := Reg (r : Z) | High (r : Z) | Mem (base : Z) (index : option (Z * Z)) (disp : Z).
Definition address (s : state) (base : Z) (index : option (Z * Z)) (disp : Z) : Z :=
  gpr s base + match index with Some (r, scale) => gpr s r * scale | None => 0 end + disp.
Definition readOp (size : Z) (s : state) (o : operand) : Z :=
  match o with
  | Reg r => low size (gpr s r)
  | High r => low 1 (gpr s r / 256)
  | Mem b i d => load (Z.to_nat size) (mem s) (address s b i d)
  end.
(** what a register holds after a write: 32-bit results clear the upper half, shorter ones keep it *)
Definition merge (size old v : Z) : Z :=
  if size =? 8 then low 8 v else if size =? 4 then low 4 v
  else (old / 2 ^ (8 * size)) * 2 ^ (8 * size) + low size v.
Definition writeOp (size : Z) (s : state) (o : operand) (v : Z) : state :=
  match o with
  | Reg r => State (set (gpr s) r (merge size (gpr s r) v)) (xmm s) (mem s) (flg s)
  | High r => State (set (gpr s) r ((gpr s r / 65536) * 65536 + low 1 v * 256 + low 1 (gpr s r))) (xmm s) (mem s) (flg s)
  | Mem b i d => State (gpr s) (xmm s) (store (Z.to_nat size) (mem s) (address s b i d) v) (flg s)
  end.
Definition setFlags (s : state) (f : flags) : state := State (gpr s) (xmm s) (mem s) f.
Definition setXmm (s : state) (r v : Z) : state := State (gpr s) (set (xmm s) r v) (mem s) (flg s).

(** ** Instructions *)
Inductive alu := Add | Or | And | Sub | Xor | Cmp.
Inductive shift := Shl | Shr | Sar.
Inductive instr :=
| IAlu (op : alu) (size : Z) (dst src : operand)
| IAluImm (op : alu) (size : Z) (dst : operand) (imm : Z)
| IMov (size : Z) (dst src : operand)
| IMovImm (size : Z) (dst : operand) (imm : Z)
| IMovsx (dsize ssize r : Z) (src : operand)
| IMovzx (dsize ssize r : Z) (src : operand)
| IImul (size r : Z) (src : operand)
| IImulImm (size r : Z) (src : operand) (imm : Z)
| INeg (size : Z) (dst : operand)
| IIdiv (size : Z) (src : operand)
| ICdq (size : Z)
| IShift (op : shift) (size : Z) (dst : operand) (count : option Z)  (* None: cl *)
| IXchg (size : Z) (dst : operand) (r : Z)
| IPush (r : Z) | IPop (r : Z)
| IMovXX (size dst src : Z)
| IMovXG (size dst : Z) (src : operand)
| IMovGX (size : Z) (dst : operand) (src : Z)
| IUcom (size a b : Z)
| IXorps (dst src : Z) | IAndps (dst src : Z)
| IFloat (op size dst : Z) (src : operand + Z)  (* memory, or an xmm register *)
| IJcc (cc rel : Z)
| IJccShort (cc rel : Z).

(** ** Decoding *)
Record rex := Rex { present : bool; rw : bool; rr : bool; rx : bool; rb : bool }.
Inductive prefix := P0 | P66 | PF2 | PF3.
Definition getPrefix (l : list Z) : prefix * list Z :=
  match l with
  | b :: r => if b =? 102 then (P66, r) else if b =? 242 then (PF2, r) else if b =? 243 then (PF3, r) else (P0, l)
  | [] => (P0, l)
  end.
Definition getRex (l : list Z) : rex * list Z :=
  match l with
  | b :: r => if (64 <=? b) && (b <=? 79)
              then (Rex true (Z.testbit b 3) (Z.testbit b 2) (Z.testbit b 1) (Z.testbit b 0), r)
              else (Rex false false false false false, l)
  | [] => (Rex false false false false false, l)
  end.
Definition ext (b : bool) (code : Z) : Z := if b then code + 8 else code.
(** an immediate of n bytes, as a signed number *)
Fixpoint unsignedImm (n : nat) (l : list Z) : option (Z * list Z) :=
  match n, l with
  | O, _ => Some (0, l)
  | S k, b :: r => match unsignedImm k r with Some (v, r') => Some (b + 256 * v, r') | None => None end
  | _, [] => None
  end.
Definition getImm (n : nat) (l : list Z) : option (Z * list Z) :=
  match unsignedImm n l with Some (v, r) => Some (sval (Z.of_nat n) v, r) | None => None end.
Definition getDisp (mod_ : Z) (l : list Z) : option (Z * list Z) :=
  if mod_ =? 0 then Some (0, l) else if mod_ =? 1 then getImm 1 l else getImm 4 l.
(** ModRM, SIB and displacement: the code in the reg field, the operand of the r/m field (a register
    by its number); forms with no base register are not needed *)
Definition getModrm (x : rex) (l : list Z) : option (Z * operand * list Z) :=
  match l with
  | [] => None
  | m :: r =>
    let mod_ := m / 64 in let reg := (m / 8) mod 8 in let rm := m mod 8 in
    if mod_ =? 3 then Some (reg, Reg (ext (rb x) rm), r)
    else if rm =? 4 then
      match r with
      | [] => None
      | s :: r' =>
        let index := ext (rx x) ((s / 8) mod 8) in
        if (s mod 8 =? 5) && (mod_ =? 0) then None
        else match getDisp mod_ r' with
             | Some (d, r'') => Some (reg, Mem (ext (rb x) (s mod 8)) (if index =? 4 then None else Some (index, 2 ^ (s / 64))) d, r'')
             | None => None
             end
      end
    else if (rm =? 5) && (mod_ =? 0) then None
    else match getDisp mod_ r with Some (d, r') => Some (reg, Mem (ext (rb x) rm) None d, r') | None => None end
  end.
(** without a REX prefix the byte registers 4..7 are the second bytes of registers 0..3 *)
Definition byteOp (x : rex) (o : operand) : operand :=
  match o with
  | Reg r => if negb (present x) && (4 <=? r) then High (r - 4) else o
  | _ => o
  end.
Definition aluOf (n : Z) : option alu :=
  if n =? 0 then Some Add else if n =? 1 then Some Or else if n =? 4 then Some And
  else if n =? 5 then Some Sub else if n =? 6 then Some Xor else if n =? 7 then Some Cmp else None.
Definition shiftOf (n : Z) : option shift :=
  if n =? 4 then Some Shl else if n =? 5 then Some Shr else if n =? 7 then Some Sar else None.
Definition xmmOf (o : operand) : operand + Z := match o with Reg r => inr r | _ => inl o end.

Definition bindO {A B} (x : option A) (f : A -> option B) : option B := match x with Some a => f a | None => None end.
Notation "'let?' p := x 'in' e" := (bindO x (fun y => match y with p => e end)) (at level 200, p pattern, only parsing).

(** the two-byte opcodes *)
Definition decode0F (p : prefix) (x : rex) (size : Z) (l : list Z) : option (instr * list Z) :=
  match l with
  | [] => None
  | o :: r =>
    if (128 <=? o) && (o <=? 143) then let? (d, r') := getImm 4 r in Some (IJcc (o - 128) d, r')
    else
      let? (reg, rm, r') := getModrm x r in
      let g := ext (rr x) reg in
      if o =? 190 then Some (IMovsx size 1 g (byteOp x rm), r')
      else if o =? 191 then Some (IMovsx size 2 g rm, r')
      else if o =? 183 then Some (IMovzx size 2 g rm, r')
      else if o =? 175 then Some (IImul size g rm, r')
      else if o =? 16 then
        match p, rm with
        | PF3, Reg m => Some (IMovXX 4 g m, r')
        | PF2, Reg m => Some (IMovXX 8 g m, r')
        | _, _ => None
        end
      else if o =? 110 then match p with P66 => Some (IMovXG (if rw x then 8 else 4) g rm, r') | _ => None end
      else if o =? 126 then match p with P66 => Some (IMovGX (if rw x then 8 else 4) rm g, r') | _ => None end
      else if o =? 46 then
        match p, rm with
        | P0, Reg m => Some (IUcom 4 g m, r')
        | P66, Reg m => Some (IUcom 8 g m, r')
        | _, _ => None
        end
      else if o =? 87 then match p, rm with P0, Reg m => Some (IXorps g m, r') | _, _ => None end
      else if o =? 84 then match p, rm with P0, Reg m => Some (IAndps g m, r') | _, _ => None end
      else if (o =? 88) || (o =? 89) || (o =? 92) || (o =? 94) then
        match p with
        | PF3 => Some (IFloat o 4 g (xmmOf rm), r')
        | PF2 => Some (IFloat o 8 g (xmmOf rm), r')
        | _ => None
        end
      else None
  end.
Definition decodeOp (p : prefix) (x : rex) (o : Z) (r : list Z) : option (instr * list Z) :=
  let size := if rw x then 8 else match p with P66 => 2 | _ => 4 end in
  if o =? 15 then decode0F p x size r
  else if (80 <=? o) && (o <=? 87) then Some (IPush (ext (rb x) (o - 80)), r)
  else if (88 <=? o) && (o <=? 95) then Some (IPop (ext (rb x) (o - 88)), r)
  else if (112 <=? o) && (o <=? 127) then let? (d, r') := getImm 1 r in Some (IJccShort (o - 112) d, r')
  else if (184 <=? o) && (o <=? 191) then
    let? (v, r') := (if rw x then getImm 8 r else getImm 4 r) in Some (IMovImm size (Reg (ext (rb x) (o - 184))) v, r')
  else if o =? 153 then Some (ICdq size, r)
  else
    let? (reg, rm, r') := getModrm x r in
    let g := ext (rr x) reg in
    if (o <? 64) && (o mod 8 =? 1) then let? a := aluOf (o / 8) in Some (IAlu a size rm (Reg g), r')
    else if o =? 131 then let? a := aluOf reg in let? (v, r'') := getImm 1 r' in Some (IAluImm a size rm v, r'')
    else if o =? 129 then let? a := aluOf reg in let? (v, r'') := getImm (if size =? 2 then 2 else 4) r' in Some (IAluImm a size rm v, r'')
    else if o =? 136 then Some (IMov 1 (byteOp x rm) (byteOp x (Reg g)), r')
    else if o =? 137 then Some (IMov size rm (Reg g), r')
    else if o =? 139 then Some (IMov size (Reg g) rm, r')
    else if o =? 198 then if reg =? 0 then let? (v, r'') := getImm 1 r' in Some (IMovImm 1 (byteOp x rm) v, r'') else None
    else if o =? 199 then if reg =? 0 then let? (v, r'') := getImm (if size =? 2 then 2 else 4) r' in Some (IMovImm size rm v, r'') else None
    else if o =? 99 then Some (IMovsx size 4 g rm, r')
    else if o =? 107 then let? (v, r'') := getImm 1 r' in Some (IImulImm size g rm v, r'')
    else if o =? 105 then let? (v, r'') := getImm (if size =? 2 then 2 else 4) r' in Some (IImulImm size g rm v, r'')
    else if o =? 135 then Some (IXchg size rm g, r')
    else if o =? 247 then
      if reg =? 3 then Some (INeg size rm, r') else if reg =? 7 then Some (IIdiv size rm, r') else None
    else if o =? 209 then let? k := shiftOf reg in Some (IShift k size rm (Some 1), r')
    else if o =? 193 then let? k := shiftOf reg in let? (v, r'') := getImm 1 r' in Some (IShift k size rm (Some v), r'')
    else if o =? 211 then let? k := shiftOf reg in Some (IShift k size rm None, r')
    else None.
Definition decode (l : list Z) : option (instr * list Z) :=
  let '(p, l1) := getPrefix l in
  let '(x, l2) := getRex l1 in
  match l2 with
  | [] => None
  | o :: r => decodeOp p x o r
  end.

(** ** Execution *)
Definition msb (size v : Z) : bool := negb (low size v <? 2 ^ (8 * size - 1)).
Definition flagsOf (size result : Z) (o c : bool) : flags :=
  Flags (low size result =? 0) (msb size result) o c false.
(** parity is not needed after integer operations *)
Definition aluResult (op : alu) (size x y : Z) : Z * flags :=
  match op with
  | Add => (x + y, flagsOf size (x + y) (negb (sval size x + sval size y =? sval size (x + y))) (2 ^ (8 * size) <=? x + low size y))
  | Sub | Cmp => (x - y, flagsOf size (x - y) (negb (sval size x - sval size y =? sval size (x - y))) (x <? low size y))
  | Or => (Z.lor x y, flagsOf size (Z.lor x y) false false)
  | And => (Z.land x y, flagsOf size (Z.land x y) false false)
  | Xor => (Z.lxor x y, flagsOf size (Z.lxor x y) false false)
  end.
Definition doAlu (op : alu) (size : Z) (s : state) (dst : operand) (y : Z) : state :=
  let '(v, f) := aluResult op size (readOp size s dst) y in
  match op with
  | Cmp => setFlags s f
  | _ => setFlags (writeOp size s dst v) f
  end.
(** conditions, by the low four bits of the opcode *)
Definition cond (cc : Z) (f : flags) : bool :=
  let base := match cc / 2 with
              | 1 => cf f | 2 => zf f | 3 => cf f || zf f | 4 => sf f | 5 => pf f
              | 6 => xorb (sf f) (ovf f) | 7 => xorb (sf f) (ovf f) || zf f | _ => ovf f
              end in
  if Z.odd cc then negb base else base.
Definition shiftResult (op : shift) (size x n : Z) : Z :=
  match op with
  | Shl => Z.shiftl x n
  | Shr => Z.shiftr x n
  | Sar => Z.shiftr (sval size x) n
  end.

Inductive order := Less | Equal | Greater | Unordered.
Section Exec.
(** the order and the arithmetic of floating-point values of 4 or 8 bytes *)
Context (forder : Z -> Z -> Z -> order) (farith : Z -> Z -> Z -> Z -> Z).

(** None: the machine faults (or the instruction is a jump) *)
Definition exec (i : instr) (s : state) : option state :=
  match i with
  | IAlu op size dst src => Some (doAlu op size s dst (readOp size s src))
  | IAluImm op size dst v => Some (doAlu op size s dst (low size v))
  | IMov size dst src => Some (writeOp size s dst (readOp size s src))
  | IMovImm size dst v => Some (writeOp size s dst v)
  | IMovsx d sz r src => Some (writeOp d s (Reg r) (sval sz (readOp sz s src)))
  | IMovzx d sz r src => Some (writeOp d s (Reg r) (readOp sz s src))
  | IImul size r src => Some (writeOp size s (Reg r) (sval size (gpr s r) * sval size (readOp size s src)))
  | IImulImm size r src v => Some (writeOp size s (Reg r) (sval size (readOp size s src) * v))
  | INeg size dst => Some (doAlu Sub size (writeOp size s dst 0) dst (readOp size s dst))
  | ICdq size => Some (writeOp size s (Reg 2) (if sval size (gpr s 0) <? 0 then -1 else 0))
  | IIdiv size src =>
    let n := sval size (gpr s 2) * 2 ^ (8 * size) + low size (gpr s 0) in
    let d := sval size (readOp size s src) in
    if d =? 0 then None
    else let q := Z.quot n d in
      if (- 2 ^ (8 * size - 1) <=? q) && (q <? 2 ^ (8 * size - 1))
      then Some (writeOp size (writeOp size s (Reg 0) q) (Reg 2) (Z.rem n d))
      else None
  | IShift op size dst count =>
    let n := match count with Some v => v | None => gpr s 1 end in
    let n := if size =? 8 then n mod 64 else n mod 32 in
    Some (writeOp size s dst (shiftResult op size (readOp size s dst) n))
  | IXchg size dst r =>
    let x := readOp size s dst in let y := low size (gpr s r) in
    Some (writeOp size (writeOp size s dst y) (Reg r) x)
  | IPush r => let v := gpr s r in
    let s1 := State (set (gpr s) 4 (wrap (gpr s 4 - 8))) (xmm s) (mem s) (flg s) in
    Some (writeOp 8 s1 (Mem 4 None 0) v)
  | IPop r => let v := readOp 8 s (Mem 4 None 0) in
    Some (writeOp 8 (State (set (gpr s) 4 (wrap (gpr s 4 + 8))) (xmm s) (mem s) (flg s)) (Reg r) v)
  | IMovXX size d a => Some (setXmm s d ((xmm s d / 2 ^ (8 * size)) * 2 ^ (8 * size) + low size (xmm s a)))
  | IMovXG size d src => Some (setXmm s d (readOp size s src))
  | IMovGX size dst a => Some (writeOp size s dst (low size (xmm s a)))
  | IUcom size a b =>
    Some (setFlags s match forder size (low size (xmm s a)) (low size (xmm s b)) with
                     | Less => Flags false false false true false
                     | Equal => Flags true false false false false
                     | Greater => Flags false false false false false
                     | Unordered => Flags true false false true true
                     end)
  | IXorps d a => Some (setXmm s d (Z.lxor (xmm s d) (xmm s a)))
  | IAndps d a => Some (setXmm s d (Z.land (xmm s d) (xmm s a)))
  | IFloat op size d src =>
    let y := match src with inl o => readOp size s o | inr r => low size (xmm s r) end in
    Some (setXmm s d ((xmm s d / 2 ^ (8 * size)) * 2 ^ (8 * size) + farith op size (low size (xmm s d)) y))
  | IJcc _ _ | IJccShort _ _ => None
  end.

(** Running code: it falls through at its end, takes a (long) jump, or faults. *)
Inductive outcome := Fell (s : state) | Jumped (s : state) | Fault.
Definition isJump (i : instr) : bool := match i with IJcc _ _ | IJccShort _ _ => true | _ => false end.
Inductive runs : list Z -> state -> outcome -> Prop :=
| RunEnd s : runs [] s (Fell s)
| RunStep l i r s s' o : decode l = Some (i, r) -> exec i s = Some s' -> runs r s' o -> runs l s o
| RunFault l i r s : decode l = Some (i, r) -> isJump i = false -> exec i s = None -> runs l s Fault
| RunJump l cc d r s : decode l = Some (IJcc cc d, r) -> cond cc (flg s) = true -> runs l s (Jumped s)
| RunNoJump l cc d r s o : decode l = Some (IJcc cc d, r) -> cond cc (flg s) = false -> runs r s o -> runs l s o
| RunShort l cc d r s o :
    decode l = Some (IJccShort cc d, r) -> cond cc (flg s) = true ->
    0 <= d <= Z.of_nat (length r) -> runs (skipn (Z.to_nat d) r) s o -> runs l s o
| RunNoShort l cc d r s o : decode l = Some (IJccShort cc d, r) -> cond cc (flg s) = false -> runs r s o -> runs l s o.
End Exec.

(** the signed number of [size] bytes in a register, and in memory *)
Definition int (size : Z) (s : state) (r : Z) : Z := sval size (gpr s r).
Definition memInt (size : Z) (s : state) (a : Z) : Z := sval size (load (Z.to_nat size) (mem s) a).

(** ** What may change *)
(** everything but the flags and the general registers in [rs] *)
Definition onlyGpr (rs : list Z) (s s' : state) : Prop :=
  (forall r, ~ In r rs -> gpr s' r = gpr s r) /\ (forall r, xmm s' r = xmm s r) /\ (forall a, mem s' a = mem s a).
(** everything but the flags and one xmm register *)
Definition onlyXmm (r : Z) (s s' : state) : Prop :=
  (forall q, q <> r -> xmm s' q = xmm s q) /\ (forall q, gpr s' q = gpr s q) /\ (forall a, mem s' a = mem s a).
(** everything but the flags, the registers in [rs] and [n] bytes of memory at [a], which hold [v] *)
Definition onlyStore (rs : list Z) (n a v : Z) (s s' : state) : Prop :=
  (forall r, ~ In r rs -> gpr s' r = gpr s r) /\ (forall r, xmm s' r = xmm s r) /\
  (forall x, mem s' x = store (Z.to_nat n) (mem s) a v x).
