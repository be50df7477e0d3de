(** Vocabulary shared by the interpreter model and the JVM specification: machine integers,
    IEEE numbers by their bits, instruction names and the resolved-program environment.
    No algorithm of the interpreter lives here. *)
From Coq Require Import NArith ZArith List Bool.
Import ListNotations.

(** * Machine integers. [ubits w z]: the w-bit pattern of z. [sbits w n]: the signed value of
    the low w bits of n. *)
Definition ubits (w : Z) (z : Z) : N := Z.to_N (z mod 2 ^ w).
Definition sgn (w : Z) (z : Z) : Z :=
  let m := (z mod 2 ^ w)%Z in if (m <? 2 ^ (w - 1))%Z then m else (m - 2 ^ w)%Z.
Definition sbits (w : Z) (n : N) : Z := sgn w (Z.of_N n).

Notation u8 := (ubits 8).
Notation u16 := (ubits 16).
Notation u32 := (ubits 32).
Notation u64 := (ubits 64).
Notation s8 := (sbits 8).
Notation s16 := (sbits 16).
Notation s32 := (sbits 32).
Notation s64 := (sbits 64).

Definition minI (w : Z) : Z := (- 2 ^ (w - 1))%Z.
Definition maxI (w : Z) : Z := (2 ^ (w - 1) - 1)%Z.
Definition inI (w : Z) (z : Z) : bool := (minI w <=? z)%Z && (z <=? maxI w)%Z.

(** * IEEE 754 numbers, by their bit pattern. [FFin z] stands for z * 2^-149 (single) or
    z * 2^-1074 (double): every finite number is such an integer multiple. *)
Inductive fnum := FNan | FInf (negative : bool) | FFin (scaled : Z).

Definition fdecode (ebits mbits : N) (b : N) : fnum :=
  let neg := N.testbit b (ebits + mbits) in
  let e := N.land (N.shiftr b mbits) (N.ones ebits) in
  let m := N.land b (N.ones mbits) in
  if N.eqb e (N.ones ebits) then (if N.eqb m 0 then FInf neg else FNan)
  else
    let mag := if N.eqb e 0 then Z.of_N m else ((Z.of_N m + 2 ^ Z.of_N mbits) * 2 ^ (Z.of_N e - 1))%Z in
    FFin (if neg then (- mag)%Z else mag).

Definition fdec32 : N -> fnum := fdecode 8 23.
Definition fdec64 : N -> fnum := fdecode 11 52.

(** The mathematical value, truncated toward zero, of a scaled number. *)
Definition ftrunc (scale : Z) (z : Z) : Z := Z.quot z (2 ^ scale).
Definition scale32 : Z := 149.
Definition scale64 : Z := 1074.

(** IEEE comparison; [None] when unordered. *)
Definition fcompare (a b : fnum) : option comparison :=
  match a, b with
  | FNan, _ | _, FNan => None
  | FInf x, FInf y => Some (if Bool.eqb x y then Eq else if x then Lt else Gt)
  | FInf x, FFin _ => Some (if x then Lt else Gt)
  | FFin _, FInf y => Some (if y then Gt else Lt)
  | FFin x, FFin y => Some (x ?= y)%Z
  end.

(** The rounding operations of the C++ implementation / of IEEE 754 on bit patterns. They are
    left abstract: every theorem holds for all of them. *)
Inductive fop := FAdd | FSub | FMul | FDiv | FRem.
Record fops := {
  f_bin32 : fop -> N -> N -> N;
  f_bin64 : fop -> N -> N -> N;
  f_neg32 : N -> N;
  f_neg64 : N -> N;
  f_f2d : N -> N;
  f_d2f : N -> N;
  f_i2f : Z -> N;
  f_i2d : Z -> N;
  f_l2f : Z -> N;
  f_l2d : Z -> N
}.

(** * JVM values and kinds *)
Inductive ty := TI | TL | TF | TD | TA.
Inductive kind := KBool | KByte | KChar | KShort | KInt | KLong | KFlt | KDbl | KRef.

Inductive val :=
| VInt (z : Z)
| VLong (z : Z)
| VFlt (bits : N)
| VDbl (bits : N)
| VRef (o : N)          (* 0 is null *)
| VRet (pc : N).        (* returnAddress *)

(** * Instructions, by mnemonic family *)
Inductive binop := Add | Sub | Mul | And | Or | Xor.
Inductive shop := Shl | Shr | Ushr.
Inductive cond := Ceq | Cne | Clt | Cge | Cgt | Cle.
Inductive conv :=
| I2L | I2F | I2D | L2I | L2F | L2D | F2I | F2L | F2D | D2I | D2L | D2F | I2B | I2C | I2S.

Inductive opcode :=
| ONop | OAconstNull | OIconst (z : Z) | OLconst (z : Z) | OFconst (n : N) | ODconst (n : N)
| OBipush | OSipush | OLdc | OLdcW | OLdc2W
| OLoad (t : ty) | OLoadN (t : ty) (n : N)
| OStore (t : ty) | OStoreN (t : ty) (n : N)
| OArrLoad (k : kind) | OArrStore (k : kind)
| OPop | OPop2 | ODup | ODupX1 | ODupX2 | ODup2 | ODup2X1 | ODup2X2 | OSwap
| OBinI (o : binop) | OBinL (o : binop)
| ODivI | ODivL | ORemI | ORemL
| OShI (o : shop) | OShL (o : shop) | ONegI | ONegL
| OBinF (o : fop) | OBinD (o : fop) | ONegF | ONegD
| OIinc | OConv (c : conv) | OLcmp | OFcmp (g : bool) | ODcmp (g : bool)
| OIf (c : cond) | OIfI (c : cond) | OIfA (eq : bool) | OIfNull (isnull : bool)
| OGoto | OGotoW | OJsr | OJsrW | ORet
| OTableswitch | OLookupswitch
| OReturn (t : option ty)
| OGetstatic | OPutstatic | OGetfield | OPutfield
| OInvokevirtual | OInvokespecial | OInvokestatic | OInvokeinterface
| ONew | ONewarray | OAnewarray | OArraylength | OAthrow
| OCheckcast | OInstanceof | OMonitorenter | OMonitorexit
| OWide.

(** * The program after linking. Resolution, class initialisation and method selection are
    functions here (they have their own models); native methods are not represented. *)
Record handler := { h_start : N; h_end : N; h_ip : N; h_type : N (* pool index, 0 = any *) }.

Record method := {
  m_code : list N;
  m_maxLocals : N;
  m_maxStack : N;
  m_pf : N;                     (* parameter footprint, receiver included *)
  m_static : bool;
  m_sync : bool;
  m_class : N;
  m_jclass : N;                 (* the java.lang.Class object of the declaring class *)
  m_handlers : list handler
}.

Record field := { f_id : N; f_kind : kind; f_off : N }.

Record env := {
  e_method : N -> method;
  e_resolveMethod : N -> N -> N;      (* caller, pool index *)
  e_resolveField : N -> N -> field;
  e_resolveClass : N -> N -> N;
  e_const : N -> N -> val;            (* loadable constants *)
  e_virtual : N -> N -> N;            (* method, receiver class *)
  e_interface : N -> N -> N;
  e_special : N -> N -> N;            (* method, caller class *)
  e_layout : N -> list field;         (* all instance fields of a class *)
  e_size : N -> N;                    (* instance size in bytes *)
  e_staticTable : N -> N -> N;        (* method, pool index of a static field *)
  e_arrayClass : kind -> N;
  e_objArrayClass : N -> N;           (* element class *)
  e_elemClass : N -> N;               (* class of a reference array *)
  e_instance : N -> N -> bool;        (* class, object's class *)
  e_npe : N; e_aioobe : N; e_arith : N; e_negsize : N; e_soe : N; e_cce : N; e_ase : N;
  e_shutdown : N;                     (* the object roots(t)->shutdownInProgress() *)
  e_fops : fops;
  e_wrapv : bool                      (* the C++ compiler wraps signed overflow *)
}.

(** Monitor operations, in order *)
Inductive mev := MEnter (o : N) | MExit (o : N).
