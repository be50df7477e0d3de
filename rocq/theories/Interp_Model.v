(** The bytecode interpreter: src/interpret.cpp (64-bit words).

    Simplifications, beyond those of Interp_Types: no garbage collection or thread switch happens
    during a run (safePoint, PROTECT and the field/volatile locks are no-ops); messages and
    stack traces of exceptions the VM creates are not built; native methods, invokedynamic,
    multianewarray and impdep1 are not modelled ([decode] rejects them). assertT is compiled out
    in release builds; the assertions on slot tags are kept here as [Abort], those on the stack
    limit are not. *)
From Coq Require Import NArith ZArith List Bool.
From Verif Require Import Res Interp_Types.
Import ListNotations.
Local Open Scope N_scope.
Local Open Scope res_scope.

(** * Object memory *)

(** Object bodies are little-endian bytes from offset 0 (header word included); arrays keep
    their length apart from the body, whose offset 0 is ArrayBody. The class pointer is
    the first component. machine.h:1490-1520 (fieldAtOffset), types.def:312-364. *)
Inductive hobj :=
| HInst (cls : N) (bytes : list N)
| HArr (cls : N) (len : N) (bytes : list N).

Record heap := { objs : N -> option hobj; next : N }.

Fixpoint leval (l : list N) : N :=
  match l with [] => 0 | b :: l' => b + 256 * leval l' end.
Fixpoint lebytes (n : nat) (v : N) : list N :=
  match n with O => [] | S k => v mod 256 :: lebytes k (v / 256) end.

Definition blen (b : list N) : N := N.of_nat (length b).

(** fieldAtOffset<T> as an rvalue, n = sizeof(T) *)
Definition rdBytes (b : list N) (off n : N) : res N :=
  if off + n <=? blen b
  then Ok (leval (firstn (N.to_nat n) (skipn (N.to_nat off) b))) else UB.
(** fieldAtOffset<T> as an lvalue *)
Definition wrBytes (b : list N) (off n v : N) : res (list N) :=
  if off + n <=? blen b
  then Ok (firstn (N.to_nat off) b ++ lebytes (N.to_nat n) v ++ skipn (N.to_nat (off + n)) b)
  else UB.

Definition objAt (h : heap) (o : N) : res hobj := of_option (objs h o).
Definition objectClass (h : heap) (o : N) : res N :=
  do x <- objAt h o; match x with HInst c _ | HArr c _ _ => Ok c end.
Definition arrayAt (h : heap) (o : N) : res (N * N * list N) :=
  do x <- objAt h o; match x with HArr c n b => Ok (c, n, b) | _ => UB end.
Definition setObj (h : heap) (o : N) (x : hobj) : heap :=
  {| objs := fun a => if a =? o then Some x else objs h a; next := next h |}.
(** Allocation hands out a fresh, zeroed object (heap exhaustion is not modelled). *)
Definition alloc (h : heap) (x : hobj) : N * heap :=
  (next h, {| objs := fun a => if a =? next h then Some x else objs h a; next := next h + 8 |}).

Definition ksize (k : kind) : N :=
  match k with
  | KBool | KByte => 1 | KChar | KShort => 2 | KInt | KFlt => 4 | KLong | KDbl | KRef => 8
  end.

(** make(t, class_) / the make*Array functions *)
Definition zeroInst (E : env) (c : N) : hobj := HInst c (repeat 0 (N.to_nat (e_size E c))).
Definition zeroArr (c : N) (k : kind) (n : N) : hobj := HArr c n (repeat 0 (N.to_nat (ksize k * n))).

(** * Interpreter thread. interpret.cpp:35-53. [mem i] is the pair stack[2i], stack[2i+1];
    [ssz] = stackSizeInWords / 2; [cur] the method whose code t->code is. *)
Definition slot : Type := N * N.
Definition IntTag : N := 0.      (* machine.h:172-173 *)
Definition ObjectTag : N := 1.

Record cst := {
  mem : N -> slot; ssz : N; sp : N; frm : Z; ip : N; cur : N; exc : N; hp : heap;
  log : list mev   (* acquire/release calls, newest first *)
}.

Definition setMem (s : cst) (i : N) (v : slot) : cst :=
  {| mem := fun j => if j =? i then v else mem s j; ssz := ssz s; sp := sp s; frm := frm s;
     ip := ip s; cur := cur s; exc := exc s; hp := hp s; log := log s |}.
Definition setSp (s : cst) (n : N) : cst :=
  {| mem := mem s; ssz := ssz s; sp := n; frm := frm s; ip := ip s; cur := cur s; exc := exc s;
     hp := hp s; log := log s |}.
Definition setIp (s : cst) (n : N) : cst :=
  {| mem := mem s; ssz := ssz s; sp := sp s; frm := frm s; ip := n; cur := cur s; exc := exc s;
     hp := hp s; log := log s |}.
Definition setFrm (s : cst) (f : Z) (m : N) : cst :=
  {| mem := mem s; ssz := ssz s; sp := sp s; frm := f; ip := ip s; cur := m; exc := exc s;
     hp := hp s; log := log s |}.
Definition setExc (s : cst) (x : N) : cst :=
  {| mem := mem s; ssz := ssz s; sp := sp s; frm := frm s; ip := ip s; cur := cur s; exc := x;
     hp := hp s; log := log s |}.
Definition setHp (s : cst) (h : heap) : cst :=
  {| mem := mem s; ssz := ssz s; sp := sp s; frm := frm s; ip := ip s; cur := cur s; exc := exc s;
     hp := h; log := log s |}.
Definition addLog (s : cst) (e : mev) : cst :=
  {| mem := mem s; ssz := ssz s; sp := sp s; frm := frm s; ip := ip s; cur := cur s; exc := exc s;
     hp := hp s; log := e :: log s |}.

(** Raw slot access; outside the stack array is UB. *)
Definition rdSlot (s : cst) (i : N) : res slot := if i <? ssz s then Ok (mem s i) else UB.
Definition wrSlot (s : cst) (i : N) (v : slot) : res cst := if i <? ssz s then Ok (setMem s i v) else UB.
Definition cpSlot (s : cst) (dst src : N) : res cst := do v <- rdSlot s src; wrSlot s dst v.
(** sp - k in unsigned arithmetic: below zero the access lies outside the array. *)
Definition below (s : cst) (k : N) : res N := if k <=? sp s then Ok (sp s - k) else UB.

(** interpret.cpp:55-77 *)
Definition pushSlot (s : cst) (v : slot) : res cst :=
  do s1 <- wrSlot s (sp s) v; Ok (setSp s1 (sp s + 1)).
Definition pushObject (s : cst) (o : N) : res cst := pushSlot s (ObjectTag, o).
Definition pushInt (s : cst) (v : N) : res cst := pushSlot s (IntTag, v).
(** interpret.cpp:84-92 *)
Definition pushLong (s : cst) (v : N) : res cst :=
  do s1 <- pushInt s (N.shiftr v 32); pushInt s1 (N.land v 0xFFFFFFFF).

(** interpret.cpp:100-123 *)
Definition popSlot (s : cst) (tag : N) : res (N * cst) :=
  do i <- below s 1;
  do v <- rdSlot s i;
  if fst v =? tag then Ok (snd v, setSp s i) else Abort.
Definition popObject (s : cst) : res (N * cst) := popSlot s ObjectTag.
Definition popInt (s : cst) : res (N * cst) := popSlot s IntTag.
(** interpret.cpp:131-144 *)
Definition popLong (s : cst) : res (N * cst) :=
  do (a, s1) <- popInt s;
  do (b, s2) <- popInt s1;
  Ok (N.lor (N.shiftl b 32) a, s2).

(** interpret.cpp:152-220 *)
Definition peek (s : cst) (tag i : N) : res N :=
  do v <- rdSlot s i; if fst v =? tag then Ok (snd v) else Abort.
Definition peekObject (s : cst) (i : N) : res N := peek s ObjectTag i.
Definition peekInt (s : cst) (i : N) : res N := peek s IntTag i.
Definition peekLong (s : cst) (i : N) : res N :=
  do a <- peekInt s i; do b <- peekInt s (i + 1); Ok (N.lor (N.shiftl a 32) b).
Definition pokeObject (s : cst) (i v : N) : res cst := wrSlot s i (ObjectTag, v).
Definition pokeInt (s : cst) (i v : N) : res cst := wrSlot s i (IntTag, v).
Definition pokeLong (s : cst) (i v : N) : res cst :=
  do s1 <- pokeInt s i (N.shiftr v 32); pokeInt s1 (i + 1) (N.land v 0xFFFFFFFF).

(** interpret.cpp:29-33, 233-251 *)
Definition FrameBaseOffset : N := 0.
Definition FrameNextOffset : N := 1.
Definition FrameMethodOffset : N := 2.
Definition FrameIpOffset : N := 3.
Definition FrameFootprint : N := 4.
Definition frameIdx (f : Z) : res N := if (0 <=? f)%Z then Ok (Z.to_N f) else UB.
Definition frameNext (s : cst) (f : Z) : res Z :=
  do i <- frameIdx f; do v <- peekInt s (i + FrameNextOffset); Ok (s32 v).
Definition frameMethod (s : cst) (f : Z) : res N :=
  do i <- frameIdx f; peekObject s (i + FrameMethodOffset).
Definition frameIp (s : cst) (f : Z) : res N :=
  do i <- frameIdx f; peekInt s (i + FrameIpOffset).
Definition frameBase (s : cst) (f : Z) : res N :=
  do i <- frameIdx f; peekInt s (i + FrameBaseOffset).

(** interpret.cpp:253-281 *)
Definition localObject (s : cst) (i : N) : res N := do b <- frameBase s (frm s); peekObject s (b + i).
Definition localInt (s : cst) (i : N) : res N := do b <- frameBase s (frm s); peekInt s (b + i).
Definition localLong (s : cst) (i : N) : res N := do b <- frameBase s (frm s); peekLong s (b + i).
Definition setLocalObject (s : cst) (i v : N) : res cst := do b <- frameBase s (frm s); pokeObject s (b + i) v.
Definition setLocalInt (s : cst) (i v : N) : res cst := do b <- frameBase s (frm s); pokeInt s (b + i) v.
Definition setLocalLong (s : cst) (i v : N) : res cst := do b <- frameBase s (frm s); pokeLong s (b + i) v.
(** interpret.cpp:663-668 *)
Definition store (s : cst) (i : N) : res cst :=
  do b <- frameBase s (frm s);
  do j <- below s 1;
  do s1 <- cpSlot s (b + i) j;
  Ok (setSp s1 j).

(** memset(stack + 2*from, 0, 16 * n) *)
Definition zeroSlots (s : cst) (from n : N) : res cst :=
  if from + n <=? ssz s then
    Ok {| mem := fun j => if (from <=? j) && (j <? from + n) then (0, 0) else mem s j;
          ssz := ssz s; sp := sp s; frm := frm s; ip := ip s; cur := cur s; exc := exc s;
          hp := hp s; log := log s |}
  else UB.

(** interpret.cpp:283-327, non-native methods *)
Definition pushFrame (E : env) (s : cst) (m : N) : res cst :=
  let M := e_method E m in
  do base <- below s (m_pf M);
  do s1 <- (if m_sync M then
              if m_static M then Ok (addLog s (MEnter (m_jclass M)))
              else do o <- peekObject s base; Ok (addLog s (MEnter o))
            else Ok s);
  do s2 <- (if (0 <=? frm s1)%Z then
              do i <- frameIdx (frm s1); pokeInt s1 (i + FrameIpOffset) (ip s1)
            else Ok s1);
  let s3 := setIp s2 0 in
  let locals := m_maxLocals M in
  if locals <? m_pf M then UB else
  do s4 <- zeroSlots s3 (base + m_pf M) (locals - m_pf M);
  let frame := base + locals in
  do s5 <- pokeInt s4 (frame + FrameNextOffset) (u32 (frm s4));
  let s6 := setSp (setFrm s5 (Z.of_N frame) m) (frame + FrameFootprint) in
  do s7 <- pokeInt s6 (frame + FrameBaseOffset) base;
  do s8 <- pokeObject s7 (frame + FrameMethodOffset) m;
  pokeInt s8 (frame + FrameIpOffset) 0.

(** interpret.cpp:329-350 *)
Definition popFrame (E : env) (s : cst) : res cst :=
  do m <- frameMethod s (frm s);
  let M := e_method E m in
  do s1 <- (if m_sync M then
              if m_static M then Ok (addLog s (MExit (m_jclass M)))
              else do b <- frameBase s (frm s); do o <- peekObject s b; Ok (addLog s (MExit o))
            else Ok s);
  do b <- frameBase s1 (frm s1);
  let s2 := setSp s1 b in
  do f <- frameNext s2 (frm s2);
  if (0 <=? f)%Z then
    do m' <- frameMethod s2 f;
    do i <- frameIp s2 f;
    Ok (setIp (setFrm s2 f m') i)
  else Ok (setIp (setFrm s2 f 0) 0).

(** interpret.cpp:391-398 *)
Definition stackOverflows (E : env) (s : cst) (m : N) : bool :=
  let M := e_method E m in
  ssz s <? sp s + m_pf M + m_maxLocals M + FrameFootprint + m_maxStack M.

(** * Instruction fetch. [t->code->body()[i]] *)
Definition codeByte (E : env) (s : cst) (i : N) : res N :=
  of_option (nth_error (m_code (e_method E (cur s))) (N.to_nat i)).
Definition next1 (E : env) (s : cst) : res (N * cst) :=
  do b <- codeByte E s (ip s); Ok (b, setIp s (ip s + 1)).
(** process.h:21-26 *)
Definition codeReadInt16 (E : env) (s : cst) : res (Z * cst) :=
  do (v1, s1) <- next1 E s;
  do (v2, s2) <- next1 E s1;
  Ok (s16 (N.lor (N.shiftl v1 8) v2), s2).
(** process.h:28-35, reading at an explicit position *)
Definition codeInt32At (E : env) (s : cst) (i : N) : res Z :=
  do v1 <- codeByte E s i;
  do v2 <- codeByte E s (i + 1);
  do v3 <- codeByte E s (i + 2);
  do v4 <- codeByte E s (i + 3);
  Ok (s32 (N.lor (N.lor (N.lor (N.shiftl v1 24) (N.shiftl v2 16)) (N.shiftl v3 8)) v4)).
Definition codeReadInt32 (E : env) (s : cst) : res (Z * cst) :=
  do v <- codeInt32At E s (ip s); Ok (v, setIp s (ip s + 4)).
(** uint16_t index = codeReadInt16(t, code, ip) *)
Definition readIndex (E : env) (s : cst) : res (N * cst) :=
  do (v, s1) <- codeReadInt16 E s; Ok (u16 v, s1).

(** constants.h:16-222 *)
Definition opTable : list (N * opcode) :=
  [ (0x32, OArrLoad KRef); (0x53, OArrStore KRef); (0x01, OAconstNull);
    (0x19, OLoad TA); (0x2a, OLoadN TA 0); (0x2b, OLoadN TA 1); (0x2c, OLoadN TA 2); (0x2d, OLoadN TA 3);
    (0xbd, OAnewarray); (0xb0, OReturn (Some TA)); (0xbe, OArraylength);
    (0x3a, OStore TA); (0x4b, OStoreN TA 0); (0x4c, OStoreN TA 1); (0x4d, OStoreN TA 2); (0x4e, OStoreN TA 3);
    (0xbf, OAthrow); (0x33, OArrLoad KByte); (0x54, OArrStore KByte); (0x10, OBipush);
    (0x34, OArrLoad KChar); (0x55, OArrStore KChar); (0xc0, OCheckcast);
    (0x90, OConv D2F); (0x8e, OConv D2I); (0x8f, OConv D2L);
    (0x63, OBinD FAdd); (0x31, OArrLoad KDbl); (0x52, OArrStore KDbl);
    (0x98, ODcmp true); (0x97, ODcmp false); (0x0e, ODconst 0); (0x0f, ODconst 1);
    (0x6f, OBinD FDiv); (0x18, OLoad TD);
    (0x26, OLoadN TD 0); (0x27, OLoadN TD 1); (0x28, OLoadN TD 2); (0x29, OLoadN TD 3);
    (0x6b, OBinD FMul); (0x77, ONegD); (0x73, OBinD FRem); (0xaf, OReturn (Some TD));
    (0x39, OStore TD); (0x47, OStoreN TD 0); (0x48, OStoreN TD 1); (0x49, OStoreN TD 2); (0x4a, OStoreN TD 3);
    (0x67, OBinD FSub); (0x59, ODup); (0x5a, ODupX1); (0x5b, ODupX2); (0x5c, ODup2);
    (0x5d, ODup2X1); (0x5e, ODup2X2);
    (0x8d, OConv F2D); (0x8b, OConv F2I); (0x8c, OConv F2L);
    (0x62, OBinF FAdd); (0x30, OArrLoad KFlt); (0x51, OArrStore KFlt);
    (0x96, OFcmp true); (0x95, OFcmp false);
    (0x0b, OFconst 0); (0x0c, OFconst 1); (0x0d, OFconst 2); (0x6e, OBinF FDiv);
    (0x17, OLoad TF); (0x22, OLoadN TF 0); (0x23, OLoadN TF 1); (0x24, OLoadN TF 2); (0x25, OLoadN TF 3);
    (0x6a, OBinF FMul); (0x76, ONegF); (0x72, OBinF FRem); (0xae, OReturn (Some TF));
    (0x38, OStore TF); (0x43, OStoreN TF 0); (0x44, OStoreN TF 1); (0x45, OStoreN TF 2); (0x46, OStoreN TF 3);
    (0x66, OBinF FSub); (0xb4, OGetfield); (0xb2, OGetstatic); (0xa7, OGoto); (0xc8, OGotoW);
    (0x91, OConv I2B); (0x92, OConv I2C); (0x87, OConv I2D); (0x86, OConv I2F); (0x85, OConv I2L); (0x93, OConv I2S);
    (0x60, OBinI Add); (0x2e, OArrLoad KInt); (0x7e, OBinI And); (0x4f, OArrStore KInt);
    (0x02, OIconst (-1)); (0x03, OIconst 0); (0x04, OIconst 1); (0x05, OIconst 2); (0x06, OIconst 3);
    (0x07, OIconst 4); (0x08, OIconst 5); (0x6c, ODivI);
    (0xa5, OIfA true); (0xa6, OIfA false);
    (0x9f, OIfI Ceq); (0xa0, OIfI Cne); (0xa1, OIfI Clt); (0xa2, OIfI Cge); (0xa3, OIfI Cgt); (0xa4, OIfI Cle);
    (0x99, OIf Ceq); (0x9c, OIf Cge); (0x9d, OIf Cgt); (0x9e, OIf Cle); (0x9b, OIf Clt); (0x9a, OIf Cne);
    (0xc7, OIfNull false); (0xc6, OIfNull true); (0x84, OIinc);
    (0x15, OLoad TI); (0x1a, OLoadN TI 0); (0x1b, OLoadN TI 1); (0x1c, OLoadN TI 2); (0x1d, OLoadN TI 3);
    (0x68, OBinI Mul); (0x74, ONegI); (0xc1, OInstanceof);
    (0xb9, OInvokeinterface); (0xb7, OInvokespecial); (0xb8, OInvokestatic); (0xb6, OInvokevirtual);
    (0x80, OBinI Or); (0x70, ORemI); (0xac, OReturn (Some TI)); (0x78, OShI Shl); (0x7a, OShI Shr);
    (0x36, OStore TI); (0x3b, OStoreN TI 0); (0x3c, OStoreN TI 1); (0x3d, OStoreN TI 2); (0x3e, OStoreN TI 3);
    (0x64, OBinI Sub); (0x7c, OShI Ushr); (0x82, OBinI Xor); (0xa8, OJsr); (0xc9, OJsrW);
    (0x8a, OConv L2D); (0x89, OConv L2F); (0x88, OConv L2I);
    (0x61, OBinL Add); (0x2f, OArrLoad KLong); (0x7f, OBinL And); (0x50, OArrStore KLong); (0x94, OLcmp);
    (0x09, OLconst 0); (0x0a, OLconst 1); (0x12, OLdc); (0x13, OLdcW); (0x14, OLdc2W); (0x6d, ODivL);
    (0x16, OLoad TL); (0x1e, OLoadN TL 0); (0x1f, OLoadN TL 1); (0x20, OLoadN TL 2); (0x21, OLoadN TL 3);
    (0x69, OBinL Mul); (0x75, ONegL); (0xab, OLookupswitch); (0x81, OBinL Or); (0x71, ORemL);
    (0xad, OReturn (Some TL)); (0x79, OShL Shl); (0x7b, OShL Shr);
    (0x37, OStore TL); (0x3f, OStoreN TL 0); (0x40, OStoreN TL 1); (0x41, OStoreN TL 2); (0x42, OStoreN TL 3);
    (0x65, OBinL Sub); (0x7d, OShL Ushr); (0x83, OBinL Xor);
    (0xc2, OMonitorenter); (0xc3, OMonitorexit); (0xbb, ONew); (0xbc, ONewarray); (0x00, ONop);
    (0x57, OPop); (0x58, OPop2); (0xb5, OPutfield); (0xb3, OPutstatic); (0xa9, ORet); (0xb1, OReturn None);
    (0x35, OArrLoad KShort); (0x56, OArrStore KShort); (0x11, OSipush); (0x5f, OSwap);
    (0xaa, OTableswitch); (0xc4, OWide) ].

Definition decode (b : N) : option opcode :=
  option_map snd (find (fun e => fst e =? b) opTable).

(** * Outcomes of one instruction *)
Inductive rres := RVoid | RInt (v : N) | RLong (v : N) | RObj (o : N).
Inductive ctl := CLoop | CThrow | CRet (r : rres).

Definition loop (r : res cst) : res (cst * ctl) := do s <- r; Ok (s, CLoop).

(** exception = makeThrowable(t, type); goto throw_ *)
Definition throwNew (E : env) (s : cst) (c : N) : res (cst * ctl) :=
  let '(o, h) := alloc (hp s) (zeroInst E c) in Ok (setExc (setHp s h) o, CThrow).

(** * C++ arithmetic. Signed overflow is undefined in ISO C++; [e_wrapv] says whether the
    compiler in use wraps instead. The build passes no -fwrapv (makefile). *)
Definition ovf (E : env) (w : Z) (z : Z) : res Z :=
  if inI w z then Ok z else if e_wrapv E then Ok (sgn w z) else UB.

(** interpret.cpp:1636-1645, 1667-1674, 1953-1959, 2091-2097, 2171-2177, 2187-2193 and the
    64-bit twins 2226, 2257, 2392, 2438, 2518, 2534 *)
Definition arith (E : env) (w : Z) (o : binop) (a b : Z) : res Z :=
  match o with
  | Add => ovf E w (a + b)
  | Sub => ovf E w (a - b)
  | Mul => ovf E w (a * b)
  | And => Ok (Z.land a b)
  | Or => Ok (Z.lor a b)
  | Xor => Ok (Z.lxor a b)
  end.

(** a / b and a % b on w-bit signed operands, b <> 0: the one overflowing quotient traps
    (x86) whatever the compiler flags. *)
Definition cdiv (w : Z) (a b : Z) : res Z :=
  if (a =? minI w)%Z && (b =? -1)%Z then UB else Ok (Z.quot a b).
Definition crem (w : Z) (a b : Z) : res Z :=
  if (a =? minI w)%Z && (b =? -1)%Z then UB else Ok (Z.rem a b).

(** a << n on a signed operand *)
Definition shiftL (E : env) (w : Z) (a n : Z) : res Z :=
  let z := (a * 2 ^ n)%Z in
  if (0 <=? a)%Z && inI w z then Ok z else if e_wrapv E then Ok (sgn w z) else UB.

(** interpret.cpp:2125-2139, 2179-2185 (mask 0x1F), 2472-2486, 2526-2532 (mask 0x3F).
    [u] is the unsigned operand of the >>> forms. *)
Definition shift (E : env) (w : Z) (o : shop) (a : Z) (u : N) (n : Z) : res Z :=
  match o with
  | Shl => shiftL E w a n
  | Shr => Ok (Z.shiftr a n)
  | Ushr => Ok (Z.of_N (N.shiftr u (Z.to_N n)))
  end.

Definition test (c : cond) (a b : Z) : bool :=
  match c with
  | Ceq => (a =? b)%Z | Cne => negb (a =? b)%Z | Clt => (a <? b)%Z
  | Cge => (b <=? a)%Z | Cgt => (b <? a)%Z | Cle => (a <=? b)%Z
  end.

(** static_cast<intN_t>(f): undefined unless the truncated value fits *)
Definition castF (w : Z) (scale z : Z) : res Z :=
  let t := ftrunc scale z in if inI w t then Ok t else UB.

(** interpret.cpp:1118-1152, 1375-1392: f >= MAX ? MAX : (f <= MIN ? MIN : cast); the integer
    MAX is converted to the type of f first: [maxf]. *)
Definition f2iSat (w scale maxf : Z) (f : fnum) : res Z :=
  match f with
  | FNan => Ok 0%Z
  | FInf neg => Ok (if neg then minI w else maxI w)
  | FFin z =>
      if (maxf * 2 ^ scale <=? z)%Z then Ok (maxI w)
      else if (z <=? minI w * 2 ^ scale)%Z then Ok (minI w)
      else castF w scale z
  end.
(** interpret.cpp:1394-1408: f2l has no range check *)
Definition f2lPlain (f : fnum) : res Z :=
  match f with
  | FNan => Ok 0%Z
  | FInf neg => Ok (if neg then minI 64 else maxI 64)
  | FFin z => castF 64 scale32 z
  end.

(** interpret.cpp:1211-1247, 1465-1501: after a NaN operand a first result is pushed and
    control falls through to the comparison, which pushes a second one. *)
Definition fcmpPush (g : bool) (a b : fnum) (s : cst) : res cst :=
  let nanv := if g then 1 else u32 (-1) in
  do s1 <- (match fcompare a b with None => pushInt s nanv | Some _ => Ok s end);
  match fcompare a b with
  | Some Lt => pushInt s1 (u32 (-1))
  | Some Gt => pushInt s1 1
  | Some Eq => pushInt s1 0
  | None => pushInt s1 nanv
  end.

(** ip = (ip - k) + offset, unsigned 32-bit *)
Definition branch (s : cst) (k : Z) (off : Z) : cst := setIp s (u32 (Z.of_N (ip s) - k + off)).

(** * Arrays: interpret.cpp:807-858, 948-1038 and the twins for the other types.
    Element values as pushed / stored by kind. *)
Definition arrPush (s : cst) (k : kind) (v : N) : res cst :=
  match k with
  | KBool => pushInt s v                        (* uint8_t *)
  | KByte => pushInt s (u32 (s8 v))             (* int8_t *)
  | KChar => pushInt s v                        (* uint16_t *)
  | KShort => pushInt s (u32 (s16 v))           (* int16_t *)
  | KInt => pushInt s (u32 (s32 v))
  | KFlt => pushInt s v                         (* uint32_t *)
  | KLong | KDbl => pushLong s v
  | KRef => pushObject s v
  end.

Definition arrLoad (E : env) (k : kind) (s : cst) : res (cst * ctl) :=
  do (i, s1) <- popInt s;
  do (a, s2) <- popObject s1;
  let index := s32 i in
  if a =? 0 then throwNew E s2 (e_npe E) else
  do (c, len, b) <- arrayAt (hp s2) a;
  let k' := match k with KByte => if c =? e_arrayClass E KBool then KBool else KByte | _ => k end in
  if (0 <=? index)%Z && (u64 index <? len) then
    do v <- rdBytes b (Z.to_N index * ksize k') (ksize k');
    loop (arrPush s2 k' v)
  else throwNew E s2 (e_aioobe E).

Definition popKind (s : cst) (k : kind) : res (N * cst) :=
  match k with
  | KLong | KDbl => popLong s
  | KRef => popObject s
  | _ => popInt s
  end.

Definition arrStore (E : env) (k : kind) (s : cst) : res (cst * ctl) :=
  do (v, s0) <- popKind s k;
  do (i, s1) <- popInt s0;
  do (a, s2) <- popObject s1;
  let index := s32 i in
  if a =? 0 then throwNew E s2 (e_npe E) else
  do (c, len, b) <- arrayAt (hp s2) a;
  if (0 <=? index)%Z && (u64 index <? len) then
    do b' <- wrBytes b (Z.to_N index * ksize k) (ksize k) v;
    Ok (setHp s2 (setObj (hp s2) a (HArr c len b')), CLoop)
  else throwNew E s2 (e_aioobe E).

(** * Fields *)
(** interpret.cpp:727-757: char fields are read as int16_t *)
Definition pushField (s : cst) (target : N) (f : field) : res cst :=
  do x <- objAt (hp s) target;
  match x with
  | HArr _ _ _ => UB
  | HInst _ b =>
      do v <- rdBytes b (f_off f) (ksize (f_kind f));
      match f_kind f with
      | KByte | KBool => pushInt s (u32 (s8 v))
      | KChar | KShort => pushInt s (u32 (s16 v))
      | KFlt | KInt => pushInt s (u32 (s32 v))
      | KDbl | KLong => pushLong s (u64 (s64 v))
      | KRef => pushObject s v
      end
  end.
Definition writeField (s : cst) (target : N) (f : field) (v : N) : res cst :=
  do x <- objAt (hp s) target;
  match x with
  | HArr _ _ _ => UB
  | HInst c b =>
      do b' <- wrBytes b (f_off f) (ksize (f_kind f)) v;
      Ok (setHp s (setObj (hp s) target (HInst c b')))
  end.

(** * Calls: label invoke, interpret.cpp:2988-2996; a failing checkStack unwinds to
    interpret() (3028-3048), which re-enters interpret3 at throw_. *)
Definition doInvoke (E : env) (s : cst) (m : N) : res (cst * ctl) :=
  if stackOverflows E s m then throwNew E s (e_soe E) else loop (pushFrame E s m).

(** The receiver checks of invokevirtual/interface/special, interpret.cpp:2012-2089 *)
Definition invokeOn (E : env) (s : cst) (m : N) (select : N -> res N) : res (cst * ctl) :=
  do i <- below s (m_pf (e_method E m));
  do o <- peekObject s i;
  if o =? 0 then throwNew E s (e_npe E)
  else do m' <- select o; doInvoke E s m'.

(** * Returns: interpret.cpp:905-915, 2112-2123, 2459-2470, 2807-2822 *)
Definition ret (E : env) (bot : Z) (s : cst) (r : rres) : res (cst * ctl) :=
  if (bot <? frm s)%Z then
    do s1 <- popFrame E s;
    loop (match r with
          | RVoid => Ok s1
          | RInt v => pushInt s1 v
          | RLong v => pushLong s1 v
          | RObj o => pushObject s1 o
          end)
  else Ok (s, CRet r).

(** interpret.cpp:2405-2436. [n]: iterations left of the binary search. *)
Fixpoint lookup (n : nat) (E : env) (s : cst) (key : Z) (bottom top : Z) : res (option Z) :=
  match n with
  | O => Fuel
  | S n' =>
      let span := (top - bottom)%Z in
      if (span =? 0)%Z then Ok None else
      let middle := (bottom + Z.quot span 2)%Z in
      let index := u32 (Z.of_N (ip s) + middle * 8) in
      do k <- codeInt32At E s index;
      if (key <? k)%Z then lookup n' E s key bottom middle
      else if (k <? key)%Z then lookup n' E s key (middle + 1) top
      else do off <- codeInt32At E s (index + 4); Ok (Some off)
  end.

(** pool entry of ldc: singletonIsObject / singletonValue (see C16) *)
Definition pushConst (s : cst) (v : val) : res cst :=
  match v with
  | VRef o => pushObject s o
  | VInt z => pushInt s (u32 z)
  | VFlt b => pushInt s b
  | _ => UB
  end.
Definition constBits64 (v : val) : res N :=
  match v with VLong z => Ok (u64 z) | VDbl b => Ok b | _ => UB end.

Definition loadLocal (s : cst) (t : ty) (i : N) : res cst :=
  match t with
  | TI | TF => do v <- localInt s i; pushInt s v
  | TL | TD => do v <- localLong s i; pushLong s v
  | TA => do v <- localObject s i; pushObject s v
  end.
Definition storeLocal (s : cst) (t : ty) (i : N) : res cst :=
  match t with
  | TI | TF => do (v, s1) <- popInt s; setLocalInt s1 i v
  | TL | TD => do (v, s1) <- popLong s; setLocalLong s1 i v
  | TA => store s i
  end.

Definition float_bits (n : N) : N :=
  match n with 0 => 0 | 1 => 0x3F800000 | _ => 0x40000000 end.
Definition double_bits (n : N) : N :=
  match n with 0 => 0 | _ => 0x3FF0000000000000 end.

(** newarray's type code, constants.h:224-233 *)
Definition typeCode (b : N) : option kind :=
  match b with
  | 4 => Some KBool | 5 => Some KChar | 6 => Some KFlt | 7 => Some KDbl
  | 8 => Some KByte | 9 => Some KShort | 10 => Some KInt | 11 => Some KLong
  | _ => None
  end.

Definition execConv (E : env) (c : conv) (s : cst) : res cst :=
  let F := e_fops E in
  match c with
  | I2L => do (v, s1) <- popInt s; pushLong s1 (u64 (s32 v))
  | I2F => do (v, s1) <- popInt s; pushInt s1 (f_i2f F (s32 v))
  | I2D => do (v, s1) <- popInt s; pushLong s1 (f_i2d F (s32 v))
  | L2I => do (v, s1) <- popLong s; pushInt s1 (u32 (s32 v))
  | L2F => do (v, s1) <- popLong s; pushInt s1 (f_l2f F (s64 v))
  | L2D => do (v, s1) <- popLong s; pushLong s1 (f_l2d F (s64 v))
  | F2I => do (v, s1) <- popInt s; do r <- f2iSat 32 scale32 (2 ^ 31) (fdec32 v); pushInt s1 (u32 r)
  | F2L => do (v, s1) <- popInt s; do r <- f2lPlain (fdec32 v); pushLong s1 (u64 r)
  | F2D => do (v, s1) <- popInt s; pushLong s1 (f_f2d F v)
  | D2I => do (v, s1) <- popLong s; do r <- f2iSat 32 scale64 (2 ^ 31 - 1) (fdec64 v); pushInt s1 (u32 r)
  | D2L => do (v, s1) <- popLong s; do r <- f2iSat 64 scale64 (2 ^ 63) (fdec64 v); pushLong s1 (u64 r)
  | D2F => do (v, s1) <- popLong s; pushInt s1 (f_d2f F v)
  | I2B => do (v, s1) <- popInt s; pushInt s1 (u32 (s8 v))
  | I2C => do (v, s1) <- popInt s; pushInt s1 (v mod 2 ^ 16)
  | I2S => do (v, s1) <- popInt s; pushInt s1 (u32 (s16 v))
  end.

(** Stack shuffling by memcpy of 16-byte slots: interpret.cpp:1298-1370, 2875-2881 *)
Definition execStack (o : opcode) (s : cst) : res cst :=
  match o with
  | OPop => do i <- below s 1; Ok (setSp s i)
  | OPop2 => do i <- below s 2; Ok (setSp s i)
  | ODup =>
      do i1 <- below s 1;
      do s1 <- cpSlot s (sp s) i1; Ok (setSp s1 (sp s + 1))
  | ODupX1 =>
      do i1 <- below s 1; do i2 <- below s 2;
      do s1 <- cpSlot s (sp s) i1;
      do s2 <- cpSlot s1 i1 i2;
      do s3 <- cpSlot s2 i2 (sp s);
      Ok (setSp s3 (sp s + 1))
  | ODupX2 =>
      do i1 <- below s 1; do i2 <- below s 2; do i3 <- below s 3;
      do s1 <- cpSlot s (sp s) i1;
      do s2 <- cpSlot s1 i1 i2;
      do s3 <- cpSlot s2 i2 i3;
      do s4 <- cpSlot s3 i3 (sp s);
      Ok (setSp s4 (sp s + 1))
  | ODup2 =>
      do i1 <- below s 1; do i2 <- below s 2;
      do s1 <- cpSlot s (sp s) i2;
      do s2 <- cpSlot s1 (sp s + 1) i1;
      Ok (setSp s2 (sp s + 2))
  | ODup2X1 =>
      do i1 <- below s 1; do i2 <- below s 2; do i3 <- below s 3;
      do s1 <- cpSlot s (sp s + 1) i1;
      do s2 <- cpSlot s1 (sp s) i2;
      do s3 <- cpSlot s2 i1 i3;
      do s4 <- cpSlot s3 i3 (sp s);
      do s5 <- cpSlot s4 i2 (sp s + 1);
      Ok (setSp s5 (sp s + 2))
  | ODup2X2 =>
      do i1 <- below s 1; do i2 <- below s 2; do i3 <- below s 3; do i4 <- below s 4;
      do s1 <- cpSlot s (sp s + 1) i1;
      do s2 <- cpSlot s1 (sp s) i2;
      do s3 <- cpSlot s2 i1 i3;
      do s4 <- cpSlot s3 i2 i4;
      do s5 <- cpSlot s4 i4 (sp s);
      do s6 <- cpSlot s5 i3 (sp s + 1);
      Ok (setSp s6 (sp s + 2))
  | OSwap =>
      do i1 <- below s 1; do i2 <- below s 2;
      do tmp <- rdSlot s i1;
      do s1 <- cpSlot s i1 i2;
      wrSlot s1 i2 tmp
  | _ => UB
  end.

(** label wide, interpret.cpp:2934-2982 *)
Definition execWide (E : env) (s : cst) : res cst :=
  do (b, s0) <- next1 E s;
  match decode b with
  | Some (OLoad TA) => do (i, s1) <- readIndex E s0; do v <- localObject s1 i; pushObject s1 v
  | Some (OStore TA) =>
      do (i, s1) <- readIndex E s0;
      do (v, s2) <- popObject s1; setLocalObject s2 i v
  | Some OIinc =>
      do (i, s1) <- readIndex E s0;
      do (c, s2) <- codeReadInt16 E s1;
      do v <- localInt s2 i;
      setLocalInt s2 i (u32 (Z.of_N v + c))
  | Some (OLoad TI) => do (i, s1) <- readIndex E s0; do v <- localInt s1 i; pushInt s1 v
  | Some (OStore TI) =>
      do (i, s1) <- readIndex E s0; do (v, s2) <- popInt s1; setLocalInt s2 i v
  | Some (OLoad TL) => do (i, s1) <- readIndex E s0; do v <- localLong s1 i; pushLong s1 v
  | Some (OStore TL) =>
      do (i, s1) <- readIndex E s0; do (v, s2) <- popLong s1; setLocalLong s2 i v
  | Some ORet => do (i, s1) <- readIndex E s0; do v <- localInt s1 i; Ok (setIp s1 v)
  | _ => Abort
  end.

(** The switch of interpret3, interpret.cpp:806-2930; [s] has ip past the opcode byte. *)
Definition exec (E : env) (bot : Z) (o : opcode) (s : cst) : res (cst * ctl) :=
  match o with
  | ONop => Ok (s, CLoop)
  | OAconstNull => loop (pushObject s 0)
  | OIconst z => loop (pushInt s (u32 z))
  | OLconst z => loop (pushLong s (u64 z))
  | OFconst n => loop (pushInt s (float_bits n))
  | ODconst n => loop (pushLong s (double_bits n))
  | OBipush => do (b, s1) <- next1 E s; loop (pushInt s1 (u32 (s8 b)))
  | OSipush => do (v, s1) <- codeReadInt16 E s; loop (pushInt s1 (u32 v))
  | OLdc => do (i, s1) <- next1 E s; loop (pushConst s1 (e_const E (cur s1) i))
  | OLdcW => do (i, s1) <- readIndex E s; loop (pushConst s1 (e_const E (cur s1) i))
  | OLdc2W =>
      do (i, s1) <- readIndex E s;
      do v <- constBits64 (e_const E (cur s1) i); loop (pushLong s1 v)
  | OLoad t => do (i, s1) <- next1 E s; loop (loadLocal s1 t i)
  | OLoadN t n => loop (loadLocal s t n)
  | OStore t => do (i, s1) <- next1 E s; loop (storeLocal s1 t i)
  | OStoreN t n => loop (storeLocal s t n)
  | OArrLoad k => arrLoad E k s
  | OArrStore k => arrStore E k s
  | OPop | OPop2 | ODup | ODupX1 | ODupX2 | ODup2 | ODup2X1 | ODup2X2 | OSwap =>
      loop (execStack o s)
  | OBinI op =>
      do (b, s1) <- popInt s; do (a, s2) <- popInt s1;
      do r <- arith E 32 op (s32 a) (s32 b); loop (pushInt s2 (u32 r))
  | OBinL op =>
      do (b, s1) <- popLong s; do (a, s2) <- popLong s1;
      do r <- arith E 64 op (s64 a) (s64 b); loop (pushLong s2 (u64 r))
  | ODivI =>
      do (b, s1) <- popInt s; do (a, s2) <- popInt s1;
      if (s32 b =? 0)%Z then throwNew E s2 (e_arith E) else
      do r <- cdiv 32 (s32 a) (s32 b); loop (pushInt s2 (u32 r))
  | ORemI =>
      do (b, s1) <- popInt s; do (a, s2) <- popInt s1;
      if (s32 b =? 0)%Z then throwNew E s2 (e_arith E) else
      do r <- crem 32 (s32 a) (s32 b); loop (pushInt s2 (u32 r))
  | ODivL =>
      do (b, s1) <- popLong s; do (a, s2) <- popLong s1;
      if (s64 b =? 0)%Z then throwNew E s2 (e_arith E) else
      do r <- cdiv 64 (s64 a) (s64 b); loop (pushLong s2 (u64 r))
  | ORemL =>
      do (b, s1) <- popLong s; do (a, s2) <- popLong s1;
      if (s64 b =? 0)%Z then throwNew E s2 (e_arith E) else
      do r <- crem 64 (s64 a) (s64 b); loop (pushLong s2 (u64 r))
  | OShI op =>
      do (b, s1) <- popInt s; do (a, s2) <- popInt s1;
      do r <- shift E 32 op (s32 a) a (Z.land (s32 b) 0x1F); loop (pushInt s2 (u32 r))
  | OShL op =>
      do (b, s1) <- popInt s; do (a, s2) <- popLong s1;
      do r <- shift E 64 op (s64 a) a (Z.land (s32 b) 0x3F); loop (pushLong s2 (u64 r))
  | ONegI => do (a, s1) <- popInt s; loop (pushInt s1 (u32 (- Z.of_N a)))
  | ONegL => do (a, s1) <- popLong s; loop (pushLong s1 (u64 (- Z.of_N a)))
  | OBinF op =>
      do (b, s1) <- popInt s; do (a, s2) <- popInt s1;
      loop (pushInt s2 (f_bin32 (e_fops E) op a b))
  | OBinD op =>
      do (b, s1) <- popLong s; do (a, s2) <- popLong s1;
      loop (pushLong s2 (f_bin64 (e_fops E) op a b))
  | ONegF => do (a, s1) <- popInt s; loop (pushInt s1 (f_neg32 (e_fops E) a))
  | ONegD => do (a, s1) <- popLong s; loop (pushLong s1 (f_neg64 (e_fops E) a))
  | OIinc =>
      do (i, s1) <- next1 E s; do (c, s2) <- next1 E s1;
      do v <- localInt s2 i; loop (setLocalInt s2 i (u32 (Z.of_N v + s8 c)))
  | OConv c => loop (execConv E c s)
  | OLcmp =>
      do (b, s1) <- popLong s; do (a, s2) <- popLong s1;
      loop (pushInt s2 (if (s64 b <? s64 a)%Z then 1 else if (s64 a =? s64 b)%Z then 0 else u32 (-1)))
  | OFcmp g =>
      do (b, s1) <- popInt s; do (a, s2) <- popInt s1;
      loop (fcmpPush g (fdec32 a) (fdec32 b) s2)
  | ODcmp g =>
      do (b, s1) <- popLong s; do (a, s2) <- popLong s1;
      loop (fcmpPush g (fdec64 a) (fdec64 b) s2)
  | OIf c =>
      do (off, s0) <- codeReadInt16 E s;
      do (a, s1) <- popInt s0;
      Ok (if test c (s32 a) 0 then branch s1 3 off else s1, CLoop)
  | OIfI c =>
      do (off, s0) <- codeReadInt16 E s;
      do (b, s1) <- popInt s0; do (a, s2) <- popInt s1;
      Ok (if test c (s32 a) (s32 b) then branch s2 3 off else s2, CLoop)
  | OIfA eq =>
      do (off, s0) <- codeReadInt16 E s;
      do (b, s1) <- popObject s0; do (a, s2) <- popObject s1;
      Ok (if Bool.eqb (a =? b) eq then branch s2 3 off else s2, CLoop)
  | OIfNull isnull =>
      do (off, s0) <- codeReadInt16 E s;
      do (a, s1) <- popObject s0;
      Ok (if Bool.eqb (a =? 0) isnull then branch s1 3 off else s1, CLoop)
  | OGoto => do (off, s0) <- codeReadInt16 E s; Ok (branch s0 3 off, CLoop)
  | OGotoW => do (off, s0) <- codeReadInt32 E s; Ok (branch s0 5 off, CLoop)
  | OJsr =>
      do (off, s0) <- codeReadInt16 E s;
      do s1 <- pushInt s0 (ip s0); Ok (branch s1 3 off, CLoop)
  | OJsrW =>
      do (off, s0) <- codeReadInt32 E s;
      do s1 <- pushInt s0 (ip s0); Ok (branch s1 5 off, CLoop)
  | ORet =>
      do i <- codeByte E s (ip s); do v <- localInt s i; Ok (setIp s v, CLoop)
  | OTableswitch =>
      let base := (Z.of_N (ip s) - 1)%Z in
      let i := ip s + 3 in
      let s0 := setIp s (i - i mod 4) in
      do (default, s1) <- codeReadInt32 E s0;
      do (bottom, s2) <- codeReadInt32 E s1;
      do (top, s3) <- codeReadInt32 E s2;
      do (k, s4) <- popInt s3;
      let key := s32 k in
      if (bottom <=? key)%Z && (key <=? top)%Z then
        do off <- codeInt32At E s4 (u32 (Z.of_N (ip s4) + (key - bottom) * 4));
        Ok (setIp s4 (u32 (base + off)), CLoop)
      else Ok (setIp s4 (u32 (base + default)), CLoop)
  | OLookupswitch =>
      let base := (Z.of_N (ip s) - 1)%Z in
      let i := ip s + 3 in
      let s0 := setIp s (i - i mod 4) in
      do (default, s1) <- codeReadInt32 E s0;
      do (pairCount, s2) <- codeReadInt32 E s1;
      do (k, s3) <- popInt s2;
      do r <- lookup (S (Z.to_nat pairCount)) E s3 (s32 k) 0 pairCount;
      Ok (setIp s3 (u32 (base + match r with Some off => off | None => default end)), CLoop)
  | OReturn None => ret E bot s RVoid
  | OReturn (Some (TI | TF)) => do (v, s1) <- popInt s; ret E bot s1 (RInt v)
  | OReturn (Some (TL | TD)) => do (v, s1) <- popLong s; ret E bot s1 (RLong v)
  | OReturn (Some TA) => do (v, s1) <- popObject s; ret E bot s1 (RObj v)
  | OGetfield =>
      do i <- below s 1;
      do o <- peekObject s i;
      if o =? 0 then throwNew E s (e_npe E) else
      do (idx, s1) <- readIndex E s;
      let f := e_resolveField E (cur s1) idx in
      do (target, s2) <- popObject s1;
      loop (pushField s2 target f)
  | OGetstatic =>
      do (idx, s1) <- readIndex E s;
      let f := e_resolveField E (cur s1) idx in
      loop (pushField s1 (e_staticTable E (cur s1) idx) f)
  | OPutfield =>
      do (idx, s1) <- readIndex E s;
      let f := e_resolveField E (cur s1) idx in
      do (v, s2) <- popKind s1 (f_kind f);
      do (o, s3) <- popObject s2;
      if o =? 0 then throwNew E s3 (e_npe E) else loop (writeField s3 o f v)
  | OPutstatic =>
      do (idx, s1) <- readIndex E s;
      let f := e_resolveField E (cur s1) idx in
      do (v, s2) <- popKind s1 (f_kind f);
      loop (writeField s2 (e_staticTable E (cur s1) idx) f v)
  | OInvokestatic =>
      do (idx, s1) <- readIndex E s;
      doInvoke E s1 (e_resolveMethod E (cur s1) idx)
  | OInvokespecial =>
      do (idx, s1) <- readIndex E s;
      let m := e_resolveMethod E (cur s1) idx in
      invokeOn E s1 m (fun _ => Ok (e_special E m (m_class (e_method E (cur s1)))))
  | OInvokevirtual =>
      do (idx, s1) <- readIndex E s;
      let m := e_resolveMethod E (cur s1) idx in
      invokeOn E s1 m (fun o => do c <- objectClass (hp s1) o; Ok (e_virtual E m c))
  | OInvokeinterface =>
      do (idx, s1) <- readIndex E s;
      let s2 := setIp s1 (ip s1 + 2) in
      let m := e_resolveMethod E (cur s2) idx in
      invokeOn E s2 m (fun o => do c <- objectClass (hp s2) o; Ok (e_interface E m c))
  | ONew =>
      do (idx, s1) <- readIndex E s;
      let '(o, h) := alloc (hp s1) (zeroInst E (e_resolveClass E (cur s1) idx)) in
      loop (pushObject (setHp s1 h) o)
  | ONewarray =>
      do (n, s1) <- popInt s;
      if (s32 n <? 0)%Z then throwNew E s1 (e_negsize E) else
      do (b, s2) <- next1 E s1;
      match typeCode b with
      | None => Abort
      | Some k =>
          let '(o, h) := alloc (hp s2) (zeroArr (e_arrayClass E k) k (Z.to_N (s32 n))) in
          loop (pushObject (setHp s2 h) o)
      end
  | OAnewarray =>
      do (n, s1) <- popInt s;
      if (s32 n <? 0)%Z then throwNew E s1 (e_negsize E) else
      do (idx, s2) <- readIndex E s1;
      let c := e_objArrayClass E (e_resolveClass E (cur s2) idx) in
      let '(o, h) := alloc (hp s2) (zeroArr c KRef (Z.to_N (s32 n))) in
      loop (pushObject (setHp s2 h) o)
  | OArraylength =>
      do (a, s1) <- popObject s;
      if a =? 0 then throwNew E s1 (e_npe E) else
      do (_, len, _) <- arrayAt (hp s1) a;
      loop (pushInt s1 (len mod 2 ^ 32))
  | OAthrow =>
      do (o, s1) <- popObject s;
      if o =? 0 then throwNew E s1 (e_npe E) else Ok (setExc s1 o, CThrow)
  | OCheckcast =>
      do (idx, s1) <- readIndex E s;
      do i <- below s1 1;
      do o <- peekObject s1 i;
      if o =? 0 then Ok (s1, CLoop) else
      do c <- objectClass (hp s1) o;
      if e_instance E (e_resolveClass E (cur s1) idx) c then Ok (s1, CLoop)
      else throwNew E s1 (e_cce E)
  | OInstanceof =>
      do (idx, s1) <- readIndex E s;
      do (o, s2) <- popObject s1;
      if o =? 0 then loop (pushInt s2 0) else
      do c <- objectClass (hp s2) o;
      loop (pushInt s2 (if e_instance E (e_resolveClass E (cur s2) idx) c then 1 else 0))
  | OMonitorenter =>
      do (o, s1) <- popObject s;
      if o =? 0 then throwNew E s1 (e_npe E) else Ok (addLog s1 (MEnter o), CLoop)
  | OMonitorexit =>
      do (o, s1) <- popObject s;
      if o =? 0 then throwNew E s1 (e_npe E) else Ok (addLog s1 (MExit o), CLoop)
  | OWide => loop (execWide E s)
  end.

(** * Exception dispatch *)

(** machine.h:3221-3225, interpret.cpp:680-720. The packed form of a table entry is C13's
    subject; resolution of the catch type always succeeds here. *)
Fixpoint findHandler (E : env) (h : heap) (m : N) (i x : N) (hs : list handler) : res (option handler) :=
  match hs with
  | [] => Ok None
  | e :: hs' =>
      let p := (i + 2 ^ 32 - 1) mod 2 ^ 32 in
      if (h_start e <=? p) && (p <? h_end e) then
        if h_type e =? 0 then Ok (Some e)
        else if x =? e_shutdown E then findHandler E h m i x hs'
        else
          do c <- objectClass h x;
          if e_instance E (e_resolveClass E m (h_type e)) c then Ok (Some e)
          else findHandler E h m i x hs'
      else findHandler E h m i x hs'
  end.

Inductive sout := SLoop | SRet (r : rres) | SUncaught (o : N).

(** The loop of label throw_, interpret.cpp:3003-3015 *)
Fixpoint unwind (fuel : nat) (E : env) (bot : Z) (s : cst) : res (cst * sout) :=
  match fuel with
  | O => Fuel
  | S k =>
      if (frm s <? bot)%Z then Ok (s, SUncaught (exc s)) else
      do m <- frameMethod s (frm s);
      do i <- frameIp s (frm s);
      do eh <- findHandler E (hp s) m i (exc s) (m_handlers (e_method E m));
      match eh with
      | Some e =>
          do f <- frameIdx (frm s);
          let s1 := setIp (setSp s (f + FrameFootprint)) (h_ip e) in
          do s2 <- pushObject s1 (exc s1);
          Ok (setExc s2 0, SLoop)
      | None => do s1 <- popFrame E s; unwind k E bot s1
      end
  end.

(** One trip through label loop, and through throw_ when the instruction goes there. A frame
    index falls at every popFrame, so ssz + 2 rounds of unwinding always suffice. *)
Definition step (E : env) (bot : Z) (s : cst) : res (cst * sout) :=
  do (b, s0) <- next1 E s;
  match decode b with
  | None => Abort
  | Some o =>
      do (s1, c) <- exec E bot o s0;
      match c with
      | CLoop => Ok (s1, SLoop)
      | CRet r => Ok (s1, SRet r)
      | CThrow =>
          do f <- frameIdx (frm s1);
          do s2 <- pokeInt s1 (f + FrameIpOffset) (ip s1);
          unwind (N.to_nat (ssz s2 + 2)) E bot s2
      end
  end.

(** At most n instructions. *)
Fixpoint runN (n : nat) (E : env) (bot : Z) (s : cst) : res (cst * sout) :=
  match n with
  | O => Ok (s, SLoop)
  | S k =>
      do (s1, o) <- step E bot s;
      match o with SLoop => runN k E bot s1 | _ => Ok (s1, o) end
  end.

(** * Entry from the VM and from native code *)
(** interpret.cpp:3050-3148 pushArguments: the receiver, then one push per descriptor item. The
    argument array or va_list is the list of its values. *)
Definition pushArg (s : cst) (v : val) : res cst :=
  match v with
  | VInt z => pushInt s (u32 z)
  | VFlt b => pushInt s b
  | VLong z => pushLong s (u64 z)
  | VDbl b => pushLong s b
  | VRef o => pushObject s o
  | VRet _ => UB
  end.
Fixpoint pushArgs (s : cst) (args : list val) : res cst :=
  match args with [] => Ok s | v :: r => do s1 <- pushArg s v; pushArgs s1 r end.

Inductive iout := IRunning | IReturned (r : rres) | IThrew (o : N).

(** interpret.cpp:3389-3421 invokeArray / 3423-3455 invokeList (the stack test), then 3150-3223
    invoke (non-native, after method selection) with interpret 3028-3048, running at most n
    instructions. The C++ throw is the result [IThrew]. *)
Definition invokeN (n : nat) (E : env) (s : cst) (m : N) (args : list val) : res (cst * iout) :=
  let overflow s :=
    do (s1, _) <- throwNew E s (e_soe E); Ok (setExc s1 0, IThrew (exc s1)) in
  if ssz s <? sp s + m_pf (e_method E m) + 1 then overflow s else
  do s1 <- pushArgs s args;
  if stackOverflows E s1 m then overflow s1 else
  do s2 <- pushFrame E s1 m;
  do (s3, o) <- runN n E (frm s2) s2;
  match o with
  | SLoop => Ok (s3, IRunning)
  | SRet r => do s4 <- popFrame E s3; Ok (s4, IReturned r)
  | SUncaught x => Ok (setExc s3 0, IThrew x)
  end.
