(** Model of the x86-64 code generator: src/codegen/target/x86/encode.cpp and operations.cpp
    (TargetBytesPerWord is 8).  Code is a list of bytes; registers are their numbers (rax 0 .. r15 15,
    xmm0 16 .. xmm15 31; registers.h:18-49); NoRegister is None.  Only the low register of a pair is
    used on this target. *)
From Coq Require Import List ZArith Bool.
From Verif Require Import Res.
Import ListNotations.
Local Open Scope Z_scope.
Local Open Scope res_scope.

(** lir::Memory (codegen/lir.h): base, offset, index and scale *)
Record memory := Memory { mbase : Z; moffset : Z; mindex : option Z; mscale : Z }.

Definition rax := 0. Definition rcx := 1. Definition rdx := 2. Definition rsp := 4. Definition rbp := 5.
Definition rdi := 7.

(** alloc-vector.h:101-119: append, append2, append4, appendTargetAddress, little-endian *)
Fixpoint appendBytes (n : nat) (v : Z) : list Z :=
  match n with O => [] | S k => v mod 256 :: appendBytes k (v / 256) end.
Definition append1 (v : Z) : list Z := appendBytes 1 v.
Definition append2 (v : Z) : list Z := appendBytes 2 v.
Definition append4 (v : Z) : list Z := appendBytes 4 v.
Definition append8 (v : Z) : list Z := appendBytes 8 v.

(** common.h:311-324: fitsInInt8, fitsInInt32 *)
Definition toSigned (n v : Z) : Z := (v + 2 ^ (n - 1)) mod 2 ^ n - 2 ^ (n - 1).
Definition fitsInInt8 (v : Z) : bool := v =? toSigned 8 v.
Definition fitsInInt32 (v : Z) : bool := v =? toSigned 32 v.
(** encode.cpp:29-40 [signExtend] *)
Definition signExtend (size v : Z) : Z :=
  if size =? 4 then toSigned 32 v else if size =? 2 then toSigned 16 v
  else if size =? 1 then toSigned 8 v else v.

(** encode.h [regCode], [isFloatReg] *)
Definition regCode (r : Z) : Z := Z.land r 7.
Definition isFloatReg (r : Z) : bool := 16 <=? r.
Definition has8 (r : option Z) : bool :=
  match r with Some i => negb (Z.land i 8 =? 0) | None => false end.

(** encode.cpp:54-77 [maybeRex] *)
Definition maybeRex (size : Z) (a index base : option Z) (always : bool) : list Z :=
  let byte := if size =? 8 then 72 else 64 in
  let byte := if has8 a then Z.lor byte 68 else byte in
  let byte := if has8 index then Z.lor byte 66 else byte in
  let byte := if has8 base then Z.lor byte 65 else byte in
  if always || negb (byte =? 64) then [byte] else [].
(** encode.cpp:79-102: the other forms *)
Definition maybeRexRR (size a b : Z) : list Z := maybeRex size (Some a) None (Some b) false.
Definition alwaysRexRR (size a b : Z) : list Z := maybeRex size (Some a) None (Some b) true.
Definition maybeRexR (size a : Z) : list Z := maybeRex size None None (Some a) false.
Definition maybeRexRM (size a : Z) (b : memory) : list Z :=
  maybeRex size (Some a) (mindex b) (Some (mbase b)) ((size =? 1) && negb (Z.land a 4 =? 0)).
Definition maybeRexM (size : Z) (a : memory) : list Z := maybeRex size None (mindex a) (Some (mbase a)) false.

(** encode.cpp:104-112 [modrm] *)
Definition modrm (mod_ a b : Z) : list Z := [Z.lor mod_ (Z.lor (Z.shiftl (regCode b) 3) (regCode a))].
(** util/math.h:56-62 [log]; the scales are at most 8 *)
Definition log (n : Z) : Z := if n <=? 1 then 0 else if n <=? 2 then 1 else if n <=? 4 then 2 else 3.
(** encode.cpp:114-118 [sib] *)
Definition sib (scale index base : Z) : list Z :=
  [Z.lor (Z.shiftl (log scale) 6) (Z.lor (Z.shiftl (regCode index) 3) (regCode base))].
(** encode.cpp:120-131 [modrmSib] *)
Definition modrmSib (width a scale : Z) (index : option Z) (base : Z) : list Z :=
  match index with
  | None => modrm width base a ++ (if regCode base =? rsp then sib 0 rsp rsp else [])
  | Some i => modrm width rsp a ++ sib scale i base
  end.
(** encode.cpp:133-149 [modrmSibImm] *)
Definition modrmSibImm (a : Z) (m : memory) : list Z :=
  if (moffset m =? 0) && negb (regCode (mbase m) =? rbp)
  then modrmSib 0 a (mscale m) (mindex m) (mbase m)
  else if fitsInInt8 (moffset m)
  then modrmSib 64 a (mscale m) (mindex m) (mbase m) ++ append1 (moffset m)
  else modrmSib 128 a (mscale m) (mindex m) (mbase m) ++ append4 (moffset m).

(** encode.cpp:170-176 [conditional]: the offset is filled in later *)
Definition conditional (condition : Z) : list Z := [15; condition] ++ append4 0.

(** ** Moves *)
(** encode.cpp:178-210 [sseMoveRR] *)
Definition sseMoveRR (size a b : Z) : list Z :=
  if isFloatReg a && isFloatReg b then
    if size =? 4 then [243] ++ maybeRexRR 4 a b ++ [15; 16] ++ modrm 192 a b
    else [242] ++ maybeRexRR 4 b a ++ [15; 16] ++ modrm 192 a b
  else if isFloatReg a then [102] ++ maybeRexRR size a b ++ [15; 126] ++ modrm 192 b a
  else [102] ++ maybeRexRR size b a ++ [15; 110] ++ modrm 192 a b.
(** encode.cpp:225-264 [sseMoveMR], [sseMoveRM] *)
Definition sseMoveMR (size : Z) (a : memory) (b : Z) : list Z :=
  [102] ++ maybeRexRM size b a ++ [15; 110] ++ modrmSibImm b a.
Definition sseMoveRM (size a : Z) (b : memory) : list Z :=
  [102] ++ maybeRexRM size a b ++ [15; 126] ++ modrmSibImm a b.
(** encode.cpp:395-428 [moveCR2], for a constant already known *)
Definition moveCR2 (aSize v b : Z) : list Z :=
  maybeRexR 8 b ++ [184 + regCode b] ++ append8 (signExtend aSize v).
(** operations.cpp:239-250 [moveCR]; encode.cpp:212-223 [sseMoveCR] with the temporary [tmp] *)
Definition moveCR (tmp aSize v b : Z) : list Z :=
  if isFloatReg b then moveCR2 aSize v tmp ++ sseMoveRR aSize tmp b else moveCR2 aSize v b.
(** operations.cpp:252-266 [moveZCR] *)
Definition moveZCR (v b : Z) : list Z := maybeRexR 8 b ++ [184 + regCode b] ++ append8 (v mod 2 ^ 16).
(** operations.cpp:268-280 [swapRR] *)
Definition swapRR (a b : Z) : list Z := alwaysRexRR 8 a b ++ [135] ++ modrm 192 b a.
(** operations.cpp:282-363 [moveRR]; any other size emits nothing *)
Definition moveRR (aSize a bSize b : Z) : list Z :=
  if isFloatReg a || isFloatReg b then sseMoveRR aSize a b
  else if aSize =? 1 then alwaysRexRR aSize b a ++ [15; 190] ++ modrm 192 a b
  else if aSize =? 2 then alwaysRexRR aSize b a ++ [15; 191] ++ modrm 192 a b
  else if aSize =? 4 then
    if bSize =? 8 then alwaysRexRR bSize b a ++ [99] ++ modrm 192 a b
    else if a =? b then [] else alwaysRexRR aSize a b ++ [137] ++ modrm 192 b a
  else if aSize =? 8 then
    if a =? b then [] else maybeRexRR aSize a b ++ [137] ++ modrm 192 b a
  else [].
(** operations.cpp:365-425 [moveMR] *)
Definition moveMR (aSize : Z) (a : memory) (bSize b : Z) : res (list Z) :=
  if isFloatReg b then Ok (sseMoveMR aSize a b)
  else if aSize =? 1 then Ok (maybeRexRM bSize b a ++ [15; 190] ++ modrmSibImm b a)
  else if aSize =? 2 then Ok (maybeRexRM bSize b a ++ [15; 191] ++ modrmSibImm b a)
  else if aSize =? 4 then Ok (maybeRexRM bSize b a ++ [99] ++ modrmSibImm b a)
  else if aSize =? 8 then Ok (maybeRexRM bSize b a ++ [139] ++ modrmSibImm b a)
  else Abort.
(** operations.cpp:427-483 [moveRM] *)
Definition moveRM (aSize a : Z) (b : memory) : res (list Z) :=
  if isFloatReg a then Ok (sseMoveRM aSize a b)
  else if aSize =? 1 then Ok (maybeRexRM aSize a b ++ [136] ++ modrmSibImm a b)
  else if aSize =? 2 then Ok ([102] ++ maybeRexRM aSize a b ++ [137] ++ modrmSibImm a b)
  else if aSize =? 4 then Ok (maybeRexRM aSize a b ++ [137] ++ modrmSibImm a b)
  else if aSize =? 8 then Ok (maybeRexRM aSize a b ++ [137] ++ modrmSibImm a b)
  else Abort.
(** operations.cpp:485-498 [moveAR] *)
Definition moveAR (tmp aSize address bSize b : Z) : res (list Z) :=
  do m <- moveMR bSize (Memory b 0 None 0) bSize b;
  Ok (moveCR tmp aSize address b ++ m).
(** operations.cpp:500-561 [moveCM], for a constant already known; [tmp] is the temporary *)
Definition moveCM (tmp v bSize : Z) (b : memory) : res (list Z) :=
  if bSize =? 1 then Ok (maybeRexM bSize b ++ [198] ++ modrmSibImm rax b ++ append1 v)
  else if bSize =? 2 then Ok ([102] ++ maybeRexM bSize b ++ [199] ++ modrmSibImm rax b ++ append2 v)
  else if bSize =? 4 then Ok (maybeRexM bSize b ++ [199] ++ modrmSibImm rax b ++ append4 v)
  else if bSize =? 8 then
    if fitsInInt32 v then Ok (maybeRexM bSize b ++ [199] ++ modrmSibImm rax b ++ append4 v)
    else do m <- moveRM 8 tmp b; Ok (moveCR tmp 8 v tmp ++ m)
  else Abort.
(** operations.cpp:563-593 [moveZRR], [moveZMR] *)
Definition moveZRR (a b : Z) : list Z := alwaysRexRR 2 b a ++ [15; 183] ++ modrm 192 a b.
Definition moveZMR (a : memory) (b : Z) : list Z := maybeRexRM 8 b a ++ [15; 183] ++ modrmSibImm b a.
(** operations.cpp:180-207 [pushR], [popR] *)
Definition pushR (a : Z) : list Z := maybeRexR 4 a ++ [80 + regCode a].
Definition popR (size a : Z) : list Z :=
  maybeRexR 4 a ++ [88 + regCode a] ++ (if size =? 4 then moveRR 4 a 8 a else []).

(** ** Arithmetic *)
(** operations.cpp:209-226 [negateR] *)
Definition negateR (size a : Z) : list Z := maybeRexR size a ++ [247; 216 + regCode a].
(** operations.cpp:604-623, 749-768, 770-789, 831-850, 893-910: [addRR], [subtractRR], [andRR], [orRR], [xorRR] differ
    in one byte *)
Definition aluRR (op size a b : Z) : list Z := maybeRexRR size a b ++ [op] ++ modrm 192 b a.
Definition addRR := aluRR 1.
Definition orRR := aluRR 9.
Definition andRR := aluRR 33.
Definition subtractRR := aluRR 41.
Definition xorRR := aluRR 49.
(** operations.cpp:638-677, 696-735, 791-829, 852-891, 912-951: [addCR], [subtractCR], [andCR], [orCR], [xorCR] *)
Definition aluC (op tmp size v b : Z) (rr : Z -> Z -> Z -> list Z) : list Z :=
  if fitsInInt32 v then
    maybeRexR size b ++
    (if fitsInInt8 v then [131; op + regCode b] ++ append1 v else [129; op + regCode b] ++ append4 v)
  else moveCR tmp size v tmp ++ rr size tmp b.
Definition addCR (tmp size v b : Z) : list Z := if v =? 0 then [] else aluC 192 tmp size v b addRR.
Definition orCR (tmp size v b : Z) : list Z := if v =? 0 then [] else aluC 200 tmp size v b orRR.
Definition andCR (tmp size v b : Z) : list Z := aluC 224 tmp size v b andRR.
Definition subtractCR (tmp size v b : Z) : list Z := if v =? 0 then [] else aluC 232 tmp size v b subtractRR.
Definition xorCR (tmp size v b : Z) : list Z := if v =? 0 then [] else aluC 240 tmp size v b xorRR.
(** operations.cpp:953-1002 [multiplyRR]; 1268-1307 [multiplyCR] *)
Definition multiplyRR (size a b : Z) : list Z := maybeRexRR size b a ++ [15; 175] ++ modrm 192 a b.
Definition multiplyCR (tmp size v b : Z) : list Z :=
  if v =? 1 then []
  else if fitsInInt32 v then
    maybeRexRR size b b ++
    (if fitsInInt8 v then [107] ++ modrm 192 b b ++ append1 v else [105] ++ modrm 192 b b ++ append4 v)
  else moveCR tmp size v tmp ++ multiplyRR size tmp b.
(** operations.cpp:1309-1348 [divideRR], [remainderRR] *)
Definition divideRR (size a b : Z) : list Z :=
  maybeRexRR size a b ++ [153] ++ maybeRexRR size b a ++ [247; 248 + regCode a].
Definition remainderRR (size a b : Z) : list Z := divideRR size a b ++ moveRR 8 rdx 8 b.
(** operations.cpp:1350-1383 [doShift] *)
Definition doShift (type v size b : Z) : res (list Z) :=
  if v =? 1 then Ok (maybeRexR size b ++ [209; type + regCode b])
  else if fitsInInt8 v then Ok (maybeRexR size b ++ [193; type + regCode b] ++ append1 v)
  else Abort.
Definition shiftLeftCR := doShift 224.
Definition shiftRightCR := doShift 248.
Definition unsignedShiftRightCR := doShift 232.
(** operations.cpp:1385-1530: the shifts by rcx (a is rcx) *)
Definition shiftRR (type size a b : Z) : list Z := maybeRexRR size a b ++ [211; type + regCode b].
Definition shiftLeftRR := shiftRR 224.
Definition shiftRightRR := shiftRR 248.
Definition unsignedShiftRightRR := shiftRR 232.
(** operations.cpp:1742-1755 [absoluteRR]: a and b are rax *)
Definition absoluteRR (size a b : Z) : list Z :=
  maybeRexRR size a b ++ [153] ++ xorRR size rdx a ++ subtractRR size rdx a.

(** ** Comparisons and branches *)
(** operations.cpp:1004-1016 [compareRR] *)
Definition compareRR (size a b : Z) : list Z := maybeRexRR size a b ++ [57] ++ modrm 192 b a.
(** operations.cpp:1018-1043 [compareCR], for a constant already known *)
Definition compareCR (tmp size v b : Z) : list Z := aluC 248 tmp size v b compareRR.
(** operations.cpp:1045-1060 [compareRM] *)
Definition compareRM (size a : Z) (b : memory) : list Z :=
  (if size =? 4 then moveRR 4 a 8 a else []) ++ maybeRexRM size a b ++ [57] ++ modrmSibImm a b.
(** operations.cpp:1062-1090 [compareCM], for a constant already known *)
Definition compareCM (size v : Z) (b : memory) : res (list Z) :=
  if fitsInInt8 v then Ok (maybeRexM size b ++ [131] ++ modrmSibImm rdi b ++ append1 v)
  else if fitsInInt32 v then Ok (maybeRexM size b ++ [129] ++ modrmSibImm rdi b ++ append4 v)
  else Abort.
(** operations.cpp:1092-1106 [compareFloatRR] *)
Definition compareFloatRR (size a b : Z) : list Z :=
  (if size =? 8 then [102] else []) ++ maybeRexRR 4 a b ++ [15; 46] ++ modrm 192 a b.

Inductive relation := JumpIfEqual | JumpIfNotEqual | JumpIfLess | JumpIfGreater | JumpIfLessOrEqual | JumpIfGreaterOrEqual.
(** encode.cpp:266-296 [branch] *)
Definition branch (op : relation) : list Z :=
  match op with
  | JumpIfEqual => conditional 132
  | JumpIfNotEqual => conditional 133
  | JumpIfLess => conditional 140
  | JumpIfGreater => conditional 143
  | JumpIfLessOrEqual => conditional 142
  | JumpIfGreaterOrEqual => conditional 141
  end.
(** encode.cpp:298-352 [branchFloat]; the flag is OrUnordered (JumpIfFloatNotEqual is also taken when
    unordered, JumpIfFloatEqual is not: compile.cpp:3626-3662) *)
Definition branchFloat (op : relation) (orUnordered : bool) : list Z :=
  match op, orUnordered with
  | JumpIfEqual, _ => [122; 6] ++ conditional 132
  | JumpIfNotEqual, _ => conditional 133 ++ conditional 138
  | JumpIfLess, false => conditional 130
  | JumpIfGreater, false => conditional 135
  | JumpIfLessOrEqual, false => conditional 134
  | JumpIfGreaterOrEqual, false => conditional 131
  | JumpIfLess, true => conditional 130 ++ conditional 138
  | JumpIfGreater, true => conditional 135 ++ conditional 138
  | JumpIfLessOrEqual, true => conditional 134 ++ conditional 138
  | JumpIfGreaterOrEqual, true => conditional 131 ++ conditional 138
  end.
(** operations.cpp:1192-1266 [branchRR], [branchCR], [branchRM], [branchCM] *)
Definition branchRR (op : relation) (size a b : Z) : list Z := compareRR size a b ++ branch op.
Definition branchFloatRR (op : relation) (orUnordered : bool) (size a b : Z) : list Z :=
  compareFloatRR size a b ++ branchFloat op orUnordered.
Definition branchCR (op : relation) (tmp size v b : Z) : list Z := compareCR tmp size v b ++ branch op.
Definition branchRM (op : relation) (size a : Z) (b : memory) : list Z := compareRM size a b ++ branch op.
Definition branchCM (op : relation) (size v : Z) (b : memory) : res (list Z) :=
  do c <- compareCM size v b; Ok (c ++ branch op).

(** ** Floats *)
(** operations.cpp:1686-1713 [floatNegateRR]; [tmp] is the temporary xmm register, [gtmp] the general one *)
Definition floatNegateRR (gtmp tmp a b : Z) : list Z :=
  if a =? b then moveCR gtmp 4 2147483648 tmp ++ maybeRexRR 4 a tmp ++ [15; 87] ++ modrm 192 tmp a
  else moveCR gtmp 4 2147483648 b ++ maybeRexRR 4 a b ++ [15; 87] ++ modrm 192 a b.
(** operations.cpp:1715-1740 [floatAbsoluteRR] *)
Definition floatAbsoluteRR (gtmp tmp a b : Z) : list Z :=
  if a =? b then moveCR gtmp 4 2147483647 tmp ++ maybeRexRR 4 a tmp ++ [15; 84] ++ modrm 192 tmp a
  else moveCR gtmp 4 2147483647 b ++ maybeRexRR 4 a b ++ [15; 84] ++ modrm 192 a b.
(** encode.cpp:354-370 [floatRegOp] as used by the four arithmetic operations (operations.cpp:1559-1629) *)
Definition floatRegOp (op size a b : Z) : list Z :=
  (if size =? 4 then [243] else [242]) ++ maybeRexRR 4 b a ++ [15; op] ++ modrm 192 a b.
(** encode.cpp:372-387 [floatMemOp] *)
Definition floatMemOp (op size : Z) (a : memory) (b : Z) : list Z :=
  (if size =? 4 then [243] else [242]) ++ maybeRexRM 4 b a ++ [15; op] ++ modrmSibImm b a.

(** ** The functions called from compiled code: src/codegen/runtime.cpp:101-110 [compareLongs], for
    arguments given as 64-bit patterns *)
Definition compareLongs (b a : Z) : Z := if a <? b then -1 else if b <? a then 1 else 0.
