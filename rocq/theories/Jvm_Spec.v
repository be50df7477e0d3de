(** What the Java Virtual Machine Specification (JVMS) says the instructions do, written over
    typed values and structured frames, with no reference to the interpreter's representation.
    [None] means that the JVMS gives the situation no meaning (code the verifier rejects). *)
From Coq Require Import NArith ZArith List Bool.
From Verif Require Import Interp_Types.
Import ListNotations.
Local Open Scope N_scope.

Definition bindO {A B} (x : option A) (f : A -> option B) : option B :=
  match x with Some a => f a | None => None end.
Notation "'let?' x := e 'in' f" := (bindO e (fun x => f))
  (at level 200, x pattern, e at level 100, f at level 200, right associativity).
Definition guard {A} (b : bool) (x : option A) : option A := if b then x else None.

(** * Values *)
Definition cat2 (v : val) : bool := match v with VLong _ | VDbl _ => true | _ => false end.
Definition vsize (v : val) : N := if cat2 v then 2 else 1.
Definition depth (st : list val) : N := fold_right (fun v n => vsize v + n) 0 st.
Definition hasTy (t : ty) (v : val) : bool :=
  match t, v with
  | TI, VInt _ | TL, VLong _ | TF, VFlt _ | TD, VDbl _ | TA, VRef _ => true
  | _, _ => false
  end.
(** astore also accepts a returnAddress *)
Definition storable (t : ty) (v : val) : bool :=
  match t, v with TA, VRet _ => true | _, _ => hasTy t v end.

(** * Heap *)
Inductive jobj :=
| JInst (cls : N) (fields : N -> option val)
| JArr (cls : N) (k : kind) (elems : list val).
Record jheap := { jobjs : N -> option jobj; jnext : N }.

Definition defaultOf (k : kind) : val :=
  match k with
  | KLong => VLong 0 | KFlt => VFlt 0 | KDbl => VDbl 0 | KRef => VRef 0 | _ => VInt 0
  end.
Definition jset (h : jheap) (a : N) (x : jobj) : jheap :=
  {| jobjs := fun b => if b =? a then Some x else jobjs h b; jnext := jnext h |}.
Definition jalloc (h : jheap) (x : jobj) : N * jheap :=
  (jnext h, {| jobjs := fun b => if b =? jnext h then Some x else jobjs h b; jnext := jnext h + 8 |}).
Definition newInst (E : env) (c : N) : jobj :=
  JInst c (fun i => option_map (fun f => defaultOf (f_kind f))
                      (find (fun f => f_id f =? i) (e_layout E c))).
Definition newArr (c : N) (k : kind) (n : N) : jobj := JArr c k (repeat (defaultOf k) (N.to_nat n)).
Definition jclass (h : jheap) (a : N) : option N :=
  match jobjs h a with Some (JInst c _) | Some (JArr c _ _) => Some c | None => None end.

(** Narrowing of an int stored in a component or field of kind k (JVMS bastore, castore,
    sastore, putfield); other values must have the type of k. *)
Definition narrow (k : kind) (v : val) : option val :=
  match k, v with
  | KBool, VInt z => Some (VInt (z mod 2))
  | KByte, VInt z => Some (VInt (sgn 8 z))
  | KChar, VInt z => Some (VInt (z mod 2 ^ 16))
  | KShort, VInt z => Some (VInt (sgn 16 z))
  | KInt, VInt z => Some (VInt z)
  | KLong, VLong z => Some (VLong z)
  | KFlt, VFlt b => Some (VFlt b)
  | KDbl, VDbl b => Some (VDbl b)
  | KRef, VRef o => Some (VRef o)
  | _, _ => None
  end.

(** * Code *)
Definition byteAt (c : list N) (i : N) : option N := nth_error c (N.to_nat i).
Definition u2At (c : list N) (i : N) : option N :=
  let? a := byteAt c i in let? b := byteAt c (i + 1) in Some (a * 256 + b).
Definition s2At (c : list N) (i : N) : option Z :=
  let? v := u2At c i in Some (sbits 16 v).
Definition s4At (c : list N) (i : N) : option Z :=
  let? a := u2At c i in let? b := u2At c (i + 2) in Some (sbits 32 (a * 65536 + b)).

(** Opcode numbers, JVMS chapter 6/7: runs of consecutive mnemonics *)
Definition ty5 (n : N) : ty := match n with 0 => TI | 1 => TL | 2 => TF | 3 => TD | _ => TA end.
Definition kind8 (n : N) : kind :=
  match n with 0 => KInt | 1 => KLong | 2 => KFlt | 3 => KDbl | 4 => KRef | 5 => KByte | 6 => KChar | _ => KShort end.
Definition cond6 (n : N) : cond :=
  match n with 0 => Ceq | 1 => Cne | 2 => Clt | 3 => Cge | 4 => Cgt | _ => Cle end.
Definition four (n : N) (i l f d : opcode) : option opcode :=
  Some (match n with 0 => i | 1 => l | 2 => f | _ => d end).
Definition jdecode (b : N) : option opcode :=
  if b =? 0 then Some ONop else if b =? 1 then Some OAconstNull
  else if b <=? 8 then Some (OIconst (Z.of_N b - 3))
  else if b <=? 10 then Some (OLconst (Z.of_N b - 9))
  else if b <=? 13 then Some (OFconst (b - 11))
  else if b <=? 15 then Some (ODconst (b - 14))
  else if b =? 16 then Some OBipush else if b =? 17 then Some OSipush
  else if b =? 18 then Some OLdc else if b =? 19 then Some OLdcW else if b =? 20 then Some OLdc2W
  else if b <=? 25 then Some (OLoad (ty5 (b - 21)))
  else if b <=? 45 then Some (OLoadN (ty5 ((b - 26) / 4)) ((b - 26) mod 4))
  else if b <=? 53 then Some (OArrLoad (kind8 (b - 46)))
  else if b <=? 58 then Some (OStore (ty5 (b - 54)))
  else if b <=? 78 then Some (OStoreN (ty5 ((b - 59) / 4)) ((b - 59) mod 4))
  else if b <=? 86 then Some (OArrStore (kind8 (b - 79)))
  else if b =? 87 then Some OPop else if b =? 88 then Some OPop2
  else if b =? 89 then Some ODup else if b =? 90 then Some ODupX1 else if b =? 91 then Some ODupX2
  else if b =? 92 then Some ODup2 else if b =? 93 then Some ODup2X1 else if b =? 94 then Some ODup2X2
  else if b =? 95 then Some OSwap
  else if b <=? 99 then four (b - 96) (OBinI Add) (OBinL Add) (OBinF FAdd) (OBinD FAdd)
  else if b <=? 103 then four (b - 100) (OBinI Sub) (OBinL Sub) (OBinF FSub) (OBinD FSub)
  else if b <=? 107 then four (b - 104) (OBinI Mul) (OBinL Mul) (OBinF FMul) (OBinD FMul)
  else if b <=? 111 then four (b - 108) ODivI ODivL (OBinF FDiv) (OBinD FDiv)
  else if b <=? 115 then four (b - 112) ORemI ORemL (OBinF FRem) (OBinD FRem)
  else if b <=? 119 then four (b - 116) ONegI ONegL ONegF ONegD
  else if b =? 120 then Some (OShI Shl) else if b =? 121 then Some (OShL Shl)
  else if b =? 122 then Some (OShI Shr) else if b =? 123 then Some (OShL Shr)
  else if b =? 124 then Some (OShI Ushr) else if b =? 125 then Some (OShL Ushr)
  else if b =? 126 then Some (OBinI And) else if b =? 127 then Some (OBinL And)
  else if b =? 128 then Some (OBinI Or) else if b =? 129 then Some (OBinL Or)
  else if b =? 130 then Some (OBinI Xor) else if b =? 131 then Some (OBinL Xor)
  else if b =? 132 then Some OIinc
  else if b <=? 147 then
    option_map OConv (nth_error [I2L; I2F; I2D; L2I; L2F; L2D; F2I; F2L; F2D; D2I; D2L; D2F; I2B; I2C; I2S]
                                (N.to_nat (b - 133)))
  else if b =? 148 then Some OLcmp
  else if b =? 149 then Some (OFcmp false) else if b =? 150 then Some (OFcmp true)
  else if b =? 151 then Some (ODcmp false) else if b =? 152 then Some (ODcmp true)
  else if b <=? 158 then Some (OIf (cond6 (b - 153)))
  else if b <=? 164 then Some (OIfI (cond6 (b - 159)))
  else if b =? 165 then Some (OIfA true) else if b =? 166 then Some (OIfA false)
  else if b =? 167 then Some OGoto else if b =? 168 then Some OJsr else if b =? 169 then Some ORet
  else if b =? 170 then Some OTableswitch else if b =? 171 then Some OLookupswitch
  else if b <=? 176 then Some (OReturn (Some (ty5 (b - 172)))) else if b =? 177 then Some (OReturn None)
  else if b =? 178 then Some OGetstatic else if b =? 179 then Some OPutstatic
  else if b =? 180 then Some OGetfield else if b =? 181 then Some OPutfield
  else if b =? 182 then Some OInvokevirtual else if b =? 183 then Some OInvokespecial
  else if b =? 184 then Some OInvokestatic else if b =? 185 then Some OInvokeinterface
  else if b =? 186 then None (* invokedynamic *)
  else if b =? 187 then Some ONew else if b =? 188 then Some ONewarray else if b =? 189 then Some OAnewarray
  else if b =? 190 then Some OArraylength else if b =? 191 then Some OAthrow
  else if b =? 192 then Some OCheckcast else if b =? 193 then Some OInstanceof
  else if b =? 194 then Some OMonitorenter else if b =? 195 then Some OMonitorexit
  else if b =? 196 then Some OWide
  else if b =? 197 then None (* multianewarray *)
  else if b =? 198 then Some (OIfNull true) else if b =? 199 then Some (OIfNull false)
  else if b =? 200 then Some OGotoW else if b =? 201 then Some OJsrW
  else None.

Definition opAt (c : list N) (pc : N) : option opcode := let? b := byteAt c pc in jdecode b.

(** Operand area of a switch: the first multiple of 4 after the opcode *)
Definition aligned (pc : N) : N := 4 * ((pc + 4) / 4).

(** Instruction lengths *)
Definition ilen (c : list N) (pc : N) : option N :=
  let? b := byteAt c pc in
  if b =? 186 then Some 5 else if b =? 197 then Some 4 else
  let? o := jdecode b in
  match o with
  | OBipush | OLdc | OLoad _ | OStore _ | ORet | ONewarray => Some 2
  | OSipush | OLdcW | OLdc2W | OIinc | OIf _ | OIfI _ | OIfA _ | OIfNull _ | OGoto | OJsr
  | OGetstatic | OPutstatic | OGetfield | OPutfield
  | OInvokevirtual | OInvokespecial | OInvokestatic
  | ONew | OAnewarray | OCheckcast | OInstanceof => Some 3
  | OGotoW | OJsrW | OInvokeinterface => Some 5
  | OTableswitch =>
      let a := aligned pc in
      let? lo := s4At c (a + 4) in let? hi := s4At c (a + 8) in
      guard (lo <=? hi)%Z (Some (a - pc + 12 + 4 * Z.to_N (hi - lo + 1)))
  | OLookupswitch =>
      let a := aligned pc in
      let? n := s4At c (a + 4) in
      guard (0 <=? n)%Z (Some (a - pc + 8 + 8 * Z.to_N n))
  | OWide => let? o2 := opAt c (pc + 1) in Some (match o2 with OIinc => 6 | _ => 4 end)
  | _ => Some 1
  end.

(** The instruction boundaries of a method body, in order. *)
Fixpoint bounds (fuel : nat) (c : list N) (pc : N) : list N :=
  match fuel with
  | O => []
  | S k =>
      if N.of_nat (length c) <=? pc then []
      else pc :: match ilen c pc with Some l => bounds k c (pc + l) | None => [] end
  end.
Definition boundaries (c : list N) : list N := bounds (S (length c)) c 0.
Definition isBoundary (c : list N) (pc : N) : bool := existsb (N.eqb pc) (boundaries c).

(** * Frames *)
(** [j_mon]: the monitor entered by the call of a synchronized method. [j_pc] stays at the
    invoke instruction while a callee runs. *)
Record jframe := { j_m : N; j_pc : N; j_loc : N -> option val; j_stk : list val; j_mon : option N }.

Definition noLoc : N -> option val := fun _ => None.
(** Storing a value at index i: a two-word value also takes i+1, and overwriting its second
    word invalidates a two-word value (JVMS 2.6.1). *)
Definition setLoc (l : N -> option val) (i : N) (v : val) : N -> option val :=
  fun j =>
    if j =? i then Some v
    else if cat2 v && (j =? i + 1) then None
    else if (j + 1 =? i) && (match l j with Some w => cat2 w | None => false end) then None
    else l j.
(** Arguments, first parameter first, into consecutive locals *)
Fixpoint argLoc (args : list val) (i : N) (l : N -> option val) : N -> option val :=
  match args with [] => l | v :: r => argLoc r (i + vsize v) (setLoc l i v) end.
(** Pop [n] words of arguments: (parameters in order, remaining stack). *)
Fixpoint popArgs (fuel : nat) (n : N) (st acc : list val) : option (list val * list val) :=
  if n =? 0 then Some (acc, st) else
  match fuel, st with
  | S k, v :: r => if vsize v <=? n then popArgs k (n - vsize v) r (v :: acc) else None
  | _, _ => None
  end.
Definition takeArgs (n : N) (st : list val) : option (list val * list val) :=
  popArgs (length st) n st [].

(** * Arithmetic *)
Definition wrap (w : Z) (z : Z) : Z := sgn w z.
Definition jbin (w : Z) (o : binop) (a b : Z) : Z :=
  wrap w (match o with
          | Add => a + b | Sub => a - b | Mul => a * b
          | And => Z.land a b | Or => Z.lor a b | Xor => Z.lxor a b
          end).
Definition jshift (w : Z) (o : shop) (a n : Z) : Z :=
  let k := (n mod w)%Z in
  wrap w (match o with
          | Shl => a * 2 ^ k
          | Shr => a / 2 ^ k
          | Ushr => (a mod 2 ^ w) / 2 ^ k
          end).
Definition jcond (c : cond) (a b : Z) : bool :=
  match c, (a ?= b)%Z with
  | Ceq, Eq => true | Cne, (Lt | Gt) => true | Clt, Lt => true
  | Cge, (Eq | Gt) => true | Cgt, Gt => true | Cle, (Eq | Lt) => true
  | _, _ => false
  end.
(** JVMS d2i, d2l, f2i, f2l: NaN gives 0; otherwise truncate and saturate. *)
Definition jtoint (w scale : Z) (f : fnum) : Z :=
  match f with
  | FNan => 0
  | FInf true => - 2 ^ (w - 1)
  | FInf false => 2 ^ (w - 1) - 1
  | FFin z => Z.max (- 2 ^ (w - 1)) (Z.min (2 ^ (w - 1) - 1) (Z.quot z (2 ^ scale)))
  end.
Definition jfcmp (g : bool) (a b : fnum) : Z :=
  match fcompare a b with
  | Some Lt => -1 | Some Eq => 0 | Some Gt => 1
  | None => if g then 1 else -1
  end.
Definition jconv (F : fops) (c : conv) (v : val) : option val :=
  match c, v with
  | I2L, VInt z => Some (VLong z)
  | I2F, VInt z => Some (VFlt (f_i2f F z))
  | I2D, VInt z => Some (VDbl (f_i2d F z))
  | L2I, VLong z => Some (VInt (wrap 32 z))
  | L2F, VLong z => Some (VFlt (f_l2f F z))
  | L2D, VLong z => Some (VDbl (f_l2d F z))
  | F2I, VFlt b => Some (VInt (jtoint 32 scale32 (fdec32 b)))
  | F2L, VFlt b => Some (VLong (jtoint 64 scale32 (fdec32 b)))
  | F2D, VFlt b => Some (VDbl (f_f2d F b))
  | D2I, VDbl b => Some (VInt (jtoint 32 scale64 (fdec64 b)))
  | D2L, VDbl b => Some (VLong (jtoint 64 scale64 (fdec64 b)))
  | D2F, VDbl b => Some (VFlt (f_d2f F b))
  | I2B, VInt z => Some (VInt (wrap 8 z))
  | I2C, VInt z => Some (VInt (z mod 2 ^ 16))
  | I2S, VInt z => Some (VInt (wrap 16 z))
  | _, _ => None
  end.

(** * Stack instructions: the JVMS forms, by category of the values *)
Definition jstack (o : opcode) (st : list val) : option (list val) :=
  match o, st with
  | OPop, v :: r => guard (negb (cat2 v)) (Some r)
  | OPop2, v :: r =>
      if cat2 v then Some r
      else match r with v2 :: r2 => guard (negb (cat2 v2)) (Some r2) | [] => None end
  | ODup, v :: r => guard (negb (cat2 v)) (Some (v :: v :: r))
  | ODupX1, v1 :: v2 :: r => guard (negb (cat2 v1) && negb (cat2 v2)) (Some (v1 :: v2 :: v1 :: r))
  | ODupX2, v1 :: v2 :: r =>
      if cat2 v1 then None
      else if cat2 v2 then Some (v1 :: v2 :: v1 :: r)
      else match r with
           | v3 :: r3 => guard (negb (cat2 v3)) (Some (v1 :: v2 :: v3 :: v1 :: r3))
           | [] => None
           end
  | ODup2, v1 :: r =>
      if cat2 v1 then Some (v1 :: v1 :: r)
      else match r with
           | v2 :: r2 => guard (negb (cat2 v2)) (Some (v1 :: v2 :: v1 :: v2 :: r2))
           | [] => None
           end
  | ODup2X1, v1 :: v2 :: r =>
      if cat2 v2 then None
      else if cat2 v1 then Some (v1 :: v2 :: v1 :: r)
      else match r with
           | v3 :: r3 => guard (negb (cat2 v3)) (Some (v1 :: v2 :: v3 :: v1 :: v2 :: r3))
           | [] => None
           end
  | ODup2X2, v1 :: v2 :: r =>
      if cat2 v1 then
        if cat2 v2 then Some (v1 :: v2 :: v1 :: r)
        else match r with
             | v3 :: r3 => guard (negb (cat2 v3)) (Some (v1 :: v2 :: v3 :: v1 :: r3))
             | [] => None
             end
      else if cat2 v2 then None
      else match r with
           | v3 :: r3 =>
               if cat2 v3 then Some (v1 :: v2 :: v3 :: v1 :: v2 :: r3)
               else match r3 with
                    | v4 :: r4 => guard (negb (cat2 v4)) (Some (v1 :: v2 :: v3 :: v4 :: v1 :: v2 :: r4))
                    | [] => None
                    end
           | [] => None
           end
  | OSwap, v1 :: v2 :: r => guard (negb (cat2 v1) && negb (cat2 v2)) (Some (v2 :: v1 :: r))
  | _, _ => None
  end.

(** * Effect of one instruction inside its frame *)
Inductive jeff :=
| ENext (loc : N -> option val) (st : list val) (h : jheap)   (* fall through *)
| EJump (pc : N) (loc : N -> option val) (st : list val)
| ENew (c : N) (h : jheap)                                    (* throw a new exception of class c *)
| EThrow (o : N)                                              (* throw object o *)
| ECall (m : N) (args : list val) (st : list val)
| EReturn (v : option val)
| EMon (e : mev) (st : list val).

(** Branch target pc + off *)
Definition target (pc : N) (off : Z) : option N :=
  let z := (Z.of_N pc + off)%Z in if (z <? 0)%Z then None else Some (Z.to_N z).

Definition replace (l : list val) (i : nat) (v : val) : list val := firstn i l ++ v :: skipn (S i) l.

Definition keqb (a b : kind) : bool :=
  match a, b with
  | KBool, KBool | KByte, KByte | KChar, KChar | KShort, KShort | KInt, KInt | KLong, KLong
  | KFlt, KFlt | KDbl, KDbl | KRef, KRef => true
  | _, _ => false
  end.
(** baload and bastore serve byte and boolean arrays *)
Definition accepts (instr arr : kind) : bool :=
  keqb instr arr || (keqb instr KByte && keqb arr KBool).

Definition loadArr (E : env) (k : kind) (loc : N -> option val) (st : list val) (h : jheap) : option jeff :=
  match st with
  | VInt i :: VRef a :: r =>
      if a =? 0 then Some (ENew (e_npe E) h) else
      match jobjs h a with
      | Some (JArr _ k' els) =>
          guard (accepts k k')
          (if (i <? 0)%Z then Some (ENew (e_aioobe E) h)
           else match nth_error els (Z.to_nat i) with
                | Some v => Some (ENext loc (v :: r) h)
                | None => Some (ENew (e_aioobe E) h)
                end)
      | _ => None
      end
  | _ => None
  end.

(** A reference may be stored in an array if it is null or assignable to the element type. *)
Definition storeOk (E : env) (c : N) (k : kind) (v : val) (h : jheap) : option bool :=
  match k, v with
  | KRef, VRef 0 => Some true
  | KRef, VRef o => let? co := jclass h o in Some (e_instance E (e_elemClass E c) co)
  | _, _ => Some true
  end.

Definition storeArr (E : env) (k : kind) (loc : N -> option val) (st : list val) (h : jheap) : option jeff :=
  match st with
  | v :: VInt i :: VRef a :: r =>
      if a =? 0 then let? _ := narrow k v in Some (ENew (e_npe E) h) else
      match jobjs h a with
      | Some (JArr c k' els) =>
          guard (accepts k k')
          (let? w := narrow k' v in
           if (i <? 0)%Z then Some (ENew (e_aioobe E) h)
           else if (Z.of_nat (length els) <=? i)%Z then Some (ENew (e_aioobe E) h)
           else
             let? ok := storeOk E c k' v h in
             if ok then Some (ENext loc r (jset h a (JArr c k' (replace els (Z.to_nat i) w))))
             else Some (ENew (e_ase E) h))
      | _ => None
      end
  | _ => None
  end.

Definition getF (h : jheap) (o : N) (f : field) : option val :=
  match jobjs h o with Some (JInst _ fl) => fl (f_id f) | _ => None end.
Definition putF (h : jheap) (o : N) (f : field) (v : val) : option jheap :=
  match jobjs h o with
  | Some (JInst c fl) =>
      let? _ := fl (f_id f) in
      let? w := narrow (f_kind f) v in
      Some (jset h o (JInst c (fun i => if i =? f_id f then Some w else fl i)))
  | _ => None
  end.

(** match-offset pairs of a lookupswitch *)
Fixpoint pairsAt (c : list N) (a : N) (n : nat) : option (list (Z * Z)) :=
  match n with
  | O => Some []
  | S k =>
      let? m := s4At c a in let? o := s4At c (a + 4) in
      let? r := pairsAt c (a + 8) k in Some ((m, o) :: r)
  end.
Fixpoint increasing (l : list (Z * Z)) : bool :=
  match l with
  | (a, _) :: (((b, _) :: _) as r) => (a <? b)%Z && increasing r
  | _ => true
  end.

Definition jload (loc : N -> option val) (t : ty) (i : N) (st : list val) (h : jheap) : option jeff :=
  let? v := loc i in guard (hasTy t v) (Some (ENext loc (v :: st) h)).
Definition jstore (M : method) (loc : N -> option val) (t : ty) (i : N) (st : list val) (h : jheap) : option jeff :=
  match st with
  | v :: r => guard (storable t v && (i + vsize v <=? m_maxLocals M)) (Some (ENext (setLoc loc i v) r h))
  | [] => None
  end.
Definition jinc (M : method) (loc : N -> option val) (i : N) (c : Z) (st : list val) (h : jheap) : option jeff :=
  match loc i with
  | Some (VInt z) => guard (i <? m_maxLocals M) (Some (ENext (setLoc loc i (VInt (wrap 32 (z + c)))) st h))
  | _ => None
  end.
Definition jret (loc : N -> option val) (i : N) (st : list val) : option jeff :=
  match loc i with Some (VRet pc) => Some (EJump pc loc st) | _ => None end.
Definition jif (pc : N) (len : N) (b : bool) (off : Z) (loc : N -> option val) (st : list val) : option jeff :=
  if b then let? t := target pc off in Some (EJump t loc st) else Some (EJump (pc + len) loc st).

(** Call with a receiver: pf words of arguments, the first being the receiver. *)
Definition jcall (E : env) (m : N) (select : N -> option N) (st : list val) (h : jheap) : option jeff :=
  let? (args, r) := takeArgs (m_pf (e_method E m)) st in
  match args with
  | VRef o :: _ =>
      if o =? 0 then Some (ENew (e_npe E) h)
      else let? m' := select o in
           guard (m_pf (e_method E m') =? m_pf (e_method E m)) (Some (ECall m' args r))
  | _ => None
  end.

Definition typeKind (b : N) : option kind :=
  if b =? 4 then Some KBool else if b =? 5 then Some KChar else if b =? 6 then Some KFlt
  else if b =? 7 then Some KDbl else if b =? 8 then Some KByte else if b =? 9 then Some KShort
  else if b =? 10 then Some KInt else if b =? 11 then Some KLong else None.

Definition jeval (E : env) (m pc : N) (loc : N -> option val) (st : list val) (h : jheap) : option jeff :=
  let M := e_method E m in
  let c := m_code M in
  let F := e_fops E in
  let next st' := Some (ENext loc st' h) in
  let? o := opAt c pc in
  match o with
  | ONop => next st
  | OAconstNull => next (VRef 0 :: st)
  | OIconst z => next (VInt z :: st)
  | OLconst z => next (VLong z :: st)
  | OFconst n => next (VFlt (nth (N.to_nat n) [0; 0x3F800000; 0x40000000] 0) :: st)
  | ODconst n => next (VDbl (nth (N.to_nat n) [0; 0x3FF0000000000000] 0) :: st)
  | OBipush => let? b := byteAt c (pc + 1) in next (VInt (sbits 8 b) :: st)
  | OSipush => let? v := s2At c (pc + 1) in next (VInt v :: st)
  | OLdc =>
      let? i := byteAt c (pc + 1) in
      let v := e_const E m i in
      match v with VInt _ | VFlt _ | VRef _ => next (v :: st) | _ => None end
  | OLdcW =>
      let? i := u2At c (pc + 1) in
      let v := e_const E m i in
      match v with VInt _ | VFlt _ | VRef _ => next (v :: st) | _ => None end
  | OLdc2W =>
      let? i := u2At c (pc + 1) in
      let v := e_const E m i in
      match v with VLong _ | VDbl _ => next (v :: st) | _ => None end
  | OLoad t => let? i := byteAt c (pc + 1) in jload loc t i st h
  | OLoadN t n => jload loc t n st h
  | OStore t => let? i := byteAt c (pc + 1) in jstore M loc t i st h
  | OStoreN t n => jstore M loc t n st h
  | OArrLoad k => loadArr E k loc st h
  | OArrStore k => storeArr E k loc st h
  | OPop | OPop2 | ODup | ODupX1 | ODupX2 | ODup2 | ODup2X1 | ODup2X2 | OSwap =>
      let? st' := jstack o st in next st'
  | OBinI op =>
      match st with VInt b :: VInt a :: r => next (VInt (jbin 32 op a b) :: r) | _ => None end
  | OBinL op =>
      match st with VLong b :: VLong a :: r => next (VLong (jbin 64 op a b) :: r) | _ => None end
  | ODivI =>
      match st with
      | VInt b :: VInt a :: r =>
          if (b =? 0)%Z then Some (ENew (e_arith E) h) else next (VInt (wrap 32 (Z.quot a b)) :: r)
      | _ => None
      end
  | ORemI =>
      match st with
      | VInt b :: VInt a :: r =>
          if (b =? 0)%Z then Some (ENew (e_arith E) h) else next (VInt (Z.rem a b) :: r)
      | _ => None
      end
  | ODivL =>
      match st with
      | VLong b :: VLong a :: r =>
          if (b =? 0)%Z then Some (ENew (e_arith E) h) else next (VLong (wrap 64 (Z.quot a b)) :: r)
      | _ => None
      end
  | ORemL =>
      match st with
      | VLong b :: VLong a :: r =>
          if (b =? 0)%Z then Some (ENew (e_arith E) h) else next (VLong (Z.rem a b) :: r)
      | _ => None
      end
  | OShI op =>
      match st with VInt b :: VInt a :: r => next (VInt (jshift 32 op a b) :: r) | _ => None end
  | OShL op =>
      match st with VInt b :: VLong a :: r => next (VLong (jshift 64 op a b) :: r) | _ => None end
  | ONegI => match st with VInt a :: r => next (VInt (wrap 32 (- a)) :: r) | _ => None end
  | ONegL => match st with VLong a :: r => next (VLong (wrap 64 (- a)) :: r) | _ => None end
  | OBinF op =>
      match st with VFlt b :: VFlt a :: r => next (VFlt (f_bin32 F op a b) :: r) | _ => None end
  | OBinD op =>
      match st with VDbl b :: VDbl a :: r => next (VDbl (f_bin64 F op a b) :: r) | _ => None end
  | ONegF => match st with VFlt a :: r => next (VFlt (f_neg32 F a) :: r) | _ => None end
  | ONegD => match st with VDbl a :: r => next (VDbl (f_neg64 F a) :: r) | _ => None end
  | OIinc =>
      let? i := byteAt c (pc + 1) in let? d := byteAt c (pc + 2) in
      jinc M loc i (sbits 8 d) st h
  | OConv k => match st with v :: r => let? w := jconv F k v in next (w :: r) | [] => None end
  | OLcmp =>
      match st with
      | VLong b :: VLong a :: r =>
          next (VInt (match (a ?= b)%Z with Gt => 1 | Eq => 0 | Lt => -1 end) :: r)
      | _ => None
      end
  | OFcmp g =>
      match st with VFlt b :: VFlt a :: r => next (VInt (jfcmp g (fdec32 a) (fdec32 b)) :: r) | _ => None end
  | ODcmp g =>
      match st with VDbl b :: VDbl a :: r => next (VInt (jfcmp g (fdec64 a) (fdec64 b)) :: r) | _ => None end
  | OIf k =>
      let? off := s2At c (pc + 1) in
      match st with VInt a :: r => jif pc 3 (jcond k a 0) off loc r | _ => None end
  | OIfI k =>
      let? off := s2At c (pc + 1) in
      match st with VInt b :: VInt a :: r => jif pc 3 (jcond k a b) off loc r | _ => None end
  | OIfA eq =>
      let? off := s2At c (pc + 1) in
      match st with VRef b :: VRef a :: r => jif pc 3 (if eq then a =? b else negb (a =? b)) off loc r | _ => None end
  | OIfNull isnull =>
      let? off := s2At c (pc + 1) in
      match st with VRef a :: r => jif pc 3 (if isnull then a =? 0 else negb (a =? 0)) off loc r | _ => None end
  | OGoto => let? off := s2At c (pc + 1) in jif pc 3 true off loc st
  | OGotoW => let? off := s4At c (pc + 1) in jif pc 5 true off loc st
  | OJsr => let? off := s2At c (pc + 1) in jif pc 3 true off loc (VRet (pc + 3) :: st)
  | OJsrW => let? off := s4At c (pc + 1) in jif pc 5 true off loc (VRet (pc + 5) :: st)
  | ORet => let? i := byteAt c (pc + 1) in jret loc i st
  | OTableswitch =>
      let a := aligned pc in
      let? d := s4At c a in let? lo := s4At c (a + 4) in let? hi := s4At c (a + 8) in
      guard (lo <=? hi)%Z
      (match st with
       | VInt k :: r =>
           if (lo <=? k)%Z && (k <=? hi)%Z
           then let? off := s4At c (a + 12 + 4 * Z.to_N (k - lo)) in jif pc 0 true off loc r
           else jif pc 0 true d loc r
       | _ => None
       end)
  | OLookupswitch =>
      let a := aligned pc in
      let? d := s4At c a in let? n := s4At c (a + 4) in
      guard (0 <=? n)%Z
      (let? ps := pairsAt c (a + 8) (Z.to_nat n) in
       guard (increasing ps)
       (match st with
        | VInt k :: r =>
            match find (fun p => (fst p =? k)%Z) ps with
            | Some (_, off) => jif pc 0 true off loc r
            | None => jif pc 0 true d loc r
            end
        | _ => None
        end))
  | OReturn None => Some (EReturn None)
  | OReturn (Some t) =>
      match st with v :: _ => guard (hasTy t v) (Some (EReturn (Some v))) | [] => None end
  | OGetstatic =>
      let? i := u2At c (pc + 1) in
      let? v := getF h (e_staticTable E m i) (e_resolveField E m i) in next (v :: st)
  | OPutstatic =>
      let? i := u2At c (pc + 1) in
      match st with
      | v :: r =>
          let? h' := putF h (e_staticTable E m i) (e_resolveField E m i) v in Some (ENext loc r h')
      | [] => None
      end
  | OGetfield =>
      let? i := u2At c (pc + 1) in
      match st with
      | VRef o :: r =>
          if o =? 0 then Some (ENew (e_npe E) h)
          else let? v := getF h o (e_resolveField E m i) in next (v :: r)
      | _ => None
      end
  | OPutfield =>
      let? i := u2At c (pc + 1) in
      let f := e_resolveField E m i in
      match st with
      | v :: VRef o :: r =>
          if o =? 0 then let? _ := narrow (f_kind f) v in Some (ENew (e_npe E) h)
          else let? h' := putF h o f v in Some (ENext loc r h')
      | _ => None
      end
  | OInvokestatic =>
      let? i := u2At c (pc + 1) in
      let m' := e_resolveMethod E m i in
      let? (args, r) := takeArgs (m_pf (e_method E m')) st in Some (ECall m' args r)
  | OInvokespecial =>
      let? i := u2At c (pc + 1) in
      let m' := e_resolveMethod E m i in
      jcall E m' (fun _ => Some (e_special E m' (m_class M))) st h
  | OInvokevirtual =>
      let? i := u2At c (pc + 1) in
      let m' := e_resolveMethod E m i in
      jcall E m' (fun o => let? k := jclass h o in Some (e_virtual E m' k)) st h
  | OInvokeinterface =>
      let? i := u2At c (pc + 1) in
      let m' := e_resolveMethod E m i in
      jcall E m' (fun o => let? k := jclass h o in Some (e_interface E m' k)) st h
  | ONew =>
      let? i := u2At c (pc + 1) in
      let (o, h') := jalloc h (newInst E (e_resolveClass E m i)) in Some (ENext loc (VRef o :: st) h')
  | ONewarray =>
      match st with
      | VInt n :: r =>
          if (n <? 0)%Z then Some (ENew (e_negsize E) h) else
          let? b := byteAt c (pc + 1) in
          let? k := typeKind b in
          let (o, h') := jalloc h (newArr (e_arrayClass E k) k (Z.to_N n)) in
          Some (ENext loc (VRef o :: r) h')
      | _ => None
      end
  | OAnewarray =>
      let? i := u2At c (pc + 1) in
      match st with
      | VInt n :: r =>
          if (n <? 0)%Z then Some (ENew (e_negsize E) h) else
          let (o, h') := jalloc h (newArr (e_objArrayClass E (e_resolveClass E m i)) KRef (Z.to_N n)) in
          Some (ENext loc (VRef o :: r) h')
      | _ => None
      end
  | OArraylength =>
      match st with
      | VRef a :: r =>
          if a =? 0 then Some (ENew (e_npe E) h) else
          match jobjs h a with
          | Some (JArr _ _ els) => next (VInt (Z.of_nat (length els)) :: r)
          | _ => None
          end
      | _ => None
      end
  | OAthrow =>
      match st with
      | VRef o :: _ => if o =? 0 then Some (ENew (e_npe E) h) else Some (EThrow o)
      | _ => None
      end
  | OCheckcast =>
      let? i := u2At c (pc + 1) in
      match st with
      | VRef o :: r =>
          if o =? 0 then next st else
          let? k := jclass h o in
          if e_instance E (e_resolveClass E m i) k then next st else Some (ENew (e_cce E) h)
      | _ => None
      end
  | OInstanceof =>
      let? i := u2At c (pc + 1) in
      match st with
      | VRef o :: r =>
          if o =? 0 then next (VInt 0 :: r) else
          let? k := jclass h o in
          next (VInt (if e_instance E (e_resolveClass E m i) k then 1 else 0) :: r)
      | _ => None
      end
  | OMonitorenter =>
      match st with
      | VRef o :: r => if o =? 0 then Some (ENew (e_npe E) h) else Some (EMon (MEnter o) r)
      | _ => None
      end
  | OMonitorexit =>
      match st with
      | VRef o :: r => if o =? 0 then Some (ENew (e_npe E) h) else Some (EMon (MExit o) r)
      | _ => None
      end
  | OWide =>
      let? o2 := opAt c (pc + 1) in
      let? i := u2At c (pc + 2) in
      match o2 with
      | OLoad t => jload loc t i st h
      | OStore t => jstore M loc t i st h
      | ORet => jret loc i st
      | OIinc => let? d := s2At c (pc + 4) in jinc M loc i d st h
      | _ => None
      end
  end.

(** * The machine *)
Record jstate := { j_frames : list jframe; j_heap : jheap; j_log : list mev }.
Inductive jres :=
| JRun (s : jstate)
| JDone (v : option val) (h : jheap) (log : list mev)     (* the bottom method returned *)
| JThrown (o : N) (h : jheap) (log : list mev).           (* nobody caught o *)

Definition exitLog (f : jframe) (log : list mev) : list mev :=
  match j_mon f with Some o => MExit o :: log | None => log end.

(** A frame that may run: at an instruction, within its stack bound. The address space never
    runs out here: an execution that allocates 2^63 bytes is given no meaning. *)
Definition runnable (E : env) (f : jframe) : bool :=
  isBoundary (m_code (e_method E (j_m f))) (j_pc f) && (depth (j_stk f) <=? m_maxStack (e_method E (j_m f))).
Definition runs (E : env) (f : jframe) (rest : list jframe) (h : jheap) (log : list mev) : option jres :=
  guard (runnable E f && (jnext h <? 2 ^ 63)) (Some (JRun {| j_frames := f :: rest; j_heap := h; j_log := log |})).

(** JVMS 2.10: the first handler whose range contains pc and whose type matches *)
Definition catches (E : env) (m pc o k : N) (e : handler) : bool :=
  (h_start e <=? pc) && (pc <? h_end e)
  && ((h_type e =? 0) || (negb (o =? e_shutdown E) && e_instance E (e_resolveClass E m (h_type e)) k)).

Fixpoint jthrow (E : env) (fs : list jframe) (h : jheap) (log : list mev) (o k : N) : option jres :=
  match fs with
  | [] => Some (JThrown o h log)
  | f :: rest =>
      match find (catches E (j_m f) (j_pc f) o k) (m_handlers (e_method E (j_m f))) with
      | Some e =>
          runs E {| j_m := j_m f; j_pc := h_ip e; j_loc := j_loc f; j_stk := [VRef o]; j_mon := j_mon f |}
               rest h log
      | None => jthrow E rest h (exitLog f log) o k
      end
  end.
Definition throwNewJ (E : env) (fs : list jframe) (h : jheap) (log : list mev) (c : N) : option jres :=
  let (o, h') := jalloc h (newInst E c) in jthrow E fs h' log o c.

(** One instruction. A call may fail with StackOverflowError at the VM's discretion: [ov]. *)
Definition jstep (ov : bool) (E : env) (S : jstate) : option jres :=
  match j_frames S with
  | [] => None
  | f :: rest =>
      let h := j_heap S in
      let log := j_log S in
      let m := j_m f in
      let goto pc loc st h log :=
        runs E {| j_m := m; j_pc := pc; j_loc := loc; j_stk := st; j_mon := j_mon f |} rest h log in
      let? e := jeval E m (j_pc f) (j_loc f) (j_stk f) h in
      match e with
      | ENext loc st h' => let? l := ilen (m_code (e_method E m)) (j_pc f) in goto (j_pc f + l) loc st h' log
      | EJump pc loc st => goto pc loc st h log
      | EMon ev st =>
          let? l := ilen (m_code (e_method E m)) (j_pc f) in goto (j_pc f + l) (j_loc f) st h (ev :: log)
      | ENew c h' => throwNewJ E (f :: rest) h' log c
      | EThrow o => let? k := jclass h o in jthrow E (f :: rest) h log o k
      | ECall m' args st =>
          if ov then throwNewJ E (f :: rest) h log (e_soe E) else
          let M' := e_method E m' in
          let mon := if m_sync M' then
                       if m_static M' then Some (Some (m_jclass M'))
                       else match args with VRef o :: _ => Some (Some o) | _ => None end
                     else Some None in
          let? mo := mon in
          guard (m_pf M' <=? m_maxLocals M')
          (runs E {| j_m := m'; j_pc := 0; j_loc := argLoc args 0 noLoc; j_stk := []; j_mon := mo |}
                ({| j_m := m; j_pc := j_pc f; j_loc := j_loc f; j_stk := st; j_mon := j_mon f |} :: rest)
                h (match mo with Some o => MEnter o :: log | None => log end))
      | EReturn v =>
          match rest with
          | [] => Some (JDone v h (exitLog f log))
          | g :: rest' =>
              let? l := ilen (m_code (e_method E (j_m g))) (j_pc g) in
              runs E {| j_m := j_m g; j_pc := j_pc g + l; j_loc := j_loc g;
                        j_stk := match v with Some x => x :: j_stk g | None => j_stk g end;
                        j_mon := j_mon g |} rest' h (exitLog f log)
          end
      end
  end.
