(** When the interpreter's memory and results stand for a JVM heap and JVM values: the
    vocabulary of the refinement theorems. *)
From Coq Require Import NArith ZArith List Bool.
From Verif Require Import Res Interp_Types Interp_Model Jvm_Spec.
Import ListNotations.
Local Open Scope N_scope.

(** A value of its type *)
Definition valOk (v : val) : Prop :=
  match v with
  | VInt z => inI 32 z = true
  | VLong z => inI 64 z = true
  | VFlt b => b < 2 ^ 32
  | VDbl b => b < 2 ^ 64
  | VRef o => o < 2 ^ 64
  | VRet p => p < 2 ^ 32
  end.

(** A value a caller may pass *)
Definition argOk (v : val) : Prop := valOk v /\ match v with VRet _ => False | _ => True end.

(** Its bits on the operand stack *)
Definition valBits (v : val) : N :=
  match v with
  | VInt z => u32 z | VLong z => u64 z | VFlt b => b | VDbl b => b | VRef o => o | VRet p => p
  end.

(** A field or component of kind [k] holds only values of the kind's range, in [ksize k] bytes *)
Definition fits (k : kind) (v : val) : Prop :=
  match k, v with
  | KBool, VInt z => z = 0%Z \/ z = 1%Z
  | KByte, VInt z => inI 8 z = true
  | KChar, VInt z => (0 <= z < 2 ^ 16)%Z
  | KShort, VInt z => inI 16 z = true
  | KInt, VInt _ | KLong, VLong _ | KFlt, VFlt _ | KDbl, VDbl _ | KRef, VRef _ => valOk v
  | _, _ => False
  end.
Definition kenc (k : kind) (v : val) : N :=
  match k, v with
  | (KBool | KByte), VInt z => u8 z
  | (KChar | KShort), VInt z => u16 z
  | _, _ => valBits v
  end.

(** Each field of the JVM object is stored at its offset in the class's layout *)
Definition instRel (E : env) (c : N) (b : list N) (fl : N -> option val) : Prop :=
  blen b = e_size E c /\
  forall id v, fl id = Some v ->
    exists f, In f (e_layout E c) /\ f_id f = id /\ fits (f_kind f) v /\
              rdBytes b (f_off f) (ksize (f_kind f)) = Ok (kenc (f_kind f) v).
(** Component i of an array at i times the component size *)
Definition arrRel (E : env) (c n : N) (b : list N) (k : kind) (els : list val) : Prop :=
  n = N.of_nat (length els) /\ n < 2 ^ 31 /\ blen b = ksize k * n /\
  (c =? e_arrayClass E KBool) = keqb k KBool /\
  forall i v, nth_error els i = Some v ->
    fits k v /\ rdBytes b (N.of_nat i * ksize k) (ksize k) = Ok (kenc k v).
Definition objRel (E : env) (x : hobj) (y : jobj) : Prop :=
  match x, y with
  | HInst c b, JInst c' fl => c = c' /\ instRel E c b fl
  | HArr c n b, JArr c' k els => c = c' /\ arrRel E c n b k els
  | _, _ => False
  end.
(** The same objects at the same addresses *)
Definition hrel (E : env) (h : heap) (jh : jheap) : Prop :=
  next h = jnext jh /\ jnext jh < 2 ^ 63 + 8 /\
  forall a, match objs h a, jobjs jh a with
            | Some x, Some y => objRel E x y
            | None, None => True
            | _, _ => False
            end.

(** What interpret3 returns for a JVM result: nothing, a boxed int (int and float bits), a boxed
    long (long and double bits), an object. interpret.cpp:1059-1110, 2003, 2460, 2690 *)
Definition retRel (v : option val) (r : rres) : Prop :=
  match v, r with
  | None, RVoid => True
  | Some (VInt z), RInt n => n = u32 z /\ inI 32 z = true
  | Some (VFlt b), RInt n => n = b /\ b < 2 ^ 32
  | Some (VLong z), RLong n => n = u64 z /\ inI 64 z = true
  | Some (VDbl b), RLong n => n = b /\ b < 2 ^ 64
  | Some (VRef o), RObj o' => o = o' /\ o < 2 ^ 64
  | _, _ => False
  end.

(** Entry of a method: its parameters in its first local variables, its monitor entered. *)
Definition entered (E : env) (m : N) (args : list val) (h : jheap) (lg : list mev) : option jstate :=
  let M := e_method E m in
  let frame mo := {| j_m := m; j_pc := 0; j_loc := argLoc args 0 noLoc; j_stk := []; j_mon := mo |} in
  if negb (m_sync M) then Some {| j_frames := [frame None]; j_heap := h; j_log := lg |} else
  match (if m_static M then Some (m_jclass M) else match args with VRef o :: _ => Some o | _ => None end) with
  | Some o => Some {| j_frames := [frame (Some o)]; j_heap := h; j_log := MEnter o :: lg |}
  | None => None
  end.

(** A thread ready for a call into Java: no pending exception; if it is already inside Java
    code (a call from a native method), its current frame lies below the stack pointer. *)
Definition ready (s : cst) : Prop :=
  exc s = 0 /\ ssz s < 2 ^ 31 /\ (-1 <= frm s)%Z /\
  ((0 <= frm s)%Z -> Z.to_N (frm s) + 4 <= sp s /\
     fst (mem s (Z.to_N (frm s) + 2)) = ObjectTag /\ fst (mem s (Z.to_N (frm s) + 3)) = IntTag).

(** The outcome of a call is that of a JVM execution. *)
Definition agrees (E : env) (out : jres) (s : cst) (o : iout) : Prop :=
  match out, o with
  | JRun S', IRunning => hrel E (hp s) (j_heap S') /\ log s = j_log S'
  | JDone v h lg, IReturned r => retRel v r /\ hrel E (hp s) h /\ log s = lg /\ exc s = 0
  | JThrown x h lg, IThrew x' => x' = x /\ hrel E (hp s) h /\ log s = lg /\ exc s = 0
  | _, _ => False
  end.
