(** The situations in which the interpreter is known not to do what the JVMS says. Each is
    exhibited by a [_refuted] theorem in Interp_Props; outside them the interpreter refines
    the specification. *)
From Coq Require Import NArith ZArith List Bool.
From Verif Require Import Interp_Types Jvm_Spec.
Import ListNotations.
Local Open Scope N_scope.

Definition unordered (a b : fnum) : bool := match fcompare a b with None => true | _ => false end.
Definition notBool (z : Z) : bool := negb ((z =? 0)%Z || (z =? 1)%Z).

Definition diverges (E : env) (m pc : N) (st : list val) (h : jheap) : bool :=
  let c := m_code (e_method E m) in
  match opAt c pc, st with
  (* NaN operands push two results *)
  | Some (OFcmp _), VFlt b :: VFlt a :: _ => unordered (fdec32 a) (fdec32 b)
  | Some (ODcmp _), VDbl b :: VDbl a :: _ => unordered (fdec64 a) (fdec64 b)
  (* the overflowing quotient traps *)
  | Some (ODivI | ORemI), VInt b :: VInt a :: _ => (a =? minI 32)%Z && (b =? -1)%Z
  | Some (ODivL | ORemL), VLong b :: VLong a :: _ => (a =? minI 64)%Z && (b =? -1)%Z
  (* f2l does not saturate finite values *)
  | Some (OConv F2L), VFlt b :: _ =>
      match fdec32 b with FFin z => negb (inI 64 (ftrunc scale32 z)) | _ => false end
  (* booleans are not reduced modulo 2 *)
  | Some (OArrStore KByte), VInt z :: VInt _ :: VRef a :: _ =>
      match jobjs h a with Some (JArr _ KBool _) => notBool z | _ => false end
  (* aastore does no assignability check *)
  | Some (OArrStore KRef), v :: VInt i :: VRef a :: _ =>
      match jobjs h a with
      | Some (JArr k KRef els) =>
          (0 <=? i)%Z && (i <? Z.of_nat (length els))%Z
          && match storeOk E k KRef v h with Some true => false | _ => true end
      | _ => false
      end
  (* char fields are sign-extended *)
  | Some OGetfield, VRef o :: _ =>
      match u2At c (pc + 1) with
      | Some i =>
          let f := e_resolveField E m i in
          match f_kind f, getF h o f with KChar, Some (VInt z) => (2 ^ 15 <=? z)%Z | _, _ => false end
      | None => false
      end
  | Some OGetstatic, _ =>
      match u2At c (pc + 1) with
      | Some i =>
          let f := e_resolveField E m i in
          match f_kind f, getF h (e_staticTable E m i) f with
          | KChar, Some (VInt z) => (2 ^ 15 <=? z)%Z | _, _ => false
          end
      | None => false
      end
  | Some (OPutfield | OPutstatic), VInt z :: _ =>
      match u2At c (pc + 1) with
      | Some i => match f_kind (e_resolveField E m i) with KBool => notBool z | _ => false end
      | None => false
      end
  (* wide fload, dload, fstore, dstore abort; wide astore of a returnAddress mistags it *)
  | Some OWide, _ =>
      match opAt c (pc + 1), st with
      | Some (OLoad (TF | TD) | OStore (TF | TD)), _ => true
      | Some (OStore TA), VRet _ :: _ => true
      | _, _ => false
      end
  | _, _ => false
  end.

(** A synchronized instance method that has overwritten local variable 0: the monitor of the
    new content would be released instead of the one entered. *)
Definition lostMonitor (E : env) (f : jframe) : bool :=
  match j_mon f with
  | Some o =>
      negb (m_static (e_method E (j_m f)))
      && negb (match j_loc f 0 with Some (VRef o') => o =? o' | _ => false end)
  | None => false
  end.

Definition divergent (E : env) (S : jstate) : bool :=
  match j_frames S with
  | [] => false
  | f :: rest =>
      diverges E (j_m f) (j_pc f) (j_stk f) (j_heap S) || existsb (lostMonitor E) (f :: rest)
  end.

(** * What is assumed of a linked program (the JVMS format and verification constraints the
    interpreter relies on, and the object layout of C11) *)
Record wfMethod (M : method) : Prop := {
  wm_bytes : Forall (fun b => b < 256) (m_code M);
  wm_len : N.of_nat (length (m_code M)) < 2 ^ 16;
  wm_locals : m_maxLocals M < 2 ^ 16;
  wm_stack : m_maxStack M < 2 ^ 16;
  (* the last instruction ends inside the code *)
  wm_whole : forall pc, isBoundary (m_code M) pc = true ->
     exists l, ilen (m_code M) pc = Some l /\ pc + l <= N.of_nat (length (m_code M));
  (* handler ranges start and end between instructions *)
  wm_handlers : forall h, In h (m_handlers M) ->
     (isBoundary (m_code M) (h_start h) = true \/ N.of_nat (length (m_code M)) <= h_start h) /\
     (isBoundary (m_code M) (h_end h) = true \/ N.of_nat (length (m_code M)) <= h_end h)
}.

Definition kbytes (k : kind) : N :=
  match k with
  | KBool | KByte => 1 | KChar | KShort => 2 | KInt | KFlt => 4 | KLong | KDbl | KRef => 8
  end.

Record wfEnv (E : env) : Prop := {
  we_wrapv : e_wrapv E = true;
  we_method : forall m, wfMethod (e_method E m);
  (* instance fields lie inside the object, behind the class pointer, without overlap *)
  we_inside : forall c f, In f (e_layout E c) -> 8 <= f_off f /\ f_off f + kbytes (f_kind f) <= e_size E c;
  we_disjoint : forall c f g, In f (e_layout E c) -> In g (e_layout E c) -> f_id f <> f_id g ->
     f_off f + kbytes (f_kind f) <= f_off g \/ f_off g + kbytes (f_kind g) <= f_off f;
  we_ids : forall c f g, In f (e_layout E c) -> In g (e_layout E c) -> f_id f = f_id g -> f = g;
  we_field : forall m i c f, In f (e_layout E c) -> f_id f = f_id (e_resolveField E m i) -> f = e_resolveField E m i;
  (* the class of boolean[] is no other array class *)
  we_arr : forall k, e_arrayClass E k = e_arrayClass E KBool -> k = KBool;
  we_objarr : forall c, e_objArrayClass E c <> e_arrayClass E KBool;
  (* constants fit their types; floating-point results are bit patterns *)
  we_const : forall m i, match e_const E m i with
     | VInt z => inI 32 z = true | VLong z => inI 64 z = true
     | VFlt b => b < 2 ^ 32 | VDbl b => b < 2 ^ 64 | VRef o => o < 2 ^ 64 | VRet _ => False end;
  we_f32 : forall o a b, f_bin32 (e_fops E) o a b < 2 ^ 32;
  we_f64 : forall o a b, f_bin64 (e_fops E) o a b < 2 ^ 64;
  we_fneg32 : forall a, f_neg32 (e_fops E) a < 2 ^ 32;
  we_fneg64 : forall a, f_neg64 (e_fops E) a < 2 ^ 64;
  we_f2d : forall a, f_f2d (e_fops E) a < 2 ^ 64;
  we_d2f : forall a, f_d2f (e_fops E) a < 2 ^ 32;
  we_i2f : forall z, f_i2f (e_fops E) z < 2 ^ 32;
  we_i2d : forall z, f_i2d (e_fops E) z < 2 ^ 64;
  we_l2f : forall z, f_l2f (e_fops E) z < 2 ^ 32;
  we_l2d : forall z, f_l2d (e_fops E) z < 2 ^ 64
}.

(** * Executions of the specification *)

(** The states some execution from [S] passes through, and executions of at most n
    instructions; the VM decides which calls overflow the stack. *)
Inductive reach (E : env) (S : jstate) : jstate -> Prop :=
| reach_here : reach E S S
| reach_step : forall S1 ov S2, reach E S S1 -> jstep ov E S1 = Some (JRun S2) -> reach E S S2.

Inductive jsteps (E : env) : nat -> jstate -> jres -> Prop :=
| js_stop : forall S, jsteps E 0 S (JRun S)
| js_end : forall n S ov out, jstep ov E S = Some out -> (forall S', out <> JRun S') -> jsteps E (Datatypes.S n) S out
| js_more : forall n S ov S' out, jstep ov E S = Some (JRun S') -> jsteps E n S' out -> jsteps E (Datatypes.S n) S out.

(** The program never leaves the JVMS (which the class-file verifier is meant to ensure) and
    never meets one of the situations above. *)
Definition sound (E : env) (S : jstate) : Prop :=
  forall S', reach E S S' -> divergent E S' = false /\ forall ov, jstep ov E S' <> None.

(** Every execution from [S] ends within n instructions, passing only through states with [ok],
    and with an outcome in [P]. *)
Fixpoint ends (ok : jstate -> bool) (n : nat) (E : env) (S : jstate) (P : jres -> Prop) : Prop :=
  match n with
  | O => False
  | Datatypes.S k =>
      ok S = true /\
      forall ov, match jstep ov E S with
                 | None => False
                 | Some (JRun S') => ends ok k E S' P
                 | Some out => P out
                 end
  end.
Definition regular (E : env) (S : jstate) : bool := negb (divergent E S).
