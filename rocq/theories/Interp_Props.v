(** * The bytecode interpreter: C38-C44 and C58-C66 *)
From Verif Require Import Base Res Bits Interp_Types Interp_Model Jvm_Spec Interp_Obs Interp_Spec.
From Verif Require Import Interp_Entry Interp_Small Interp_Ops Interp_Ops2 Interp_Examples.
Import ListNotations.
Local Open Scope N_scope.

(** ** The main theorem: C38-C44 at once.

    For every linked program, thread, heap, method and arguments, if execution according to the
    JVM specification (Jvm_Spec) from the entry of the method keeps within the specification and
    away from the situations of [divergent] (Interp_Spec), then the interpreter, after any number
    of instructions, is where some execution of the specification is after that many: still
    running with the same heap and monitor history, or ended with the same result, the same
    exception, the same heap and the same monitor history. The other outcome is a
    StackOverflowError when the entry frame does not fit. The interpreter never aborts, never
    reads outside its stack or an object, and never runs out of the model's fuel. *)
Theorem C44_interpreter_refines_jvms : forall E, wfEnv E -> forall n s m args jh S0,
  ready s -> hrel E (hp s) jh -> jnext jh < 2 ^ 63 ->
  Forall argOk args -> depth args = m_pf (e_method E m) -> m_pf (e_method E m) <= m_maxLocals (e_method E m) ->
  isBoundary (m_code (e_method E m)) 0 = true ->
  entered E m args jh (log s) = Some S0 -> sound E S0 ->
  exists s' o, invokeN n E s m args = Ok (s', o) /\
    ((exists out, jsteps E n S0 out /\ agrees E out s' o) \/
     (o = IThrew (jnext jh) /\ hrel E (hp s') (snd (jalloc jh (newInst E (e_soe E)))) /\ log s' = log s /\ exc s' = 0 /\
      ssz s < sp s + 2 * m_pf (e_method E m) + m_maxLocals (e_method E m) + 4 + m_maxStack (e_method E m))).
Proof. exact invoke_ok. Qed.
Print Assumptions C44_interpreter_refines_jvms.

(** A loop with calls, a synchronized method, a division and a handler meets the hypotheses, and
    runs to the result the Java source suggests: 10/2 + 10/1 + 100 + 10/-1. *)
Example C44_case :
  wfEnv loopE /\ ready (idle 1000) /\ hrel loopE (hp (idle 1000)) noObjs /\ jnext noObjs < 2 ^ 63 /\
  Forall argOk [VInt 4] /\ depth [VInt 4] = m_pf (e_method loopE 0) /\ m_pf (e_method loopE 0) <= m_maxLocals (e_method loopE 0) /\
  isBoundary (m_code (e_method loopE 0)) 0 = true /\
  entered loopE 0 [VInt 4] noObjs (log (idle 1000)) = Some (loopS 4) /\ sound loopE (loopS 4) /\
  exists s', invokeN 100 loopE (idle 1000) 0 [VInt 4] = Ok (s', IReturned (RInt 105)).
Proof.
  split; [apply prog_wf; vm_compute; reflexivity|].
  split; [apply idle_ready; reflexivity|]. split; [apply idle_heap|]. split; [reflexivity|].
  split; [repeat constructor|]. split; [reflexivity|]. split; [vm_compute; discriminate|]. split; [vm_compute; reflexivity|].
  split; [reflexivity|]. split; [apply loop_sound|].
  destruct loop_runs as (s' & R & _). exists s'. exact R.
Qed.

(** ** C38 on whole methods: every arithmetic instruction, on every operand.
    [callable] is the circumstances of a call: linked program, consistent heap, stack space. *)
Theorem C38_int_binary : forall E s jh m op f a b,
  callable E s jh m (plain [0x1a; 0x1b; op; 0xac] 2 2 2) -> In (op, f) intOps ->
  inI 32 a = true -> inI 32 b = true ->
  returns 4 E s m [VInt a; VInt b] (RInt (u32 (f a b))).
Proof. exact int_binary. Qed.
Print Assumptions C38_int_binary.

Theorem C38_long_binary : forall E s jh m op f a b,
  callable E s jh m (plain [0x1e; 0x20; op; 0xad] 4 4 4) -> In (op, f) longOps ->
  inI 64 a = true -> inI 64 b = true ->
  returns 4 E s m [VLong a; VLong b] (RLong (u64 (f a b))).
Proof. exact long_binary. Qed.
Print Assumptions C38_long_binary.

Theorem C38_long_shift : forall E s jh m op f a b,
  callable E s jh m (plain [0x1e; 0x1c; op; 0xad] 3 3 3) -> In (op, f) longShifts ->
  inI 64 a = true -> inI 32 b = true ->
  returns 4 E s m [VLong a; VInt b] (RLong (u64 (f a b))).
Proof. exact long_shift. Qed.
Print Assumptions C38_long_shift.

Theorem C38_int_unary : forall E s jh m op f a,
  callable E s jh m (plain [0x1a; op; 0xac] 1 1 1) -> In (op, f) intUnary -> inI 32 a = true ->
  returns 3 E s m [VInt a] (RInt (u32 (f a))).
Proof. exact int_unary. Qed.
Print Assumptions C38_int_unary.

Theorem C38_int_to_long : forall E s jh m a,
  callable E s jh m (plain [0x1a; 0x85; 0xad] 1 2 1) -> inI 32 a = true ->
  returns 3 E s m [VInt a] (RLong (u64 a)).
Proof. exact int_to_long. Qed.
Print Assumptions C38_int_to_long.

Theorem C38_long_to_int : forall E s jh m a,
  callable E s jh m (plain [0x1e; 0x88; 0xac] 2 2 2) -> inI 64 a = true ->
  returns 3 E s m [VLong a] (RInt (u32 a)).
Proof. exact long_to_int. Qed.
Print Assumptions C38_long_to_int.

Theorem C38_long_neg : forall E s jh m a,
  callable E s jh m (plain [0x1e; 0x75; 0xad] 2 2 2) -> inI 64 a = true ->
  returns 3 E s m [VLong a] (RLong (u64 (- a))).
Proof. exact long_neg. Qed.
Print Assumptions C38_long_neg.

Theorem C38_long_compare : forall E s jh m a b,
  callable E s jh m (plain [0x1e; 0x20; 0x94; 0xac] 4 4 4) -> inI 64 a = true -> inI 64 b = true ->
  returns 4 E s m [VLong a; VLong b] (RInt (u32 (Z.sgn (a - b)))).
Proof. exact long_compare. Qed.
Print Assumptions C38_long_compare.

Theorem C38_int_compare : forall E s jh m op f a b,
  callable E s jh m (plain [0x1a; 0x1b; op; 0; 5; 0x03; 0xac; 0x04; 0xac] 2 2 2) -> In (op, f) comparisons ->
  inI 32 a = true -> inI 32 b = true ->
  returns 5 E s m [VInt a; VInt b] (RInt (if f a b then 1 else 0)).
Proof. exact int_compare. Qed.
Print Assumptions C38_int_compare.

Theorem C38_int_division : forall E s jh m (rem : bool) a b,
  callable E s jh m (plain [0x1a; 0x1b; if rem then 0x70 else 0x6c; 0xac] 2 2 2) ->
  inI 32 a = true -> inI 32 b = true ->
  (b = 0%Z -> raises 4 E s m [VInt a; VInt b] (e_arith E)) /\
  (b <> 0%Z -> ~ (a = - 2 ^ 31 /\ b = -1)%Z ->
   returns 4 E s m [VInt a; VInt b] (RInt (u32 (if rem then Z.rem a b else Z.quot a b)))).
Proof. exact int_division. Qed.
Print Assumptions C38_int_division.

Theorem C38_long_division : forall E s jh m (rem : bool) a b,
  callable E s jh m (plain [0x1e; 0x20; if rem then 0x71 else 0x6d; 0xad] 4 4 4) ->
  inI 64 a = true -> inI 64 b = true ->
  (b = 0%Z -> raises 4 E s m [VLong a; VLong b] (e_arith E)) /\
  (b <> 0%Z -> ~ (a = - 2 ^ 63 /\ b = -1)%Z ->
   returns 4 E s m [VLong a; VLong b] (RLong (u64 (if rem then Z.rem a b else Z.quot a b)))).
Proof. exact long_division. Qed.
Print Assumptions C38_long_division.

Example C38_case : callable (prog addI addI true) (idle 1000) noObjs 0 (plain [0x1a; 0x1b; 0x60; 0xac] 2 2 2) /\ In (0x60, Z.add) intOps.
Proof. split; [apply prog_callable; vm_compute; (reflexivity || discriminate)|left; reflexivity]. Qed.
Example C38_case_division : callable (prog divL divL true) (idle 1000) noObjs 0 (plain [0x1e; 0x20; 0x6d; 0xad] 4 4 4).
Proof. apply prog_callable; vm_compute; (reflexivity || discriminate). Qed.

(** ** C39 on ordered operands: -1, 0 or 1 as the numbers compare *)
Theorem C39_float_compare : forall E s jh m op a b c,
  callable E s jh m (plain [0x22; 0x23; op; 0xac] 2 2 2) -> op = 0x95 \/ op = 0x96 ->
  a < 2 ^ 32 -> b < 2 ^ 32 -> fcompare (fdec32 a) (fdec32 b) = Some c ->
  returns 4 E s m [VFlt a; VFlt b] (RInt (u32 (match c with Lt => -1 | Eq => 0 | Gt => 1 end))).
Proof. exact float_compare. Qed.
Print Assumptions C39_float_compare.
Theorem C39_double_compare : forall E s jh m op a b c,
  callable E s jh m (plain [0x26; 0x28; op; 0xac] 4 4 4) -> op = 0x97 \/ op = 0x98 ->
  a < 2 ^ 64 -> b < 2 ^ 64 -> fcompare (fdec64 a) (fdec64 b) = Some c ->
  returns 4 E s m [VDbl a; VDbl b] (RInt (u32 (match c with Lt => -1 | Eq => 0 | Gt => 1 end))).
Proof. exact double_compare. Qed.
Print Assumptions C39_double_compare.
(** -1.5f < 2.5f; -0.0f = 0.0f *)
Example C39_case : fcompare (fdec32 0xBFC00000) (fdec32 0x40200000) = Some Lt /\ fcompare (fdec32 0x80000000) (fdec32 0) = Some Eq.
Proof. split; vm_compute; reflexivity. Qed.

(** ** C41 on a whole method: the value written to a field of int kind is read back, cut to the
    kind's width, and nothing else in the heap changes. *)
Theorem C41_field_roundtrip : forall E s jh m k t o c fl v0 z,
  callable E s jh m (plain [0x2a; 0x1b; 0xb5; 0; 5; 0x2a; 0xb4; 0; 5; 0xac] 2 2 2) ->
  In (k, t) stored -> f_kind (e_resolveField E m 5) = k ->
  o <> 0 -> o < 2 ^ 64 -> jobjs jh o = Some (JInst c fl) -> fl (f_id (e_resolveField E m 5)) = Some v0 -> inI 32 z = true ->
  exists s', invokeN 6 E s m [VRef o; VInt z] = Ok (s', IReturned (RInt (u32 (t z)))) /\
    hrel E (hp s') (writtenTo jh o c fl (f_id (e_resolveField E m 5)) (VInt (t z))).
Proof. exact field_roundtrip. Qed.
Print Assumptions C41_field_roundtrip.

(** ** Where the interpreter departs from the specification.

    Each theorem gives a method the specification defines, called in circumstances the theorems
    above accept, for which the interpreter does something else. *)

(** Minimum divided by -1: undefined behaviour (a trap) instead of the minimum. *)
Theorem C58_overflowing_quotient_refuted : exists E s m M args,
  callable E s noObjs m M /\ Forall argOk args /\
  specified 4 E args (gives (VInt (-2147483648))) /\ invokeN 4 E s m args = UB.
Proof.
  exists (prog divI divI true), (idle 1000), 0, divI, [VInt (-2147483648); VInt (-1)].
  split; [apply prog_callable; vm_compute; (reflexivity || discriminate)|]. split; [repeat constructor|].
  split; [exact divI_spec|exact divI_run].
Qed.
Print Assumptions C58_overflowing_quotient_refuted.

(** A comparison with NaN pushes two ints. *)
Theorem C59_nan_compare_pushes_two_refuted : exists E s m M args,
  callable E s noObjs m M /\ Forall argOk args /\
  specified 6 E args (gives (VInt 5)) /\ returns 6 E s m args (RInt (u32 (-1))).
Proof.
  exists (prog nanM nanM true), (idle 1000), 0, nanM, [VFlt 0x7fc00000; VFlt 0].
  split; [apply prog_callable; vm_compute; (reflexivity || discriminate)|]. split; [repeat constructor|].
  split; [exact nan_spec|exact nan_run].
Qed.
Print Assumptions C59_nan_compare_pushes_two_refuted.

(** f2l of a large finite float: undefined behaviour instead of the greatest long. *)
Theorem C60_f2l_saturates_refuted : exists E s m M args,
  callable E s noObjs m M /\ Forall argOk args /\
  specified 3 E args (gives (VLong 9223372036854775807)) /\ invokeN 3 E s m args = UB.
Proof.
  exists (prog f2lM f2lM true), (idle 1000), 0, f2lM, [VFlt 0x60AD78EC].
  split; [apply prog_callable; vm_compute; (reflexivity || discriminate)|]. split; [repeat constructor|].
  split; [exact f2l_spec|exact f2l_run].
Qed.
Print Assumptions C60_f2l_saturates_refuted.

(** A boolean array component and a boolean field keep more than one bit. *)
Theorem C61_boolean_array_refuted : exists E s m M,
  callable E s noObjs m M /\ specified 11 E [] (gives (VInt 0)) /\ returns 11 E s m [] (RInt 2).
Proof.
  exists (prog boolArrM boolArrM true), (idle 1000), 0, boolArrM.
  split; [apply prog_callable; vm_compute; (reflexivity || discriminate)|]. split; [exact boolArr_spec|exact boolArr_run].
Qed.
Print Assumptions C61_boolean_array_refuted.
Theorem C61_boolean_field_refuted : exists E s m M,
  callable E s noObjs m M /\ specified 8 E [] (gives (VInt 0)) /\ returns 8 E s m [] (RInt 2).
Proof.
  exists (prog boolM boolM true), (idle 1000), 0, boolM.
  split; [apply prog_callable; vm_compute; (reflexivity || discriminate)|]. split; [exact bool_spec|exact bool_run].
Qed.
Print Assumptions C61_boolean_field_refuted.

(** A char field of 0x8000 or more is read as a negative int. *)
Theorem C62_char_field_refuted : exists E s m M,
  callable E s noObjs m M /\ specified 8 E [] (gives (VInt 65535)) /\ returns 8 E s m [] (RInt (u32 (-1))).
Proof.
  exists (prog charM charM true), (idle 1000), 0, charM.
  split; [apply prog_callable; vm_compute; (reflexivity || discriminate)|]. split; [exact char_spec|exact char_run].
Qed.
Print Assumptions C62_char_field_refuted.

(** aastore accepts any reference. *)
Theorem C63_array_store_check_refuted : exists E s m M,
  callable E s noObjs m M /\ specified 9 E [] (throws E (e_ase E)) /\ returns 9 E s m [] (RInt 0).
Proof.
  exists (prog storeM storeM true), (idle 1000), 0, storeM.
  split; [apply prog_callable; vm_compute; (reflexivity || discriminate)|]. split; [exact store_spec|exact store_run].
Qed.
Print Assumptions C63_array_store_check_refuted.

(** wide fload aborts the process; wide astore of a return address breaks ret. *)
Theorem C64_wide_float_refuted : exists E s m M args,
  callable E s noObjs m M /\ Forall argOk args /\
  specified 2 E args (gives (VFlt 0x3F800000)) /\ invokeN 2 E s m args = Abort.
Proof.
  exists (prog wideM wideM true), (idle 1000), 0, wideM, [VFlt 0x3F800000].
  split; [apply prog_callable; vm_compute; (reflexivity || discriminate)|]. split; [repeat constructor|].
  split; [exact wide_spec|exact wide_run].
Qed.
Print Assumptions C64_wide_float_refuted.
Theorem C64_wide_astore_address_refuted : exists E s m M,
  callable E s noObjs m M /\ specified 4 E [] donebP /\ invokeN 4 E s m [] = Abort.
Proof.
  exists (prog wideRetM wideRetM true), (idle 1000), 0, wideRetM.
  split; [apply prog_callable; vm_compute; (reflexivity || discriminate)|]. split; [exact wideRet_spec|exact wideRet_run].
Qed.
Print Assumptions C64_wide_astore_address_refuted.

(** A synchronized method that assigns to local variable 0 releases another object's monitor. *)
Theorem C65_lost_monitor_refuted : exists E s m M args,
  callable E s noObjs m M /\ Forall argOk args /\
  specified 3 E args (logIs [MExit 16; MEnter 16]) /\
  exists s', invokeN 3 E s m args = Ok (s', IReturned RVoid) /\ log s' = [MExit 24; MEnter 16].
Proof.
  exists (prog lostM lostM true), (idle 1000), 0, lostM, [VRef 16; VRef 24].
  split; [apply prog_callable; vm_compute; (reflexivity || discriminate)|]. split; [repeat constructor; reflexivity|].
  split; [exact lost_spec|exact lost_run].
Qed.
Print Assumptions C65_lost_monitor_refuted.

(** The makefile does not pass -fwrapv: with the language's rules for signed overflow an
    overflowing iadd has no defined result. The theorems above are for wrapping arithmetic. *)
Theorem C66_signed_overflow_refuted : exists E m M args,
  e_method E m = M /\ e_wrapv E = false /\ Forall argOk args /\
  specified 4 E args (gives (VInt (-2147483648))) /\ invokeN 4 E (idle 1000) m args = UB.
Proof.
  exists (prog addI addI false), 0, addI, [VInt 2147483647; VInt 1].
  split; [reflexivity|]. split; [reflexivity|]. split; [repeat constructor|]. split; [exact addI_spec|exact addI_run].
Qed.
Print Assumptions C66_signed_overflow_refuted.
