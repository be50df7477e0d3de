(** Compiled code computes what the bytecode says (C98), moves what it should (C99), branches when it
    should (C100), handles floating-point registers (C101); and where it does not (C102). *)
From Coq Require Import List ZArith Bool Lia.
From Verif Require Import Res X86_Model X86_Spec X86_Decode X86_Proofs X86_Sem X86_Branch.
Import ListNotations.
Local Open Scope Z_scope.

(** ** The machine is deterministic *)
Theorem x86_deterministic : forall fo fa l s o1 o2, runs fo fa l s o1 -> runs fo fa l s o2 -> o1 = o2.
Proof.
  assert (E : forall (A : Type) (x : option A) a b, x = Some a -> x = Some b -> a = b) by (intros A x a b H1 H2; rewrite H1 in H2; inversion H2; reflexivity).
  intros fo fa l s o1 o2 H. revert o2. induction H; intros o2 R2; inversion R2; subst;
    repeat match goal with
    | A : decode ?l = Some (?x, ?r), B : decode ?l = Some (?y, ?r') |- _ =>
        let F := fresh in pose proof (E _ _ _ _ A B) as F; inversion F; subst; clear A
    | A : exec _ _ ?i ?s = Some _, B : exec _ _ ?i ?s = Some _ |- _ => rewrite A in B; inversion B; subst; clear A
    | A : ?x = true, B : ?x = false |- _ => rewrite A in B; discriminate
    | A : exec _ _ ?i ?s = Some _, B : exec _ _ ?i ?s = None |- _ => rewrite A in B; discriminate
    | A : exec _ _ (IJcc _ _) _ = Some _ |- _ => discriminate A
    | A : exec _ _ (IJccShort _ _) _ = Some _ |- _ => discriminate A
    | A : isJump (IJcc _ _) = false |- _ => discriminate A
    | A : isJump (IJccShort _ _) = false |- _ => discriminate A
    | A : decode [] = Some _ |- _ => discriminate A
    end; auto.
Qed.

(** ** C98: arithmetic *)
Inductive operation := OAdd | OSubtract | OAnd | OOr | OXor | OMultiply.
(** what it computes, from the second operand b and the first a: b op a *)
Definition meaning (op : operation) (b a : Z) : Z :=
  match op with
  | OAdd => b + a | OSubtract => b - a | OAnd => Z.land b a | OOr => Z.lor b a | OXor => Z.lxor b a | OMultiply => b * a
  end.
Definition codeRR (op : operation) : Z -> Z -> Z -> list Z :=
  match op with OAdd => addRR | OSubtract => subtractRR | OAnd => andRR | OOr => orRR | OXor => xorRR | OMultiply => multiplyRR end.
Definition codeCR (op : operation) : Z -> Z -> Z -> Z -> list Z :=
  match op with OAdd => addCR | OSubtract => subtractCR | OAnd => andCR | OOr => orCR | OXor => xorCR | OMultiply => multiplyCR end.

Theorem compiled_arithmetic_registers : forall fo fa op size a b s,
  size = 4 \/ size = 8 -> 0 <= a < 16 -> 0 <= b < 16 ->
  exists s', runs fo fa (codeRR op size a b) s (Fell s') /\
    int size s' b = sval size (meaning op (int size s b) (int size s a)) /\ onlyGpr [b] s s'.
Proof.
  intros fo fa op size a b s Hs Ha Hb.
  assert (H : does2 fo fa (codeRR op size a b) [b] size b (sval size (meaning op (int size s b) (int size s a))) s).
  { destruct op.
    - apply (does2_aluRR fo fa 1 Add); auto.
    - apply (does2_aluRR fo fa 41 Sub); auto.
    - apply (does2_aluRR fo fa 33 And); auto.
    - apply (does2_aluRR fo fa 9 Or); auto.
    - apply (does2_aluRR fo fa 49 Xor); auto 7.
    - apply (does2_multiplyRR fo fa); auto. }
  destruct H as (s' & D & V & O). exists s'. split; [apply does_runs; exact D|auto].
Qed.
Example arithmetic_registers_case : exists s',
  runs (fun _ _ _ => Equal) (fun _ _ x _ => x) (codeRR OAdd 4 9 3) (State (fun r => if r =? 3 then 2147483647 else 2) (fun _ => 0) (fun _ => 0) (Flags false false false false false)) (Fell s') /\
  int 4 s' 3 = -2147483647.
Proof. destruct (compiled_arithmetic_registers (fun _ _ _ => Equal) (fun _ _ x _ => x) OAdd 4 9 3 (State (fun r => if r =? 3 then 2147483647 else 2) (fun _ => 0) (fun _ => 0) (Flags false false false false false))) as (s' & R & V & _); [auto|lia|lia|]. exists s'. split; [exact R|exact V]. Qed.

Theorem compiled_arithmetic_constants : forall fo fa op tmp size v b s,
  size = 4 \/ size = 8 -> 0 <= tmp < 16 -> 0 <= b < 16 -> tmp <> b -> - 2 ^ 63 <= v < 2 ^ 63 ->
  exists s', runs fo fa (codeCR op tmp size v b) s (Fell s') /\
    int size s' b = sval size (meaning op (int size s b) v) /\ onlyGpr [b; tmp] s s'.
Proof.
  intros fo fa op tmp size v b s Hs Ht Hb N Hv.
  assert (H : does2 fo fa (codeCR op tmp size v b) [b; tmp] size b (sval size (meaning op (int size s b) v)) s).
  { destruct op; cbn [codeCR meaning]; unfold addCR, subtractCR, orCR, andCR, xorCR.
    - destruct (Z.eqb_spec v 0) as [->|_]; [apply does2_nil; rewrite Z.add_0_r, int_sval by exact Hs; reflexivity|].
      apply (does2_aluC fo fa 0 192 Add); auto; discriminate || lia.
    - destruct (Z.eqb_spec v 0) as [->|_]; [apply does2_nil; rewrite Z.sub_0_r, int_sval by exact Hs; reflexivity|].
      apply (does2_aluC fo fa 5 232 Sub); auto; discriminate || lia.
    - apply (does2_aluC fo fa 4 224 And); auto; discriminate || lia.
    - destruct (Z.eqb_spec v 0) as [->|_]; [apply does2_nil; rewrite Z.lor_0_r, int_sval by exact Hs; reflexivity|].
      apply (does2_aluC fo fa 1 200 Or); auto; discriminate || lia.
    - destruct (Z.eqb_spec v 0) as [->|_]; [apply does2_nil; rewrite Z.lxor_0_r, int_sval by exact Hs; reflexivity|].
      apply (does2_aluC fo fa 6 240 Xor); auto 7; discriminate || lia.
    - apply does2_multiplyCR; auto. }
  destruct H as (s' & D & V & O). exists s'. split; [apply does_runs; exact D|auto].
Qed.

Theorem compiled_negate : forall fo fa size a s, size = 4 \/ size = 8 -> 0 <= a < 16 ->
  exists s', runs fo fa (negateR size a) s (Fell s') /\ int size s' a = sval size (- int size s a) /\ onlyGpr [a] s s'.
Proof.
  intros fo fa size a s Hs Ha. destruct (does2_negate fo fa size a s Hs Ha) as (s' & D & H).
  exists s'. split; [apply does_runs; exact D|exact H].
Qed.
Theorem compiled_absolute : forall fo fa size s, size = 4 \/ size = 8 ->
  exists s', runs fo fa (absoluteRR size rax rax) s (Fell s') /\ int size s' 0 = sval size (Z.abs (int size s 0)) /\ onlyGpr [0; 2] s s'.
Proof.
  intros fo fa size s Hs. destruct (absolute_ok fo fa size s Hs) as (s' & D & H).
  exists s'. split; [apply does_runs; exact D|exact H].
Qed.

(** shifts: the count is taken modulo the number of bits *)
Inductive shifting := OShiftLeft | OShiftRight | OUnsignedShiftRight.
Definition shiftMeaning (op : shifting) (size x count : Z) : Z :=
  let n := count mod (8 * size) in
  match op with
  | OShiftLeft => x * 2 ^ n
  | OShiftRight => x / 2 ^ n
  | OUnsignedShiftRight => (x mod 2 ^ (8 * size)) / 2 ^ n
  end.
Definition codeShiftRR (op : shifting) : Z -> Z -> Z -> list Z :=
  match op with OShiftLeft => shiftLeftRR | OShiftRight => shiftRightRR | OUnsignedShiftRight => unsignedShiftRightRR end.
Definition codeShiftCR (op : shifting) : Z -> Z -> Z -> res (list Z) :=
  match op with OShiftLeft => shiftLeftCR | OShiftRight => shiftRightCR | OUnsignedShiftRight => unsignedShiftRightCR end.
Lemma int4_mod size s : size = 4 \/ size = 8 -> int size s 1 mod (8 * size) = int 4 s 1 mod (8 * size).
Proof.
  intros [-> | ->]; [reflexivity|]. rewrite <- (mod_int 8 s 1) by (right; reflexivity).
  assert (H : low 4 (int 4 s 1) = low 4 (gpr s 1)) by (apply low_sval; lia). unfold low in H.
  rewrite (Znumtheory.Zmod_div_mod (8 * 8) (2 ^ (8 * 4)) (gpr s 1)), (Znumtheory.Zmod_div_mod (8 * 8) (2 ^ (8 * 4)) (int 4 s 1)), H;
    try reflexivity; exists (2 ^ 26); reflexivity.
Qed.
Theorem compiled_shift_registers : forall fo fa op size b s, size = 4 \/ size = 8 -> 0 <= b < 16 ->
  exists s', runs fo fa (codeShiftRR op size rcx b) s (Fell s') /\
    int size s' b = sval size (shiftMeaning op size (int size s b) (int 4 s 1)) /\ onlyGpr [b] s s'.
Proof.
  intros fo fa op size b s Hs Hb.
  assert (M : shiftMeaning op size (int size s b) (int 4 s 1) = shiftMeaning op size (int size s b) (int size s 1)).
  { unfold shiftMeaning. rewrite (int4_mod size s Hs). reflexivity. }
  rewrite M. destruct op.
  - destruct (does2_shiftRR fo fa 224 size b s Hs Hb ltac:(left; reflexivity)) as (s' & D & H). exists s'. split; [apply does_runs; exact D|exact H].
  - destruct (does2_shiftRR fo fa 248 size b s Hs Hb ltac:(right; right; reflexivity)) as (s' & D & H). exists s'. split; [apply does_runs; exact D|exact H].
  - destruct (does2_shiftRR fo fa 232 size b s Hs Hb ltac:(right; left; reflexivity)) as (s' & D & H). exists s'. split; [apply does_runs; exact D|exact H].
Qed.
Theorem compiled_shift_constants : forall fo fa op size v b s, size = 4 \/ size = 8 -> 0 <= b < 16 -> - 128 <= v < 128 ->
  exists code s', codeShiftCR op v size b = Ok code /\ runs fo fa code s (Fell s') /\
    int size s' b = sval size (shiftMeaning op size (int size s b) v) /\ onlyGpr [b] s s'.
Proof.
  intros fo fa op size v b s Hs Hb Hv.
  assert (F : forall t, exists code, doShift t v size b = Ok code).
  { intros t. unfold doShift. destruct (v =? 1); [eexists; reflexivity|].
    replace (fitsInInt8 v) with true; [eexists; reflexivity|].
    symmetry. unfold fitsInInt8. apply Z.eqb_eq. symmetry.
    change (toSigned 8 v) with (toSigned (8 * 1) v). rewrite toSigned_sval by lia. apply sval_small; cbn; lia. }
  destruct op.
  - destruct (F 224) as (code & E). destruct (does2_doShift fo fa 224 size v b s code Hs Hb ltac:(left; reflexivity) E) as (s' & D & H).
    exists code, s'. split; [exact E|]. split; [apply does_runs; exact D|exact H].
  - destruct (F 248) as (code & E). destruct (does2_doShift fo fa 248 size v b s code Hs Hb ltac:(right; right; reflexivity) E) as (s' & D & H).
    exists code, s'. split; [exact E|]. split; [apply does_runs; exact D|exact H].
  - destruct (F 232) as (code & E). destruct (does2_doShift fo fa 232 size v b s code Hs Hb ltac:(right; left; reflexivity) E) as (s' & D & H).
    exists code, s'. split; [exact E|]. split; [apply does_runs; exact D|exact H].
Qed.
Example shift_case : shiftMeaning OUnsignedShiftRight 4 (-1) 33 = 2147483647 /\ shiftMeaning OShiftRight 8 (-8) 65 = -4.
Proof. split; reflexivity. Qed.

(** division: the dividend and the result are in rax *)
Theorem compiled_divide : forall fo fa size a s, size = 4 \/ size = 8 -> 0 <= a < 16 -> a <> 0 -> a <> 2 ->
  int size s a <> 0 -> ~ (int size s 0 = - 2 ^ (8 * size - 1) /\ int size s a = -1) ->
  exists s', runs fo fa (divideRR size a rax) s (Fell s') /\
    int size s' 0 = Z.quot (int size s 0) (int size s a) /\ onlyGpr [0; 2] s s'.
Proof.
  intros fo fa size a s Hs Ha H0 H2 N X. destruct (divide_ok fo fa size a s Hs Ha H0 H2 N X) as (s' & D & V & _ & O).
  exists s'. split; [apply does_runs; exact D|auto].
Qed.
Theorem compiled_remainder : forall fo fa size a s, size = 4 \/ size = 8 -> 0 <= a < 16 -> a <> 0 -> a <> 2 ->
  int size s a <> 0 -> ~ (int size s 0 = - 2 ^ (8 * size - 1) /\ int size s a = -1) ->
  exists s', runs fo fa (remainderRR size a rax) s (Fell s') /\
    int size s' 0 = Z.rem (int size s 0) (int size s a) /\ onlyGpr [0; 2] s s'.
Proof.
  intros fo fa size a s Hs Ha H0 H2 N X. destruct (remainder_ok fo fa size a s Hs Ha H0 H2 N X) as (s' & D & V & O).
  exists s'. split; [apply does_runs; exact D|auto].
Qed.
(** a zero divisor faults: the signal handler makes it an ArithmeticException *)
Theorem compiled_divide_by_zero : forall fo fa size a s, size = 4 \/ size = 8 -> 0 <= a < 16 -> a <> 0 -> a <> 2 ->
  int size s a = 0 -> runs fo fa (divideRR size a rax) s Fault /\ runs fo fa (remainderRR size a rax) s Fault.
Proof.
  intros fo fa size a s Hs Ha H0 H2 Z0. split.
  - rewrite <- (app_nil_r (divideRR _ _ _)). apply divide_fault; auto.
  - unfold remainderRR. apply divide_fault; auto.
Qed.
Example divide_case : exists s', runs (fun _ _ _ => Equal) (fun _ _ x _ => x) (divideRR 4 3 rax)
  (State (fun r => if r =? 0 then 4294967289 else 2) (fun _ => 0) (fun _ => 0) (Flags false false false false false)) (Fell s') /\ int 4 s' 0 = -3.
Proof. destruct (compiled_divide (fun _ _ _ => Equal) (fun _ _ x _ => x) 4 3 (State (fun r => if r =? 0 then 4294967289 else 2) (fun _ => 0) (fun _ => 0) (Flags false false false false false))) as (s' & R & V & _); [auto|lia|lia|lia|vm_compute; discriminate|vm_compute; intros [? ?]; discriminate|]. exists s'. split; [exact R|exact V]. Qed.

(** ** C99: moves *)
(** the address a memory operand stands for *)
Definition addressOf (s : state) (m : memory) : Z :=
  gpr s (mbase m) + match mindex m with Some i => gpr s i * mscale m | None => 0 end + moffset m.
(** memory operands: any base, any index but rsp, scale 1, 2, 4 or 8, 32-bit offset *)
Definition addressable (m : memory) : Prop :=
  0 <= mbase m < 16 /\ - 2 ^ 31 <= moffset m < 2 ^ 31 /\
  match mindex m with
  | None => True
  | Some i => 0 <= i < 16 /\ i <> 4 /\ (mscale m = 1 \/ mscale m = 2 \/ mscale m = 4 \/ mscale m = 8)
  end.

Theorem compiled_move_registers : forall fo fa aSize a bSize b s,
  (bSize = 4 /\ (aSize = 1 \/ aSize = 2 \/ aSize = 4)) \/ (bSize = 8 /\ (aSize = 4 \/ aSize = 8)) ->
  0 <= a < 16 -> 0 <= b < 16 ->
  exists s', runs fo fa (moveRR aSize a bSize b) s (Fell s') /\ int bSize s' b = int aSize s a /\ onlyGpr [b] s s'.
Proof.
  intros fo fa aSize a bSize b s Hm Ha Hb. destruct (moveRR_ok fo fa aSize a bSize b s Hm Ha Hb) as (s' & D & H).
  exists s'. split; [apply does_runs; exact D|exact H].
Qed.
Theorem compiled_load : forall fo fa aSize m bSize b s,
  aSize = 1 \/ aSize = 2 \/ aSize = 4 \/ aSize = 8 -> bSize = 4 \/ bSize = 8 -> aSize <= bSize -> addressable m -> 0 <= b < 16 ->
  exists code s', moveMR aSize m bSize b = Ok code /\ runs fo fa code s (Fell s') /\
    int bSize s' b = memInt aSize s (addressOf s m) /\ onlyGpr [b] s s'.
Proof.
  intros fo fa aSize m bSize b s H1 H2 L Hm Hb. destruct (moveMR_ok fo fa aSize m bSize b s H1 H2 L Hm Hb) as (code & E & s' & D & H).
  exists code, s'. split; [exact E|]. split; [apply does_runs; exact D|exact H].
Qed.
Theorem compiled_store : forall fo fa aSize a m s,
  aSize = 1 \/ aSize = 2 \/ aSize = 4 \/ aSize = 8 -> 0 <= a < 16 -> addressable m ->
  exists code s', moveRM aSize a m = Ok code /\ runs fo fa code s (Fell s') /\ onlyStore [] aSize (addressOf s m) (gpr s a) s s'.
Proof.
  intros fo fa aSize a m s H1 Ha Hm. destruct (moveRM_ok fo fa aSize a m s H1 Ha Hm) as (code & s' & E & D & H).
  exists code, s'. split; [exact E|]. split; [apply does_runs; exact D|exact H].
Qed.
Theorem compiled_move_constant : forall fo fa tmp aSize v b s,
  aSize = 1 \/ aSize = 2 \/ aSize = 4 \/ aSize = 8 -> - 2 ^ 63 <= v < 2 ^ 63 -> 0 <= b < 16 ->
  exists s', runs fo fa (moveCR tmp aSize v b) s (Fell s') /\ int 8 s' b = sval aSize v /\ onlyGpr [b] s s'.
Proof.
  intros fo fa tmp aSize v b s H1 Hv Hb. destruct (moveCR_ok fo fa tmp aSize v b s H1 Hv Hb) as (s' & D & H).
  exists s'. split; [apply does_runs; exact D|exact H].
Qed.
Theorem compiled_store_constant : forall fo fa tmp v bSize m s,
  bSize = 1 \/ bSize = 2 \/ bSize = 4 \/ bSize = 8 -> 0 <= tmp < 16 -> addressable m -> - 2 ^ 63 <= v < 2 ^ 63 ->
  mbase m <> tmp -> mindex m <> Some tmp ->
  exists code s', moveCM tmp v bSize m = Ok code /\ runs fo fa code s (Fell s') /\ onlyStore [tmp] bSize (addressOf s m) v s s'.
Proof.
  intros fo fa tmp v bSize m s H1 Ht Hm Hv N1 N2. destruct (moveCM_ok fo fa tmp v bSize m s H1 Ht Hm Hv N1 N2) as (code & s' & E & D & H).
  exists code, s'. split; [exact E|]. split; [apply does_runs; exact D|exact H].
Qed.
(** zero extension of a char *)
Theorem compiled_move_zero_extended : forall fo fa a m v b s, 0 <= a < 16 -> addressable m -> 0 <= b < 16 ->
  (exists s', runs fo fa (moveZRR a b) s (Fell s') /\ int 8 s' b = gpr s a mod 65536 /\ onlyGpr [b] s s') /\
  (exists s', runs fo fa (moveZMR m b) s (Fell s') /\ int 8 s' b = load 2 (mem s) (addressOf s m) /\ onlyGpr [b] s s') /\
  (exists s', runs fo fa (moveZCR v b) s (Fell s') /\ int 8 s' b = v mod 65536 /\ onlyGpr [b] s s').
Proof.
  intros fo fa a m v b s Ha Hm Hb. split; [|split].
  - destruct (moveZRR_ok fo fa a b s Ha Hb) as (s' & D & H). exists s'. split; [apply does_runs; exact D|exact H].
  - destruct (moveZMR_ok fo fa m b s Hm Hb) as (s' & D & H). exists s'. split; [apply does_runs; exact D|exact H].
  - destruct (moveZCR_ok fo fa v b s Hb) as (s' & D & H). exists s'. split; [apply does_runs; exact D|exact H].
Qed.
Theorem compiled_load_address : forall fo fa tmp address bSize b s, bSize = 4 \/ bSize = 8 -> 0 <= b < 16 -> 0 <= address < 2 ^ 64 ->
  exists code s', moveAR tmp 8 address bSize b = Ok code /\ runs fo fa code s (Fell s') /\ int bSize s' b = memInt bSize s address /\ onlyGpr [b] s s'.
Proof.
  intros fo fa tmp address bSize b s Hs Hb Ha. destruct (moveAR_ok fo fa tmp address bSize b s Hs Hb Ha) as (code & E & s' & D & H).
  exists code, s'. split; [exact E|]. split; [apply does_runs; exact D|exact H].
Qed.
Theorem compiled_push_pop_swap : forall fo fa size a b s, size = 4 \/ size = 8 -> 0 <= a < 16 -> 0 <= b < 16 ->
  (8 <= gpr s 4 < 2 ^ 64 -> exists s', runs fo fa (pushR a) s (Fell s') /\ gpr s' 4 = gpr s 4 - 8 /\ onlyStore [4] 8 (gpr s 4 - 8) (gpr s a) s s') /\
  (0 <= gpr s 4 < 2 ^ 64 - 8 -> a <> 4 ->
   exists s', runs fo fa (popR size a) s (Fell s') /\ gpr s' 4 = gpr s 4 + 8 /\ int 8 s' a = memInt size s (gpr s 4) /\ onlyGpr [a; 4] s s') /\
  (exists s', runs fo fa (swapRR a b) s (Fell s') /\ int 8 s' a = int 8 s b /\ int 8 s' b = int 8 s a /\ onlyGpr [a; b] s s').
Proof.
  intros fo fa size a b s Hs Ha Hb. split; [|split].
  - intros R. destruct (push_ok fo fa a s Ha R) as (s' & D & H). exists s'. split; [apply does_runs; exact D|exact H].
  - intros R N. destruct (pop_ok fo fa size a s Hs Ha N R) as (s' & D & H). exists s'. split; [apply does_runs; exact D|exact H].
  - destruct (swap_ok fo fa a b s Ha Hb) as (s' & D & H). exists s'. split; [apply does_runs; exact D|exact H].
Qed.
Example load_case : exists code, moveMR 2 (Memory 12 (-6) (Some 13) 4) 8 9 = Ok code /\ length code = 6%nat /\
  exists s', runs (fun _ _ _ => Equal) (fun _ _ x _ => x) code
    (State (fun r => if r =? 12 then 100 else 3) (fun _ => 0) (fun a => if a =? 106 then 254 else 255) (Flags false false false false false)) (Fell s') /\ int 8 s' 9 = -2.
Proof.
  destruct (compiled_load (fun _ _ _ => Equal) (fun _ _ x _ => x) 2 (Memory 12 (-6) (Some 13) 4) 8 9
    (State (fun r => if r =? 12 then 100 else 3) (fun _ => 0) (fun a => if a =? 106 then 254 else 255) (Flags false false false false false)))
    as (code & s' & E & R & V & _); [auto|auto|lia|repeat split; cbn; auto; lia|lia|].
  exists code. split; [exact E|]. split; [|exists s'; split; [exact R|exact V]].
  vm_compute in E. inversion E. reflexivity.
Qed.

(** ** C100: comparing and branching on integers: the jump is taken iff  b op a *)
Definition holds (op : relation) (b a : Z) : bool :=
  match op with
  | JumpIfEqual => b =? a
  | JumpIfNotEqual => negb (b =? a)
  | JumpIfLess => b <? a
  | JumpIfGreater => a <? b
  | JumpIfLessOrEqual => b <=? a
  | JumpIfGreaterOrEqual => a <=? b
  end.
Theorem compiled_branch_registers : forall fo fa op size a b s, size = 4 \/ size = 8 -> 0 <= a < 16 -> 0 <= b < 16 ->
  exists s', runs fo fa (branchRR op size a b) s (if holds op (int size s b) (int size s a) then Jumped s' else Fell s') /\ onlyGpr [] s s'.
Proof. intros. apply compares_branch, compareRR_ok; assumption. Qed.
Theorem compiled_branch_constant : forall fo fa op tmp size v b s,
  size = 4 \/ size = 8 -> 0 <= tmp < 16 -> 0 <= b < 16 -> tmp <> b -> - 2 ^ 63 <= v < 2 ^ 63 ->
  exists s', runs fo fa (branchCR op tmp size v b) s (if holds op (int size s b) (sval size v) then Jumped s' else Fell s') /\ onlyGpr [tmp] s s'.
Proof. intros. apply compares_branch, compareCR_ok; assumption. Qed.
(** comparing a 4-byte register with memory first sign-extends the register in place *)
Theorem compiled_branch_memory : forall fo fa op size a m s, size = 4 \/ size = 8 -> 0 <= a < 16 -> addressable m ->
  (size = 4 -> mbase m <> a /\ mindex m <> Some a) ->
  exists s', runs fo fa (branchRM op size a m) s (if holds op (memInt size s (addressOf s m)) (int size s a) then Jumped s' else Fell s') /\ onlyGpr [a] s s'.
Proof. intros. apply compares_branch, compareRM_ok; assumption. Qed.
Theorem compiled_branch_constant_memory : forall fo fa op size v m s, size = 4 \/ size = 8 -> - 2 ^ 31 <= v < 2 ^ 31 -> addressable m ->
  exists code s', branchCM op size v m = Ok code /\
    runs fo fa code s (if holds op (memInt size s (addressOf s m)) v then Jumped s' else Fell s') /\ onlyGpr [] s s'.
Proof.
  intros fo fa op size v m s Hs Hv Hm.
  assert (F : fitsInInt32 v = true).
  { unfold fitsInInt32. apply Z.eqb_eq. symmetry. change (toSigned 32 v) with (toSigned (8 * 4) v). rewrite toSigned_sval by lia. apply sval_small; cbn; lia. }
  destruct (compareCM_ok fo fa size v m s Hs Hm F) as (code & E & C). unfold branchCM. rewrite E. cbn [bind].
  assert (V : sval size v = v). { rewrite <- (fits32 v F). destruct Hs as [-> | ->]; apply sval_in; unfold word, okSize; auto; lia. }
  rewrite V in C. destruct (compares_branch fo fa code [] _ _ s op C) as (s' & R & O).
  exists (code ++ branch op), s'. auto.
Qed.
Example branch_case : holds JumpIfLess (-2147483648) 1 = true /\ holds JumpIfGreater (-2147483648) 1 = false.
Proof. split; reflexivity. Qed.

(** ** C101: floating-point registers (xmm r has number 16 + r) *)
Theorem compiled_float_arithmetic : forall fo fa o size a m b s,
  o = 88 \/ o = 89 \/ o = 92 \/ o = 94 -> size = 4 \/ size = 8 -> 16 <= a < 32 -> 16 <= b < 32 -> addressable m ->
  (exists s', runs fo fa (floatRegOp o size a b) s (Fell s') /\
    low size (xmm s' (b - 16)) = low size (fa o size (low size (xmm s (b - 16))) (low size (xmm s (a - 16)))) /\ onlyXmm (b - 16) s s') /\
  (exists s', runs fo fa (floatMemOp o size m b) s (Fell s') /\
    low size (xmm s' (b - 16)) = low size (fa o size (low size (xmm s (b - 16))) (load (Z.to_nat size) (mem s) (addressOf s m))) /\ onlyXmm (b - 16) s s').
Proof.
  intros fo fa o size a m b s Ho Hs Ha Hb Hm. split.
  - destruct (floatOp_ok fo fa o size a b s Ho Hs Ha Hb) as (s' & D & H). exists s'. split; [apply does_runs; exact D|exact H].
  - destruct (floatMemOp_ok fo fa o size m b s Ho Hs Hm Hb) as (s' & D & H). exists s'. split; [apply does_runs; exact D|exact H].
Qed.
Theorem compiled_float_moves : forall fo fa size bSize g m a b s,
  size = 4 \/ size = 8 -> 0 <= g < 16 -> addressable m -> 16 <= a < 32 -> 16 <= b < 32 ->
  (exists s', runs fo fa (moveRR size g bSize b) s (Fell s') /\ low size (xmm s' (b - 16)) = low size (gpr s g) /\ onlyXmm (b - 16) s s') /\
  (exists s', runs fo fa (moveRR size a bSize g) s (Fell s') /\ int size s' g = sval size (xmm s (a - 16)) /\ onlyGpr [g] s s') /\
  (exists code s', moveMR size m bSize b = Ok code /\ runs fo fa code s (Fell s') /\
     low size (xmm s' (b - 16)) = load (Z.to_nat size) (mem s) (addressOf s m) /\ onlyXmm (b - 16) s s') /\
  (exists code s', moveRM size a m = Ok code /\ runs fo fa code s (Fell s') /\ onlyStore [] size (addressOf s m) (xmm s (a - 16)) s s') /\
  (size = 8 \/ (a < 24 <-> b < 24) ->
   exists s', runs fo fa (moveRR size a bSize b) s (Fell s') /\ low size (xmm s' (b - 16)) = low size (xmm s (a - 16)) /\ onlyXmm (b - 16) s s').
Proof.
  intros fo fa size bSize g m a b s Hs Hg Hm Ha Hb. split; [|split; [|split; [|split]]].
  - destruct (moveGX_ok fo fa size g bSize b s Hs Hg Hb) as (s' & D & H). exists s'. split; [apply does_runs; exact D|exact H].
  - destruct (moveXG_ok fo fa size a bSize g s Hs Ha Hg) as (s' & D & H). exists s'. split; [apply does_runs; exact D|exact H].
  - destruct (loadX_ok fo fa size m bSize b s Hs Hm Hb) as (code & E & s' & D & H). exists code, s'. split; [exact E|]. split; [apply does_runs; exact D|exact H].
  - destruct (storeX_ok fo fa size a m s Hs Ha Hm) as (code & s' & E & D & H). exists code, s'. split; [exact E|]. split; [apply does_runs; exact D|exact H].
  - intros W. assert (K : forall r, 16 <= r < 32 -> has8 (Some r) = (24 <=? r)).
    { intros r Hr. assert (C : r = 16 \/ r = 17 \/ r = 18 \/ r = 19 \/ r = 20 \/ r = 21 \/ r = 22 \/ r = 23 \/ r = 24 \/ r = 25 \/ r = 26 \/ r = 27 \/ r = 28 \/ r = 29 \/ r = 30 \/ r = 31) by lia.
      repeat (destruct C as [->|C]; [reflexivity|]). subst r. reflexivity. }
    destruct (moveXX_ok fo fa size a bSize b s Hs Ha Hb) as (s' & D & H).
    + intros ->. rewrite !K by assumption. destruct W as [W|W]; [lia|]. destruct (Z.leb_spec 24 a), (Z.leb_spec 24 b); auto; lia.
    + exists s'. split; [apply does_runs; exact D|exact H].
Qed.
Theorem compiled_float_sign : forall fo fa gtmp tmp a s, 0 <= gtmp < 16 -> 16 <= tmp < 32 -> 16 <= a < 32 -> tmp <> a ->
  (exists s', runs fo fa (floatNegateRR gtmp tmp a a) s (Fell s') /\ xmm s' (a - 16) = Z.lxor (xmm s (a - 16)) (2 ^ 31) /\
     (forall q, q <> a - 16 -> q <> tmp - 16 -> xmm s' q = xmm s q) /\ (forall r, r <> gtmp -> gpr s' r = gpr s r) /\ (forall x, mem s' x = mem s x)) /\
  (exists s', runs fo fa (floatAbsoluteRR gtmp tmp a a) s (Fell s') /\ xmm s' (a - 16) = Z.land (xmm s (a - 16)) (2 ^ 31 - 1) /\
     (forall q, q <> a - 16 -> q <> tmp - 16 -> xmm s' q = xmm s q) /\ (forall r, r <> gtmp -> gpr s' r = gpr s r) /\ (forall x, mem s' x = mem s x)).
Proof.
  intros fo fa gtmp tmp a s Hg Ht Ha N. split.
  - destruct (floatNegate_ok fo fa gtmp tmp a s Hg Ht Ha N) as (s' & D & H). exists s'. split; [apply does_runs; exact D|exact H].
  - destruct (floatAbsolute_ok fo fa gtmp tmp a s Hg Ht Ha N) as (s' & D & H). exists s'. split; [apply does_runs; exact D|exact H].
Qed.
(** branching: whether  b op a  holds for floats, where unordered values (NaN) satisfy only [JumpIfNotEqual]
    and the relations marked "or unordered" *)
Definition holdsFloat (op : relation) (orUnordered : bool) (o : order) : bool :=
  match o with
  | Unordered => match op with JumpIfNotEqual => true | JumpIfEqual => false | _ => orUnordered end
  | Equal => match op with JumpIfEqual | JumpIfLessOrEqual | JumpIfGreaterOrEqual => true | _ => false end
  | Less => match op with JumpIfNotEqual | JumpIfLess | JumpIfLessOrEqual => true | _ => false end
  | Greater => match op with JumpIfNotEqual | JumpIfGreater | JumpIfGreaterOrEqual => true | _ => false end
  end.
Theorem compiled_float_branch_partial : forall fo fa op u size a b s,
  size = 4 \/ size = 8 -> 16 <= a < 32 -> 16 <= b < 32 -> (a < 24 <-> b < 24) ->
  let o := fo size (low size (xmm s (b - 16))) (low size (xmm s (a - 16))) in
  (o = Unordered -> op = JumpIfLess \/ op = JumpIfLessOrEqual -> u = true) ->
  exists s', runs fo fa (branchFloatRR op u size a b) s (if holdsFloat op u o then Jumped s' else Fell s') /\ onlyGpr [] s s'.
Proof.
  intros fo fa op u size a b s Hs Ha Hb W o U.
  assert (K : forall r, 16 <= r < 32 -> has8 (Some r) = (24 <=? r)).
  { intros r Hr. assert (C : r = 16 \/ r = 17 \/ r = 18 \/ r = 19 \/ r = 20 \/ r = 21 \/ r = 22 \/ r = 23 \/ r = 24 \/ r = 25 \/ r = 26 \/ r = 27 \/ r = 28 \/ r = 29 \/ r = 30 \/ r = 31) by lia.
    repeat (destruct C as [->|C]; [reflexivity|]). subst r. reflexivity. }
  assert (E : has8 (Some a) = has8 (Some b)) by (rewrite !K by assumption; destruct (Z.leb_spec 24 a), (Z.leb_spec 24 b); auto; lia).
  destruct (branchFloatRR_ok fo fa op u size a b s Hs) as (s' & R & O). rewrite !swapTo_same in R by auto. fold o in R.
  exists s'. split; [|exact O].
  replace (holdsFloat op u o) with (relF op u o || alsoUnordered op u o); [exact R|].
  destruct o, op, u; try reflexivity; exfalso; specialize (U eq_refl); discriminate U; auto.
Qed.

Example float_case : exists s',
  runs (fun _ _ _ => Equal) (fun o _ x y => if o =? 88 then x + y else x) (floatRegOp 88 8 31 17)
    (State (fun _ => 0) (fun r => r * 10) (fun _ => 0) (Flags false false false false false)) (Fell s') /\ low 8 (xmm s' 1) = 160.
Proof.
  destruct (compiled_float_arithmetic (fun _ _ _ => Equal) (fun o _ x y => if o =? 88 then x + y else x) 88 8 31 (Memory 0 0 None 0) 17
    (State (fun _ => 0) (fun r => r * 10) (fun _ => 0) (Flags false false false false false))) as ((s' & R & V & _) & _);
    [auto|auto|lia|lia|repeat split; cbn; auto; lia|]. exists s'. split; [exact R|exact V].
Qed.

(** ** C102: where compiled code does not do what the bytecode says *)
Definition zeroState (g x : Z -> Z) : state := State g x (fun _ => 0) (Flags false false false false false).
(** a float moved from xmm0 to xmm8 does not arrive: xmm0 is overwritten from xmm8 *)
Theorem compiled_float_move_refuted : forall fo fa s, xmm s 0 = 1 -> xmm s 8 = 2 ->
  exists s', runs fo fa (moveRR 4 16 4 24) s (Fell s') /\ xmm s' 8 = 2 /\ xmm s' 0 = 2.
Proof.
  intros fo fa s E0 E8. eexists. split.
  - eapply RunStep; [reflexivity|reflexivity|apply RunEnd].
  - split; [exact E8|]. change (xmm s 0 / 2 ^ 32 * 2 ^ 32 + low 4 (xmm s 8) = 2). rewrite E0, E8. reflexivity.
Qed.
(** comparing xmm0 with xmm8 compares xmm8 with xmm0 *)
Theorem compiled_float_compare_refuted : forall fa, exists fo s, fo 4 (xmm s 8) (xmm s 0) = Less /\
  forall o, runs fo fa (branchFloatRR JumpIfLess false 4 16 24) s o -> exists s', o = Fell s'.
Proof.
  intros fa. exists (fun _ x y => if x <? y then Less else if y <? x then Greater else Equal).
  exists (zeroState (fun _ => 0) (fun r => if r =? 0 then 2 else 1)). split; [reflexivity|].
  intros o R. eexists.
  eapply x86_deterministic; [exact R|].
  eapply RunStep; [reflexivity|reflexivity|]. eapply RunNoJump; [reflexivity|reflexivity|apply RunEnd].
Qed.
(** "less than" jumps when the values are unordered *)
Theorem compiled_float_nan_refuted : forall fa s, exists s',
  runs (fun _ _ _ => Unordered) fa (branchFloatRR JumpIfLess false 8 17 16) s (Jumped s') /\
  holdsFloat JumpIfLess false Unordered = false.
Proof.
  intros fa s. eexists. split; [|reflexivity].
  eapply RunStep; [reflexivity|reflexivity|]. eapply RunJump; reflexivity.
Qed.
(** the most negative number divided by -1 traps *)
Theorem compiled_divide_refuted : forall fo fa size a s, size = 4 \/ size = 8 -> 0 <= a < 16 -> a <> 0 -> a <> 2 ->
  int size s 0 = - 2 ^ (8 * size - 1) -> int size s a = -1 ->
  runs fo fa (divideRR size a rax) s Fault /\ runs fo fa (remainderRR size a rax) s Fault.
Proof.
  intros fo fa size a s Hs Ha H0 H2 E0 Ea. split.
  - rewrite <- (app_nil_r (divideRR _ _ _)). apply divide_fault; auto.
  - unfold remainderRR. apply divide_fault; auto.
Qed.
(** a constant shift count that does not fit in a byte stops the VM *)
Theorem compiled_shift_refuted : forall op size v b, v < -128 \/ 128 <= v -> codeShiftCR op v size b = Abort.
Proof.
  intros op size v b Hv.
  assert (F : forall t, doShift t v size b = Abort).
  { intros t. unfold doShift. replace (v =? 1) with false by (symmetry; apply Z.eqb_neq; lia).
    destruct (fitsInInt8 v) eqn:E; [|reflexivity]. apply fits8 in E. pose proof (sval_range 1 v ltac:(lia)) as R. rewrite E in R. cbn in R. lia. }
  destruct op; apply F.
Qed.
(** the long comparison called from compiled code compares as unsigned *)
Theorem compiled_long_compare_refuted : forall a b, - 2 ^ 63 <= a < 0 -> 0 <= b < 2 ^ 63 ->
  compareLongs (b mod 2 ^ 64) (a mod 2 ^ 64) = 1 /\ a < b.
Proof.
  intros a b Ha Hb. split; [|lia]. unfold compareLongs.
  replace (a mod 2 ^ 64) with (a + 2 ^ 64) by (apply (Z.mod_unique_pos _ _ (-1)); lia). rewrite (Z.mod_small b) by lia.
  destruct (Z.ltb_spec (a + 2 ^ 64) b); [lia|]. destruct (Z.ltb_spec b (a + 2 ^ 64)); [reflexivity|lia].
Qed.

Definition x86_theorems :=
  (x86_deterministic, compiled_arithmetic_registers, compiled_arithmetic_constants, compiled_negate, compiled_absolute,
   compiled_shift_registers, compiled_shift_constants, compiled_divide, compiled_remainder, compiled_divide_by_zero,
   compiled_move_registers, compiled_load, compiled_store, compiled_move_constant, compiled_store_constant,
   compiled_move_zero_extended, compiled_load_address, compiled_push_pop_swap,
   compiled_branch_registers, compiled_branch_constant, compiled_branch_memory, compiled_branch_constant_memory,
   compiled_float_arithmetic, compiled_float_moves, compiled_float_sign, compiled_float_branch_partial,
   compiled_float_move_refuted, compiled_float_compare_refuted, compiled_float_nan_refuted, compiled_divide_refuted,
   compiled_shift_refuted, compiled_long_compare_refuted).
Print Assumptions x86_theorems.
