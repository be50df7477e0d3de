(** Each generated sequence does what it should. *)
From Coq Require Import List ZArith Bool Lia.
From Verif Require Import Res X86_Model X86_Spec X86_Decode.
Import ListNotations.
Local Open Scope Z_scope.

Arguments modrm : simpl never. Arguments modrmSibImm : simpl never. Arguments maybeRex : simpl never.
Arguments appendBytes : simpl never. Arguments ext : simpl never. Arguments regCode : simpl never.
Arguments getImm : simpl never. Arguments getModrm : simpl never. Arguments sval : simpl never. Arguments low : simpl never.
Arguments has8 : simpl never. Arguments decode : simpl never. Arguments memOp : simpl never.

Definition word (size : Z) : Prop := size = 4 \/ size = 8.

(** ** Decoding *)
Lemma decode_P0 size a i b al o r :
  o < 64 \/ 79 < o -> o <> 102 -> o <> 242 -> o <> 243 ->
  decode (maybeRex size a i b al ++ o :: r) = decodeOp P0 (rexIs size a i b al) o r.
Proof. intros. unfold decode. rewrite getPrefix_maybe, getRex_maybe by assumption. reflexivity. Qed.
Lemma decode_P66 size a i b al o r :
  o < 64 \/ 79 < o -> decode (102 :: maybeRex size a i b al ++ o :: r) = decodeOp P66 (rexIs size a i b al) o r.
Proof. intros. unfold decode. cbn [getPrefix Z.eqb Pos.eqb]. rewrite getRex_maybe by assumption. reflexivity. Qed.
Lemma decode_PF2 size a i b al o r :
  o < 64 \/ 79 < o -> decode (242 :: maybeRex size a i b al ++ o :: r) = decodeOp PF2 (rexIs size a i b al) o r.
Proof. intros. unfold decode. cbn [getPrefix Z.eqb Pos.eqb]. rewrite getRex_maybe by assumption. reflexivity. Qed.
Lemma decode_PF3 size a i b al o r :
  o < 64 \/ 79 < o -> decode (243 :: maybeRex size a i b al ++ o :: r) = decodeOp PF3 (rexIs size a i b al) o r.
Proof. intros. unfold decode. cbn [getPrefix Z.eqb Pos.eqb]. rewrite getRex_maybe by assumption. reflexivity. Qed.
Ltac pre := unfold maybeRexRR, alwaysRexRR, maybeRexR, maybeRexRM, maybeRexM, append1, append2, append4, append8;
  rewrite <- ?app_assoc; cbn [app];
  first [rewrite decode_P66 by lia | rewrite decode_PF2 by lia | rewrite decode_PF3 by lia | rewrite decode_P0 by lia].
Ltac opc := unfold decodeOp, decode0F; cbn.
Ltac extb n b := match goal with |- context [getModrm ?x (?t + regCode b :: ?r)] =>
  let E := fresh in pose proof (getModrm_ext x n b r ltac:(lia)) as E; change (192 + 8 * n) with t in E; rewrite E; clear E end.
Ltac opce := match goal with |- context [?t + regCode ?b :: _] =>
  let mb := fresh in let Em := fresh in remember (t + regCode b) as mb eqn:Em; pre; opc; rewrite Em; clear Em end.
Ltac fin := cbn; rewrite ?ext_low by assumption; try reflexivity.
Ltac imm := rewrite getImm_append; cbn.

Lemma d_aluRR op aop size a b r : word size -> okReg a -> okReg b ->
  (op, aop) = (1, Add) \/ (op, aop) = (9, Or) \/ (op, aop) = (33, And) \/ (op, aop) = (41, Sub) \/ (op, aop) = (49, Xor) \/ (op, aop) = (57, Cmp) ->
  decode (aluRR op size a b ++ r) = Some (IAlu aop size (Reg b) (Reg a), r).
Proof.
  intros [-> | ->] Ha Hb Ho; unfold aluRR;
    destruct Ho as [E|[E|[E|[E|[E|E]]]]]; inversion E; subst; pre; opc; rewrite getModrm_reg; fin.
Qed.
Lemma d_aluC8 n aop size b v r : word size -> okReg b -> aluOf n = Some aop -> 0 <= n < 8 ->
  decode (maybeRexR size b ++ [131; 192 + 8 * n + regCode b] ++ append1 v ++ r) = Some (IAluImm aop size (Reg b) (sval 1 v), r).
Proof.
  intros [-> | ->] Hb Ha Hn; remember (192 + 8 * n + regCode b) as mb eqn:Em; pre; opc; rewrite Em, getModrm_ext by lia; cbn; rewrite Ha; cbn; imm; fin.
Qed.
Lemma d_aluC32 n aop size b v r : word size -> okReg b -> aluOf n = Some aop -> 0 <= n < 8 ->
  decode (maybeRexR size b ++ [129; 192 + 8 * n + regCode b] ++ append4 v ++ r) = Some (IAluImm aop size (Reg b) (sval 4 v), r).
Proof.
  intros [-> | ->] Hb Ha Hn; remember (192 + 8 * n + regCode b) as mb eqn:Em; pre; opc; rewrite Em, getModrm_ext by lia; cbn; rewrite Ha; cbn; imm; fin.
Qed.
Lemma d_moveCR2 aSize v b r : okReg b ->
  decode (moveCR2 aSize v b ++ r) = Some (IMovImm 8 (Reg b) (sval 8 (signExtend aSize v)), r).
Proof.
  intros Hb. unfold moveCR2. pose proof (regCode_range b) as R. pre. unfold decodeOp.
  replace (184 + regCode b =? 15) with false by (symmetry; apply Z.eqb_neq; lia).
  replace ((80 <=? 184 + regCode b) && (184 + regCode b <=? 87)) with false by (symmetry; apply andb_false_iff; right; apply Z.leb_gt; lia).
  replace ((88 <=? 184 + regCode b) && (184 + regCode b <=? 95)) with false by (symmetry; apply andb_false_iff; right; apply Z.leb_gt; lia).
  replace ((112 <=? 184 + regCode b) && (184 + regCode b <=? 127)) with false by (symmetry; apply andb_false_iff; right; apply Z.leb_gt; lia).
  replace ((184 <=? 184 + regCode b) && (184 + regCode b <=? 191)) with true by (symmetry; apply andb_true_iff; split; apply Z.leb_le; lia).
  replace (184 + regCode b - 184) with (regCode b) by lia. cbn. imm. fin.
Qed.
Lemma d_moveZCR v b r : okReg b ->
  decode (moveZCR v b ++ r) = Some (IMovImm 8 (Reg b) (sval 8 (v mod 2 ^ 16)), r).
Proof. intros. exact (d_moveCR2 8 (v mod 2 ^ 16) b r H). Qed.
Lemma d_multiplyRR size a b r : word size -> okReg a -> okReg b ->
  decode (multiplyRR size a b ++ r) = Some (IImul size b (Reg a), r).
Proof. intros [-> | ->] Ha Hb; unfold multiplyRR; pre; opc; rewrite getModrm_reg; fin. Qed.
Lemma d_mulC8 size b v r : word size -> okReg b ->
  decode (maybeRexRR size b b ++ [107] ++ modrm 192 b b ++ append1 v ++ r) = Some (IImulImm size b (Reg b) (sval 1 v), r).
Proof. intros [-> | ->] Hb; pre; opc; rewrite getModrm_reg; cbn; imm; fin. Qed.
Lemma d_mulC32 size b v r : word size -> okReg b ->
  decode (maybeRexRR size b b ++ [105] ++ modrm 192 b b ++ append4 v ++ r) = Some (IImulImm size b (Reg b) (sval 4 v), r).
Proof. intros [-> | ->] Hb; pre; opc; rewrite getModrm_reg; cbn; imm; fin. Qed.
Lemma d_negate size a r : word size -> okReg a -> decode (negateR size a ++ r) = Some (INeg size (Reg a), r).
Proof. intros [-> | ->] Ha; unfold negateR; opce; extb 3 a; fin. Qed.
Lemma d_cdq size a b r : word size -> decode (maybeRexRR size a b ++ [153] ++ r) = Some (ICdq size, r).
Proof. intros [-> | ->]; pre; opc; reflexivity. Qed.
Lemma d_idiv size a b r : word size -> okReg a ->
  decode (maybeRexRR size b a ++ [247; 248 + regCode a] ++ r) = Some (IIdiv size (Reg a), r).
Proof. intros [-> | ->] Ha; opce; extb 7 a; fin. Qed.
Definition shiftCode (t : Z) : shift := if t =? 224 then Shl else if t =? 232 then Shr else Sar.
Definition okShift (t : Z) : Prop := t = 224 \/ t = 232 \/ t = 248.
Lemma d_shift1 t size b r : word size -> okReg b -> okShift t ->
  decode (maybeRexR size b ++ [209; t + regCode b] ++ r) = Some (IShift (shiftCode t) size (Reg b) (Some 1), r).
Proof. intros [-> | ->] Hb [-> | [-> | ->]]; opce; first [extb 4 b | extb 5 b | extb 7 b]; fin. Qed.
Lemma d_shiftC t size b v r : word size -> okReg b -> okShift t ->
  decode (maybeRexR size b ++ [193; t + regCode b] ++ append1 v ++ r) = Some (IShift (shiftCode t) size (Reg b) (Some (sval 1 v)), r).
Proof. intros [-> | ->] Hb [-> | [-> | ->]]; opce; first [extb 4 b | extb 5 b | extb 7 b]; cbn; imm; fin. Qed.
Lemma d_shiftRR t size a b r : word size -> okReg b -> okShift t ->
  decode (shiftRR t size a b ++ r) = Some (IShift (shiftCode t) size (Reg b) None, r).
Proof. intros [-> | ->] Hb [-> | [-> | ->]]; unfold shiftRR; opce; first [extb 4 b | extb 5 b | extb 7 b]; fin. Qed.
Lemma d_swap a b r : okReg a -> okReg b -> decode (swapRR a b ++ r) = Some (IXchg 8 (Reg b) a, r).
Proof. intros Ha Hb; unfold swapRR; pre; opc; rewrite getModrm_reg; fin. Qed.

(** moves between registers *)
Lemma d_movsx1 a b r : okReg a -> okReg b ->
  decode (alwaysRexRR 1 b a ++ [15; 190] ++ modrm 192 a b ++ r) = Some (IMovsx 4 1 b (Reg a), r).
Proof. intros Ha Hb; pre; opc; rewrite getModrm_reg; fin. Qed.
Lemma d_movsx2 a b r : okReg a -> okReg b ->
  decode (alwaysRexRR 2 b a ++ [15; 191] ++ modrm 192 a b ++ r) = Some (IMovsx 4 2 b (Reg a), r).
Proof. intros Ha Hb; pre; opc; rewrite getModrm_reg; fin. Qed.
Lemma d_movsx4 a b r : okReg a -> okReg b ->
  decode (alwaysRexRR 8 b a ++ [99] ++ modrm 192 a b ++ r) = Some (IMovsx 8 4 b (Reg a), r).
Proof. intros Ha Hb; pre; opc; rewrite getModrm_reg; fin. Qed.
Lemma d_mov4 a b r : okReg a -> okReg b ->
  decode (alwaysRexRR 4 a b ++ [137] ++ modrm 192 b a ++ r) = Some (IMov 4 (Reg b) (Reg a), r).
Proof. intros Ha Hb; pre; opc; rewrite getModrm_reg; fin. Qed.
Lemma d_mov8 a b r : okReg a -> okReg b ->
  decode (maybeRexRR 8 a b ++ [137] ++ modrm 192 b a ++ r) = Some (IMov 8 (Reg b) (Reg a), r).
Proof. intros Ha Hb; pre; opc; rewrite getModrm_reg; fin. Qed.
Lemma d_moveZRR a b r : okReg a -> okReg b ->
  decode (moveZRR a b ++ r) = Some (IMovzx 4 2 b (Reg a), r).
Proof. intros Ha Hb; unfold moveZRR; pre; opc; rewrite getModrm_reg; fin. Qed.

(** loads, stores and memory operands *)
Ltac memd := rewrite getModrm_mem by (first [assumption | reflexivity]).
Lemma byteOp_mem x m : byteOp x (memOp m) = memOp m.
Proof. reflexivity. Qed.
Lemma d_load1 bSize m b r : word bSize -> okMem m -> okReg b ->
  decode (maybeRexRM bSize b m ++ [15; 190] ++ modrmSibImm b m ++ r) = Some (IMovsx bSize 1 b (memOp m), r).
Proof. intros [-> | ->] Hm Hb; pre; opc; memd; fin. Qed.
Lemma d_load2 bSize m b r : word bSize -> okMem m -> okReg b ->
  decode (maybeRexRM bSize b m ++ [15; 191] ++ modrmSibImm b m ++ r) = Some (IMovsx bSize 2 b (memOp m), r).
Proof. intros [-> | ->] Hm Hb; pre; opc; memd; fin. Qed.
Lemma d_load4 bSize m b r : word bSize -> okMem m -> okReg b ->
  decode (maybeRexRM bSize b m ++ [99] ++ modrmSibImm b m ++ r) = Some (IMovsx bSize 4 b (memOp m), r).
Proof. intros [-> | ->] Hm Hb; pre; opc; memd; fin. Qed.
Lemma d_load8 bSize m b r : word bSize -> okMem m -> okReg b ->
  decode (maybeRexRM bSize b m ++ [139] ++ modrmSibImm b m ++ r) = Some (IMov bSize (Reg b) (memOp m), r).
Proof. intros [-> | ->] Hm Hb; pre; opc; memd; fin. Qed.
Lemma d_loadZ m b r : okMem m -> okReg b ->
  decode (moveZMR m b ++ r) = Some (IMovzx 8 2 b (memOp m), r).
Proof. intros Hm Hb; unfold moveZMR; pre; opc; memd; fin. Qed.
Lemma d_store1 a m r : okReg a -> okMem m ->
  decode (maybeRexRM 1 a m ++ [136] ++ modrmSibImm a m ++ r) = Some (IMov 1 (memOp m) (Reg a), r).
Proof.
  intros Ha Hm; pre; opc; memd; cbn. rewrite byteOp_mem, ext_low by assumption. unfold byteOp. cbn [present rexIs].
  destruct (negb _ && (4 <=? a)) eqn:E; [exfalso|reflexivity].
  apply andb_true_iff in E. destruct E as [E1 E2]. apply negb_true_iff in E1. apply Z.leb_le in E2.
  change (1 =? 1) with true in E1. change (1 =? 8) with false in E1. cbn [andb] in E1.
  rewrite !orb_false_iff in E1. destruct E1 as [[[[E1 _] E3] _] _].
  unfold has8 in E3. apply negb_false_iff in E1, E3. apply Z.eqb_eq in E1, E3. unfold okReg in Ha.
  assert (C : a = 4 \/ a = 5 \/ a = 6 \/ a = 7 \/ a = 8 \/ a = 9 \/ a = 10 \/ a = 11 \/ a = 12 \/ a = 13 \/ a = 14 \/ a = 15) by lia.
  repeat (destruct C as [->|C]; [discriminate|]). subst a. discriminate.
Qed.
Lemma d_store2 a m r : okReg a -> okMem m ->
  decode ([102] ++ maybeRexRM 2 a m ++ [137] ++ modrmSibImm a m ++ r) = Some (IMov 2 (memOp m) (Reg a), r).
Proof. intros Ha Hm; pre; opc; memd; fin. Qed.
Lemma d_store size a m r : word size -> okReg a -> okMem m ->
  decode (maybeRexRM size a m ++ [137] ++ modrmSibImm a m ++ r) = Some (IMov size (memOp m) (Reg a), r).
Proof. intros [-> | ->] Ha Hm; pre; opc; memd; fin. Qed.
Lemma d_storeC1 v m r : okMem m ->
  decode (maybeRexM 1 m ++ [198] ++ modrmSibImm rax m ++ append1 v ++ r) = Some (IMovImm 1 (memOp m) (sval 1 v), r).
Proof. intros Hm; pre; opc; memd; cbn; imm; rewrite byteOp_mem; reflexivity. Qed.
Lemma d_storeC2 v m r : okMem m ->
  decode ([102] ++ maybeRexM 2 m ++ [199] ++ modrmSibImm rax m ++ append2 v ++ r) = Some (IMovImm 2 (memOp m) (sval 2 v), r).
Proof. intros Hm; pre; opc; memd; cbn; imm; reflexivity. Qed.
Lemma d_storeC size v m r : word size -> okMem m ->
  decode (maybeRexM size m ++ [199] ++ modrmSibImm rax m ++ append4 v ++ r) = Some (IMovImm size (memOp m) (sval 4 v), r).
Proof. intros [-> | ->] Hm; pre; opc; memd; cbn; imm; reflexivity. Qed.
Lemma d_cmpRM size a m r : word size -> okReg a -> okMem m ->
  decode (maybeRexRM size a m ++ [57] ++ modrmSibImm a m ++ r) = Some (IAlu Cmp size (memOp m) (Reg a), r).
Proof. intros [-> | ->] Ha Hm; pre; opc; memd; fin. Qed.
Lemma d_cmpCM8 size v m r : word size -> okMem m ->
  decode (maybeRexM size m ++ [131] ++ modrmSibImm rdi m ++ append1 v ++ r) = Some (IAluImm Cmp size (memOp m) (sval 1 v), r).
Proof. intros [-> | ->] Hm; pre; opc; memd; cbn; imm; reflexivity. Qed.
Lemma d_cmpCM32 size v m r : word size -> okMem m ->
  decode (maybeRexM size m ++ [129] ++ modrmSibImm rdi m ++ append4 v ++ r) = Some (IAluImm Cmp size (memOp m) (sval 4 v), r).
Proof. intros [-> | ->] Hm; pre; opc; memd; cbn; imm; reflexivity. Qed.
Lemma d_push a r : okReg a -> decode (pushR a ++ r) = Some (IPush a, r).
Proof.
  intros Ha. unfold pushR. pose proof (regCode_range a) as R. pre. unfold decodeOp.
  replace (80 + regCode a =? 15) with false by (symmetry; apply Z.eqb_neq; lia).
  replace ((80 <=? 80 + regCode a) && (80 + regCode a <=? 87)) with true by (symmetry; apply andb_true_iff; split; apply Z.leb_le; lia).
  replace (80 + regCode a - 80) with (regCode a) by lia. fin.
Qed.
Lemma d_pop a r : okReg a -> decode (maybeRexR 4 a ++ [88 + regCode a] ++ r) = Some (IPop a, r).
Proof.
  intros Ha. pose proof (regCode_range a) as R. pre. unfold decodeOp.
  replace (88 + regCode a =? 15) with false by (symmetry; apply Z.eqb_neq; lia).
  replace ((80 <=? 88 + regCode a) && (88 + regCode a <=? 87)) with false by (symmetry; apply andb_false_iff; right; apply Z.leb_gt; lia).
  replace ((88 <=? 88 + regCode a) && (88 + regCode a <=? 95)) with true by (symmetry; apply andb_true_iff; split; apply Z.leb_le; lia).
  replace (88 + regCode a - 88) with (regCode a) by lia. fin.
Qed.
(** jumps *)
Lemma d_jcc cc r : 0 <= cc < 16 -> decode (conditional (128 + cc) ++ r) = Some (IJcc cc 0, r).
Proof.
  intros H. assert (C : cc = 0 \/ cc = 1 \/ cc = 2 \/ cc = 3 \/ cc = 4 \/ cc = 5 \/ cc = 6 \/ cc = 7 \/ cc = 8 \/ cc = 9
    \/ cc = 10 \/ cc = 11 \/ cc = 12 \/ cc = 13 \/ cc = 14 \/ cc = 15) by lia.
  repeat (destruct C as [->|C]; [reflexivity|]). subst cc. reflexivity.
Qed.
Lemma d_jp r : decode ([122; 6] ++ r) = Some (IJccShort 10 6, r).
Proof. reflexivity. Qed.

(** floating-point registers are numbered from 16 *)
Definition okXmm (r : Z) : Prop := 16 <= r < 32.
Lemma ext_xmm r : okXmm r -> ext (has8 (Some r)) (regCode r) = r - 16.
Proof. intros H. rewrite ext_reg. symmetry. apply (Z.mod_unique_pos _ _ 1); unfold okXmm in H; lia. Qed.
Lemma okXmm_float r : okXmm r -> isFloatReg r = true.
Proof. intros H. apply Z.leb_le. apply H. Qed.
Lemma okReg_float r : okReg r -> isFloatReg r = false.
Proof. intros H. apply Z.leb_gt. apply H. Qed.
Ltac finx := cbn; repeat match goal with H : okReg ?r |- _ => rewrite !(ext_low r H) | H : okXmm ?r |- _ => rewrite !(ext_xmm r H) end; try reflexivity.
Lemma d_movdXG size a b r : word size -> okReg a -> okXmm b ->
  decode ([102] ++ maybeRexRR size b a ++ [15; 110] ++ modrm 192 a b ++ r) = Some (IMovXG size (b - 16) (Reg a), r).
Proof. intros [-> | ->] Ha Hb; pre; opc; rewrite getModrm_reg; finx. Qed.
Lemma d_movdGX size a b r : word size -> okXmm a -> okReg b ->
  decode ([102] ++ maybeRexRR size a b ++ [15; 126] ++ modrm 192 b a ++ r) = Some (IMovGX size (Reg b) (a - 16), r).
Proof. intros [-> | ->] Ha Hb; pre; opc; rewrite getModrm_reg; finx. Qed.
Lemma d_movsd a b r : okXmm a -> okXmm b ->
  decode ([242] ++ maybeRexRR 4 b a ++ [15; 16] ++ modrm 192 a b ++ r) = Some (IMovXX 8 (b - 16) (a - 16), r).
Proof. intros Ha Hb; pre; opc; rewrite getModrm_reg; finx. Qed.
(** the registers a swapped REX prefix selects *)
Definition swapTo (own other : Z) : Z := ext (has8 (Some other)) (regCode own).
Lemma swapTo_same own other : okXmm own -> has8 (Some other) = has8 (Some own) -> swapTo own other = own - 16.
Proof. intros H E. unfold swapTo. rewrite E. apply ext_xmm. exact H. Qed.
Lemma d_movss a b r :
  decode ([243] ++ maybeRexRR 4 a b ++ [15; 16] ++ modrm 192 a b ++ r) = Some (IMovXX 4 (swapTo b a) (swapTo a b), r).
Proof. pre; opc; rewrite getModrm_reg; reflexivity. Qed.
Lemma d_loadX size m b r : word size -> okMem m -> okXmm b ->
  decode (sseMoveMR size m b ++ r) = Some (IMovXG size (b - 16) (memOp m), r).
Proof. intros [-> | ->] Hm Hb; unfold sseMoveMR; pre; opc; memd; finx. Qed.
Lemma d_storeX size a m r : word size -> okXmm a -> okMem m ->
  decode (sseMoveRM size a m ++ r) = Some (IMovGX size (memOp m) (a - 16), r).
Proof. intros [-> | ->] Ha Hm; unfold sseMoveRM; pre; opc; memd; finx. Qed.
Lemma d_ucom size a b r : word size ->
  decode (compareFloatRR size a b ++ r) = Some (IUcom size (swapTo b a) (swapTo a b), r).
Proof. intros [-> | ->]; unfold compareFloatRR; cbn [Z.eqb Pos.eqb]; pre; opc; rewrite getModrm_reg; reflexivity. Qed.
Lemma d_xorps d a r : okXmm d -> okXmm a ->
  decode (maybeRexRR 4 d a ++ [15; 87] ++ modrm 192 a d ++ r) = Some (IXorps (d - 16) (a - 16), r).
Proof. intros Ha Hb; pre; opc; rewrite getModrm_reg; finx. Qed.
Lemma d_andps d a r : okXmm d -> okXmm a ->
  decode (maybeRexRR 4 d a ++ [15; 84] ++ modrm 192 a d ++ r) = Some (IAndps (d - 16) (a - 16), r).
Proof. intros Ha Hb; pre; opc; rewrite getModrm_reg; finx. Qed.
Definition okFloatOp (o : Z) : Prop := o = 88 \/ o = 89 \/ o = 92 \/ o = 94.
Lemma d_floatRR o size a b r : okFloatOp o -> word size -> okXmm a -> okXmm b ->
  decode (floatRegOp o size a b ++ r) = Some (IFloat o size (b - 16) (inr (a - 16)), r).
Proof.
  intros [-> | [-> | [-> | ->]]] [-> | ->] Ha Hb; unfold floatRegOp; cbn [Z.eqb Pos.eqb]; pre; opc; rewrite getModrm_reg; finx.
Qed.
Lemma d_floatMR o size m b r : okFloatOp o -> word size -> okMem m -> okXmm b ->
  decode (floatMemOp o size m b ++ r) = Some (IFloat o size (b - 16) (inl (memOp m)), r).
Proof.
  intros [-> | [-> | [-> | ->]]] [-> | ->] Ha Hb; unfold floatMemOp; cbn [Z.eqb Pos.eqb]; pre; opc; memd; finx.
Qed.
