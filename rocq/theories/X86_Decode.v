(** What the encoders emit is what the machine decodes. *)
From Coq Require Import List ZArith Bool Lia.
From Verif Require Import Res X86_Model X86_Spec.
Import ListNotations.
Local Open Scope Z_scope.

Ltac Zb := repeat match goal with
  | H : (_ =? _) = true |- _ => apply Z.eqb_eq in H
  | H : (_ =? _) = false |- _ => apply Z.eqb_neq in H
  | H : (_ <=? _) = true |- _ => apply Z.leb_le in H
  | H : (_ <=? _) = false |- _ => apply Z.leb_gt in H
  | H : (_ <? _) = true |- _ => apply Z.ltb_lt in H
  | H : (_ <? _) = false |- _ => apply Z.ltb_ge in H
  end.

(** ** Registers *)
Lemma reg_cases : forall (P : Z -> Prop),
  P 0 -> P 1 -> P 2 -> P 3 -> P 4 -> P 5 -> P 6 -> P 7 -> forall r, 0 <= r < 8 -> P r.
Proof.
  intros P H0 H1 H2 H3 H4 H5 H6 H7 r Hr.
  assert (r = 0 \/ r = 1 \/ r = 2 \/ r = 3 \/ r = 4 \/ r = 5 \/ r = 6 \/ r = 7) as C by lia.
  destruct C as [->|[->|[->|[->|[->|[->|[->| ->]]]]]]]; assumption.
Qed.
Lemma regCode_range r : 0 <= regCode r < 8.
Proof. unfold regCode. change 7 with (Z.ones 3). rewrite Z.land_ones by lia. apply Z.mod_pos_bound. lia. Qed.
Lemma ext_reg r : ext (has8 (Some r)) (regCode r) = r mod 16.
Proof.
  unfold has8, regCode, ext.
  assert (H : r mod 16 = Z.land r 8 + Z.land r 7).
  { change 16 with (2 ^ 4). rewrite <- Z.land_ones by lia. change (Z.ones 4) with (Z.lor 8 7).
    rewrite Z.land_lor_distr_r. rewrite <- Z.lxor_lor, Z.add_nocarry_lxor; try reflexivity.
    - rewrite Z.land_assoc, (Z.land_comm _ r), Z.land_assoc, Z.land_diag, <- Z.land_assoc. apply Z.land_0_r.
    - rewrite Z.land_assoc, (Z.land_comm _ r), Z.land_assoc, Z.land_diag, <- Z.land_assoc. apply Z.land_0_r. }
  assert (H8 : Z.land r 8 = 0 \/ Z.land r 8 = 8).
  { destruct (Z.testbit r 3) eqn:B; [right | left]; apply Z.bits_inj'; intros n Hn; rewrite Z.land_spec.
    - change 8 with (2 ^ 3). rewrite Z.pow2_bits_eqb by lia. destruct (Z.eqb_spec 3 n); subst; [rewrite B|rewrite andb_false_r]; reflexivity.
    - change 8 with (2 ^ 3). rewrite Z.bits_0, Z.pow2_bits_eqb by lia. destruct (Z.eqb_spec 3 n); subst; [rewrite B|rewrite andb_false_r]; reflexivity. }
  destruct H8 as [E|E]; rewrite E in *; cbn [Z.eqb negb]; lia.
Qed.
Lemma ext_low r : 0 <= r < 16 -> ext (has8 (Some r)) (regCode r) = r.
Proof. intros. rewrite ext_reg. apply Z.mod_small; lia. Qed.

(** ** The REX prefix *)
Definition rexIs (size : Z) (a i b : option Z) (always : bool) : rex :=
  Rex (always || (size =? 8) || has8 a || has8 i || has8 b) (size =? 8) (has8 a) (has8 i) (has8 b).
Lemma getRex_maybe size a i b always o r :
  o < 64 \/ 79 < o ->
  getRex (maybeRex size a i b always ++ o :: r) = (rexIs size a i b always, o :: r).
Proof.
  intros Ho. unfold maybeRex, rexIs.
  assert (E : getRex (o :: r) = (Rex false false false false false, o :: r)).
  { unfold getRex. replace ((64 <=? o) && (o <=? 79)) with false; [reflexivity|].
    symmetry. apply andb_false_iff. destruct Ho; [left|right]; apply Z.leb_gt; lia. }
  destruct (size =? 8), (has8 a), (has8 i), (has8 b), always; try reflexivity; exact E.
Qed.
Lemma getPrefix_maybe size a i b always o r :
  o <> 102 -> o <> 242 -> o <> 243 ->
  getPrefix (maybeRex size a i b always ++ o :: r) = (P0, maybeRex size a i b always ++ o :: r).
Proof.
  intros H1 H2 H3. unfold maybeRex.
  assert (E : getPrefix (o :: r) = (P0, o :: r)).
  { unfold getPrefix. apply Z.eqb_neq in H1, H2, H3. rewrite H1, H2, H3. reflexivity. }
  destruct (size =? 8), (has8 a), (has8 i), (has8 b), always; try reflexivity; exact E.
Qed.

(** ** ModRM with a register *)
Lemma mod_id v : 0 <= v < 256 -> v mod 256 = v.
Proof. apply Z.mod_small. Qed.
Lemma modrm_fields mod_ a b : mod_ = 0 \/ mod_ = 64 \/ mod_ = 128 \/ mod_ = 192 ->
  exists m, modrm mod_ a b = [m] /\ m / 64 = mod_ / 64 /\ (m / 8) mod 8 = regCode b /\ m mod 8 = regCode a.
Proof.
  intros Hm. unfold modrm. eexists; split; [reflexivity|].
  generalize (regCode_range a). generalize (regCode_range b). generalize (regCode a). generalize (regCode b).
  intros y x Hy Hx. revert x Hx. revert y Hy.
  destruct Hm as [->|[->|[->| ->]]]; intros y Hy; pattern y; revert y Hy; apply reg_cases;
    intros x Hx; pattern x; revert x Hx; apply reg_cases; repeat split; reflexivity.
Qed.
Lemma getModrm_reg x a b r :
  getModrm x (modrm 192 a b ++ r) = Some (regCode b, Reg (ext (rb x) (regCode a)), r).
Proof.
  destruct (modrm_fields 192 a b) as (m & -> & H1 & H2 & H3); [auto|].
  unfold getModrm. cbn [app]. rewrite H1, H2, H3. reflexivity.
Qed.
(** an opcode extension written as one byte: 192 + 8 * n + the register's code *)
Lemma getModrm_ext x n a r : 0 <= n < 8 ->
  getModrm x (192 + 8 * n + regCode a :: r) = Some (n, Reg (ext (rb x) (regCode a)), r).
Proof.
  intros Hn. pose proof (regCode_range a) as Ha. unfold getModrm.
  replace ((192 + 8 * n + regCode a) / 64) with 3 by (apply (Z.div_unique_pos _ _ _ (8 * n + regCode a)); lia).
  replace ((192 + 8 * n + regCode a) / 8) with (24 + n) by (apply (Z.div_unique_pos _ _ _ (regCode a)); lia).
  replace ((192 + 8 * n + regCode a) mod 8) with (regCode a) by (apply (Z.mod_unique_pos _ _ (24 + n)); lia).
  replace ((24 + n) mod 8) with n by (apply (Z.mod_unique_pos _ _ 3); lia).
  reflexivity.
Qed.

(** ** Immediates *)
Lemma unsignedImm_append n : forall v r,
  unsignedImm n (appendBytes n v ++ r) = Some (v mod 2 ^ (8 * Z.of_nat n), r).
Proof.
  induction n as [|n IH]; intros v r.
  - cbn. rewrite Z.mod_1_r. reflexivity.
  - cbn [appendBytes app unsignedImm]. rewrite IH. f_equal. f_equal.
    replace (8 * Z.of_nat (S n)) with (8 + 8 * Z.of_nat n) by lia.
    rewrite Z.pow_add_r by lia. change (2 ^ 8) with 256.
    rewrite Z.rem_mul_r by lia. reflexivity.
Qed.
Lemma low_low size v : low size (low size v) = low size v.
Proof.
  unfold low.
  destruct (Z.eq_dec (2 ^ (8 * size)) 0) as [E|E]; [rewrite E, !Zmod_0_r; reflexivity|apply Z.mod_mod; exact E].
Qed.
Lemma sval_low size v : sval size (low size v) = sval size v.
Proof. unfold sval. rewrite low_low. reflexivity. Qed.
Lemma getImm_append n v r : getImm n (appendBytes n v ++ r) = Some (sval (Z.of_nat n) v, r).
Proof. unfold getImm. rewrite unsignedImm_append. rewrite <- (sval_low _ v). reflexivity. Qed.

(** ** Signed values *)
Lemma pow_half n : 0 < n -> 2 ^ (8 * n) = 2 * 2 ^ (8 * n - 1).
Proof. intros. rewrite <- Z.pow_succ_r by lia. f_equal. lia. Qed.
Lemma low_sval n v : 0 < n -> low n (sval n v) = low n v.
Proof.
  intros Hn. unfold sval. destruct (_ <? _); [apply low_low|].
  unfold low. rewrite <- (Z_mod_plus_full _ 1), Z.mul_1_l.
  replace (v mod 2 ^ (8 * n) - 2 ^ (8 * n) + 2 ^ (8 * n)) with (v mod 2 ^ (8 * n)) by lia. apply Z.mod_mod.
  pose proof (Z.pow_pos_nonneg 2 (8 * n)); lia.
Qed.
Lemma sval_range n v : 0 < n -> - 2 ^ (8 * n - 1) <= sval n v < 2 ^ (8 * n - 1).
Proof.
  intros Hn. pose proof (pow_half n Hn) as E. pose proof (Z.pow_pos_nonneg 2 (8 * n - 1) ltac:(lia) ltac:(lia)).
  unfold sval, low. pose proof (Z.mod_pos_bound v (2 ^ (8 * n)) ltac:(lia)).
  destruct (Z.ltb_spec (v mod 2 ^ (8 * n)) (2 ^ (8 * n - 1))); lia.
Qed.
Lemma sval_small n v : 0 < n -> - 2 ^ (8 * n - 1) <= v < 2 ^ (8 * n - 1) -> sval n v = v.
Proof.
  intros Hn Hv. pose proof (pow_half n Hn) as E. unfold sval, low.
  destruct (Z.lt_ge_cases v 0).
  - replace (v mod 2 ^ (8 * n)) with (v + 2 ^ (8 * n)) by (apply (Z.mod_unique_pos _ _ (-1)); lia).
    destruct (Z.ltb_spec (v + 2 ^ (8 * n)) (2 ^ (8 * n - 1))); lia.
  - rewrite Z.mod_small by lia. destruct (Z.ltb_spec v (2 ^ (8 * n - 1))); lia.
Qed.
Lemma sval_of_low n u v : low n u = low n v -> sval n u = sval n v.
Proof. unfold sval. intros ->. reflexivity. Qed.
Lemma sval_sval n v : 0 < n -> sval n (sval n v) = sval n v.
Proof. intros. apply sval_of_low, low_sval. assumption. Qed.
Lemma toSigned_range n v : 0 < n -> - 2 ^ (n - 1) <= toSigned n v < 2 ^ (n - 1).
Proof.
  intros. unfold toSigned. assert (2 ^ n = 2 * 2 ^ (n - 1)) by (rewrite <- Z.pow_succ_r by lia; f_equal; lia).
  pose proof (Z.pow_pos_nonneg 2 (n - 1) ltac:(lia) ltac:(lia)).
  pose proof (Z.mod_pos_bound (v + 2 ^ (n - 1)) (2 ^ n)). lia.
Qed.
Lemma toSigned_mod n v : 0 < n -> toSigned n v mod 2 ^ n = v mod 2 ^ n.
Proof.
  intros. unfold toSigned. pose proof (Z.pow_pos_nonneg 2 n ltac:(lia) ltac:(lia)).
  rewrite Zminus_mod_idemp_l. f_equal. lia.
Qed.
Lemma toSigned_sval n v : 0 < n -> toSigned (8 * n) v = sval n v.
Proof.
  intros. rewrite <- (sval_small n (toSigned (8 * n) v)); [|assumption|apply toSigned_range; lia].
  apply sval_of_low. unfold low. apply toSigned_mod. lia.
Qed.
Lemma fits8 v : fitsInInt8 v = true -> sval 1 v = v.
Proof. unfold fitsInInt8. intros H. apply Z.eqb_eq in H. rewrite H at 2. symmetry. apply (toSigned_sval 1). lia. Qed.
Lemma fits32 v : fitsInInt32 v = true -> sval 4 v = v.
Proof. unfold fitsInInt32. intros H. apply Z.eqb_eq in H. rewrite H at 2. symmetry. apply (toSigned_sval 4). lia. Qed.
Lemma signExtend_sval n v : n = 1 \/ n = 2 \/ n = 4 -> signExtend n v = sval n v.
Proof.
  intros [->|[->| ->]]; [apply (toSigned_sval 1)|apply (toSigned_sval 2)|apply (toSigned_sval 4)]; lia.
Qed.

(** ** Memory operands *)
Definition okReg (r : Z) : Prop := 0 <= r < 16.
(** the memory operands the machine can express: any base, any index but rsp, the four scales, 32-bit offsets *)
Definition okMem (m : memory) : Prop :=
  okReg (mbase m) /\ - 2 ^ 31 <= moffset m < 2 ^ 31 /\
  match mindex m with
  | None => True
  | Some i => okReg i /\ i <> 4 /\ (mscale m = 1 \/ mscale m = 2 \/ mscale m = 4 \/ mscale m = 8)
  end.
Definition memOp (m : memory) : operand :=
  Mem (mbase m) (match mindex m with None => None | Some i => Some (i, mscale m) end) (moffset m).

Lemma sib_fields scale i b :
  (scale = 0 \/ scale = 1 \/ scale = 2 \/ scale = 4 \/ scale = 8) ->
  exists s, sib scale i b = [s] /\ s / 64 = log scale /\ (s / 8) mod 8 = regCode i /\ s mod 8 = regCode b.
Proof.
  intros Hs. unfold sib. eexists; split; [reflexivity|].
  generalize (regCode_range i). generalize (regCode_range b). generalize (regCode i). generalize (regCode b).
  intros y x Hy Hx. revert x Hx. revert y Hy.
  destruct Hs as [->|[->|[->|[->| ->]]]]; intros y Hy; pattern y; revert y Hy; apply reg_cases;
    intros x Hx; pattern x; revert x Hx; apply reg_cases; repeat split; reflexivity.
Qed.
(** the three widths of displacement *)
Definition wide (w : Z) (d : Z) (disp : list Z) : Prop :=
  (w = 0 /\ d = 0 /\ disp = []) \/ (w = 64 /\ sval 1 d = d /\ disp = append1 d) \/ (w = 128 /\ sval 4 d = d /\ disp = append4 d).
Lemma getDisp_wide w d disp r : wide w d disp -> getDisp (w / 64) (disp ++ r) = Some (d, r).
Proof.
  intros [(-> & -> & ->)|[(-> & E & ->)|(-> & E & ->)]]; [reflexivity| |].
  - change (getDisp (64 / 64)) with (getImm 1). unfold append1. rewrite getImm_append. change (Z.of_nat 1) with 1. rewrite E. reflexivity.
  - change (getDisp (128 / 64)) with (getImm 4). unfold append4. rewrite getImm_append. change (Z.of_nat 4) with 4. rewrite E. reflexivity.
Qed.
Lemma getModrm_sib x a m w disp r :
  okMem m -> wide w (moffset m) disp -> (w = 0 -> regCode (mbase m) <> 5) ->
  rx x = has8 (mindex m) -> rb x = has8 (Some (mbase m)) ->
  getModrm x (modrmSib w a (mscale m) (mindex m) (mbase m) ++ disp ++ r) = Some (regCode a, memOp m, r).
Proof.
  intros (Hb & _ & Hi) Hw H5 Hx Hbx. unfold modrmSib, memOp.
  assert (Cw : w = 0 \/ w = 64 \/ w = 128 \/ w = 192) by (destruct Hw as [(?&_)|[(?&_)|(?&_)]]; auto).
  assert (W3 : w / 64 =? 3 = false) by (destruct Hw as [(->&_)|[(->&_)|(->&_)]]; reflexivity).
  assert (W0 : w / 64 =? 0 = (w =? 0)) by (destruct Hw as [(->&_)|[(->&_)|(->&_)]]; reflexivity).
  assert (B5 : (regCode (mbase m) =? 5) && (w =? 0) = false).
  { destruct (Z.eqb_spec w 0); [|apply andb_false_r]. rewrite andb_true_r. apply Z.eqb_neq. auto. }
  destruct (mindex m) as [i|] eqn:Ei.
  - destruct Hi as (Hri & Hi4 & Hs).
    destruct (modrm_fields w rsp a Cw) as (b1 & -> & M1 & M2 & M3).
    destruct (sib_fields (mscale m) i (mbase m)) as (b2 & -> & S1 & S2 & S3); [tauto|].
    cbn [app]. unfold getModrm. rewrite M1, M2, M3, W3.
    change (regCode rsp =? 4) with true. cbn [app].
    rewrite S2, S3, S1, W0, B5, Hx, Hbx, !ext_low by assumption.
    rewrite (getDisp_wide _ _ _ _ Hw). apply Z.eqb_neq in Hi4. rewrite Hi4.
    replace (2 ^ log (mscale m)) with (mscale m) by (destruct Hs as [->|[->|[->| ->]]]; reflexivity). reflexivity.
  - destruct (modrm_fields w (mbase m) a Cw) as (b1 & -> & M1 & M2 & M3).
    cbn [app]. unfold getModrm. rewrite M1, M2, M3, W3. unfold rsp.
    destruct (regCode (mbase m) =? 4) eqn:E4.
    + destruct (sib_fields 0 4 4) as (b2 & -> & S1 & S2 & S3); [tauto|]. cbn [app].
      rewrite S2, S3, W0, Hx, Hbx. change (regCode 4) with 4. change (4 =? 5) with false. change (ext (has8 None) 4 =? 4) with true. cbn [andb].
      rewrite (getDisp_wide _ _ _ _ Hw).
      apply Z.eqb_eq in E4. replace (ext (has8 (Some (mbase m))) 4) with (mbase m); [reflexivity|].
      rewrite <- E4. symmetry. apply ext_low. assumption.
    + cbn [app]. rewrite W0, B5, (getDisp_wide _ _ _ _ Hw), Hbx, ext_low by assumption. reflexivity.
Qed.
Lemma getModrm_mem x a m r :
  okMem m -> rx x = has8 (mindex m) -> rb x = has8 (Some (mbase m)) ->
  getModrm x (modrmSibImm a m ++ r) = Some (regCode a, memOp m, r).
Proof.
  intros Hm Hx Hb. unfold modrmSibImm.
  destruct ((moffset m =? 0) && negb (regCode (mbase m) =? rbp)) eqn:E0.
  - apply andb_true_iff in E0. destruct E0 as [E0 E5]. apply Z.eqb_eq in E0. apply negb_true_iff, Z.eqb_neq in E5.
    apply (getModrm_sib x a m 0 [] r); auto. left; auto.
  - destruct (fitsInInt8 (moffset m)) eqn:E8; rewrite <- app_assoc.
    + apply getModrm_sib; auto; [|discriminate]. right; left. auto using fits8.
    + apply getModrm_sib; auto; [|discriminate]. right; right. repeat split. apply sval_small; [lia|]. destruct Hm as (_ & Ho & _). exact Ho.
Qed.
