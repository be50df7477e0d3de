(** The effect of each generated sequence. *)
From Coq Require Import List ZArith Bool Lia.
From Verif Require Import Res X86_Model X86_Spec X86_Decode X86_Proofs.
Import ListNotations.
Local Open Scope Z_scope.

(** ** Values *)
Lemma low_mod n u v : 0 <= n -> u mod 2 ^ (8 * n) = v mod 2 ^ (8 * n) -> low n u = low n v.
Proof. auto. Qed.
Lemma pow_pos n : 0 <= n -> 0 < 2 ^ (8 * n).
Proof. intros. apply Z.pow_pos_nonneg; lia. Qed.
Lemma low_add n u v : 0 <= n -> low n (low n u + low n v) = low n (u + v).
Proof. intros. unfold low. rewrite <- Zplus_mod. reflexivity. Qed.
Lemma low_sub n u v : 0 <= n -> low n (low n u - low n v) = low n (u - v).
Proof. intros. unfold low. rewrite <- Zminus_mod. reflexivity. Qed.
Lemma low_mul n u v : 0 <= n -> low n (low n u * low n v) = low n (u * v).
Proof. intros. unfold low. rewrite <- Zmult_mod. reflexivity. Qed.
Lemma low_land n u v : 0 <= n -> low n (Z.land (low n u) (low n v)) = low n (Z.land u v).
Proof.
  intros. unfold low. apply Z.bits_inj'. intros k Hk.
  destruct (Z.lt_ge_cases k (8 * n)); [|rewrite !Z.mod_pow2_bits_high by lia; reflexivity].
  rewrite !Z.mod_pow2_bits_low, !Z.land_spec, !Z.mod_pow2_bits_low by lia. reflexivity.
Qed.
Lemma low_lor n u v : 0 <= n -> low n (Z.lor (low n u) (low n v)) = low n (Z.lor u v).
Proof.
  intros. unfold low. apply Z.bits_inj'. intros k Hk.
  destruct (Z.lt_ge_cases k (8 * n)); [|rewrite !Z.mod_pow2_bits_high by lia; reflexivity].
  rewrite !Z.mod_pow2_bits_low, !Z.lor_spec, !Z.mod_pow2_bits_low by lia. reflexivity.
Qed.
Lemma low_lxor n u v : 0 <= n -> low n (Z.lxor (low n u) (low n v)) = low n (Z.lxor u v).
Proof.
  intros. unfold low. apply Z.bits_inj'. intros k Hk.
  destruct (Z.lt_ge_cases k (8 * n)); [|rewrite !Z.mod_pow2_bits_high by lia; reflexivity].
  rewrite !Z.mod_pow2_bits_low, !Z.lxor_spec, !Z.mod_pow2_bits_low by lia. reflexivity.
Qed.
(** an operation that depends on the low bytes only *)
Definition lowOp (f : Z -> Z -> Z) : Prop := forall n u v, 0 <= n -> low n (f (low n u) (low n v)) = low n (f u v).
Lemma lowOp_cong f n u v u' v' : lowOp f -> 0 <= n -> low n u = low n u' -> low n v = low n v' -> sval n (f u v) = sval n (f u' v').
Proof. intros F Hn Hu Hv. apply sval_of_low. rewrite <- (F n u v), <- (F n u' v'), Hu, Hv by assumption. reflexivity. Qed.
Lemma low_of_merge n old v : word n -> low n (merge n old v) = low n v.
Proof. intros [-> | ->]; apply low_low. Qed.
Lemma sval_merge n old v : word n -> sval n (merge n old v) = sval n v.
Proof. intros. apply sval_of_low, low_of_merge. assumption. Qed.
Lemma word_pos n : word n -> 0 < n.
Proof. intros [-> | ->]; lia. Qed.
Lemma low_of_sval n u v : 0 < n -> sval n u = sval n v -> low n u = low n v.
Proof. intros Hn E. rewrite <- (low_sval n u), <- (low_sval n v), E by assumption. reflexivity. Qed.
Lemma set_same f k v : set f k v k = v.
Proof. unfold set. rewrite Z.eqb_refl. reflexivity. Qed.
Lemma set_other f k v x : x <> k -> set f k v x = f x.
Proof. intros H. unfold set. apply Z.eqb_neq in H. rewrite H. reflexivity. Qed.

Section Sem.
Context (forder : Z -> Z -> Z -> order) (farith : Z -> Z -> Z -> Z -> Z).
Notation runs := (runs forder farith).
Notation exec := (exec forder farith).

(** ** Straight-line code *)
Definition does (code : list Z) (s s' : state) : Prop := forall r o, runs r s' o -> runs (code ++ r) s o.
Lemma does_nil s : does [] s s.
Proof. intros r o H. exact H. Qed.
Lemma does_app c1 c2 s s1 s2 : does c1 s s1 -> does c2 s1 s2 -> does (c1 ++ c2) s s2.
Proof. intros H1 H2 r o H. rewrite <- app_assoc. apply H1, H2, H. Qed.
Lemma does_step code i s s' : (forall r, decode (code ++ r) = Some (i, r)) -> exec i s = Some s' -> does code s s'.
Proof. intros D E r o H. eapply RunStep; [apply D|exact E|exact H]. Qed.
Lemma does_runs code s s' : does code s s' -> runs code s (Fell s').
Proof. intros H. rewrite <- (app_nil_r code). apply H, RunEnd. Qed.
Ltac norm := intros; rewrite <- ?app_assoc.

(** ** Arithmetic *)
Definition fun2 (op : alu) : Z -> Z -> Z :=
  match op with Add => Z.add | Or => Z.lor | And => Z.land | Sub | Cmp => Z.sub | Xor => Z.lxor end.
Lemma fun2_low op : lowOp (fun2 op).
Proof.
  intros n u v Hn. destruct op; cbn [fun2]; auto using low_add, low_lor, low_land, low_sub, low_lxor.
Qed.
Lemma doAlu_write op size s b y : op <> Cmp -> word size ->
  onlyGpr [b] s (doAlu op size s (Reg b) y) /\
  int size (doAlu op size s (Reg b) y) b = sval size (fun2 op (int size s b) y).
Proof.
  intros Hop Hs. pose proof (word_pos _ Hs) as P.
  assert (E : doAlu op size s (Reg b) y =
    setFlags (writeOp size s (Reg b) (fun2 op (low size (gpr s b)) y)) (snd (aluResult op size (low size (gpr s b)) y))).
  { destruct op; try reflexivity. contradiction. }
  rewrite E. split.
  - split; [|split]; intros; cbn; try reflexivity. apply set_other. intros ->. apply H. left; reflexivity.
  - unfold int. cbn. rewrite set_same, sval_merge by assumption.
    apply lowOp_cong; [apply fun2_low|lia| |reflexivity]. rewrite low_low. symmetry. apply low_sval. lia.
Qed.
Definition does2 (code : list Z) (rs : list Z) (size b v : Z) (s : state) : Prop :=
  exists s', does code s s' /\ int size s' b = v /\ onlyGpr rs s s'.
Lemma does2_aluRR op aop size a b s : word size -> okReg a -> okReg b ->
  (op, aop) = (1, Add) \/ (op, aop) = (9, Or) \/ (op, aop) = (33, And) \/ (op, aop) = (41, Sub) \/ (op, aop) = (49, Xor) ->
  does2 (aluRR op size a b) [b] size b (sval size (fun2 aop (int size s b) (int size s a))) s.
Proof.
  intros Hs Ha Hb Ho. pose proof (word_pos _ Hs) as P.
  assert (N : aop <> Cmp) by (destruct Ho as [E|[E|[E|[E|E]]]]; inversion E; discriminate).
  destruct (doAlu_write aop size s b (readOp size s (Reg a)) N Hs) as [H1 H2].
  exists (doAlu aop size s (Reg b) (readOp size s (Reg a))). split; [|split].
  - eapply does_step; [intros r; apply (d_aluRR op aop); try assumption; tauto|]. reflexivity.
  - rewrite H2. apply lowOp_cong; [apply fun2_low|lia|reflexivity|]. cbn. rewrite low_low. symmetry. apply low_sval. lia.
  - exact H1.
Qed.

(** constants *)
Definition okConst (v : Z) : Prop := - 2 ^ 63 <= v < 2 ^ 63.
Lemma signExtend_low size v : word size -> okConst v -> sval size (sval 8 (signExtend size v)) = sval size v.
Proof.
  intros [-> | ->] Hv.
  - rewrite (sval_small 8); [rewrite signExtend_sval by auto; apply sval_sval; lia|lia|].
    rewrite signExtend_sval by auto. pose proof (sval_range 4 v ltac:(lia)). cbn in *. lia.
  - change (signExtend 8 v) with v. apply sval_sval. lia.
Qed.
Lemma does_moveCR2 size v b s : okReg b ->
  does (moveCR2 size v b) s (writeOp 8 s (Reg b) (sval 8 (signExtend size v))).
Proof. intros. eapply does_step; [intros; apply d_moveCR2; assumption|reflexivity]. Qed.
Lemma onlyGpr_refl rs s : onlyGpr rs s s.
Proof. repeat split. Qed.
Lemma onlyGpr_trans rs s1 s2 s3 : onlyGpr rs s1 s2 -> onlyGpr rs s2 s3 -> onlyGpr rs s1 s3.
Proof.
  intros (A1 & A2 & A3) (B1 & B2 & B3). split; [|split]; intros; [rewrite B1, A1|rewrite B2, A2|rewrite B3, A3]; auto.
Qed.
Lemma onlyGpr_incl rs rs' s s' : incl rs rs' -> onlyGpr rs s s' -> onlyGpr rs' s s'.
Proof. intros I (A1 & A2 & A3). split; [|split]; auto. Qed.
Lemma onlyGpr_write size s b v : onlyGpr [b] s (writeOp size s (Reg b) v).
Proof. split; [|split]; intros; cbn; auto. apply set_other. intros ->. apply H. left; reflexivity. Qed.
Lemma low_sval4 size v : word size -> low size (sval size v) = low size v.
Proof. intros. apply low_sval, word_pos. assumption. Qed.
(** loading a constant into a temporary and using it *)
Lemma does2_via tmp size v b (rr : Z -> Z -> Z -> list Z) f s :
  word size -> okReg tmp -> okReg b -> tmp <> b -> okConst v -> lowOp f ->
  (forall s1, does2 (rr size tmp b) [b] size b (sval size (f (int size s1 b) (int size s1 tmp))) s1) ->
  does2 (moveCR tmp size v tmp ++ rr size tmp b) [b; tmp] size b (sval size (f (int size s b) v)) s.
Proof.
  intros Hs Ht Hb Hn Hv Hf H. unfold moveCR. rewrite (okReg_float tmp Ht).
  set (s1 := writeOp 8 s (Reg tmp) (sval 8 (signExtend size v))).
  destruct (H s1) as (s2 & D & V & O). exists s2. split; [|split].
  - eapply does_app; [apply does_moveCR2; assumption|exact D].
  - rewrite V. assert (E1 : int size s1 b = int size s b) by (unfold int, s1; cbn; rewrite set_other by auto; reflexivity).
    assert (E2 : int size s1 tmp = sval size v).
    { unfold int, s1. cbn. rewrite set_same. rewrite <- (signExtend_low size v Hs Hv). apply sval_of_low.
      unfold merge. cbn. destruct Hs as [-> | ->]; [|apply low_low].
      unfold low. symmetry. apply (Znumtheory.Zmod_div_mod (2 ^ 32) (2 ^ 64)); try (cbn; lia).
      exists (2 ^ 32). reflexivity. }
    rewrite E1, E2. apply lowOp_cong; auto using low_sval4. pose proof (word_pos _ Hs). lia.
  - eapply onlyGpr_trans; [eapply onlyGpr_incl, onlyGpr_write|eapply onlyGpr_incl, O]; intros x Hx; cbn in *; tauto.
Qed.
Lemma does2_aluC n op aop tmp size v b rrop s :
  word size -> okReg tmp -> okReg b -> tmp <> b -> okConst v ->
  0 <= n < 8 -> aluOf n = Some aop -> aop <> Cmp -> op = 192 + 8 * n ->
  (rrop, aop) = (1, Add) \/ (rrop, aop) = (9, Or) \/ (rrop, aop) = (33, And) \/ (rrop, aop) = (41, Sub) \/ (rrop, aop) = (49, Xor) ->
  does2 (aluC op tmp size v b (aluRR rrop)) [b; tmp] size b (sval size (fun2 aop (int size s b) v)) s.
Proof.
  intros Hs Ht Hb Hn Hv Hr Ha N -> Ho. pose proof (word_pos _ Hs) as P. unfold aluC.
  destruct (fitsInInt32 v) eqn:F32.
  - assert (D : exists w, sval size w = sval size v /\
       forall r, decode ((maybeRexR size b ++ (if fitsInInt8 v then [131; 192 + 8 * n + regCode b] ++ append1 v
          else [129; 192 + 8 * n + regCode b] ++ append4 v)) ++ r) = Some (IAluImm aop size (Reg b) w, r)).
    { destruct (fitsInInt8 v) eqn:F8.
      - exists (sval 1 v). split; [rewrite fits8 by assumption; reflexivity|]. intros r. rewrite <- !app_assoc. apply d_aluC8; assumption.
      - exists (sval 4 v). split; [rewrite fits32 by assumption; reflexivity|]. intros r. rewrite <- !app_assoc. apply d_aluC32; assumption. }
    destruct D as (w & W & D).
    destruct (doAlu_write aop size s b (low size w) N Hs) as [H1 H2].
    exists (doAlu aop size s (Reg b) (low size w)). split; [|split].
    + eapply does_step; [exact D|reflexivity].
    + rewrite H2. apply lowOp_cong; [apply fun2_low|lia|reflexivity|]. rewrite low_low. apply low_of_sval; [lia|exact W].
    + eapply onlyGpr_incl, H1. intros x Hx; cbn in *; tauto.
  - apply does2_via; try assumption; [apply fun2_low|]. intros s1. apply does2_aluRR; assumption.
Qed.
Lemma does2_nil size b v rs s : int size s b = v -> does2 [] rs size b v s.
Proof. intros. exists s. split; [apply does_nil|split; [assumption|apply onlyGpr_refl]]. Qed.
Lemma int_sval size s b : word size -> sval size (int size s b) = int size s b.
Proof. intros. apply sval_sval, word_pos. assumption. Qed.

(** multiplication *)
Lemma mul_low : lowOp Z.mul.
Proof. intros n u v Hn. apply low_mul. assumption. Qed.
Lemma does2_multiplyRR size a b s : word size -> okReg a -> okReg b ->
  does2 (multiplyRR size a b) [b] size b (sval size (int size s b * int size s a)) s.
Proof.
  intros Hs Ha Hb. eexists. split; [|split].
  - eapply does_step; [intros; apply d_multiplyRR; assumption|reflexivity].
  - unfold int. cbn. rewrite set_same, sval_merge by assumption. rewrite sval_low. reflexivity.
  - apply onlyGpr_write.
Qed.
Lemma does2_multiplyCR tmp size v b s : word size -> okReg tmp -> okReg b -> tmp <> b -> okConst v ->
  does2 (multiplyCR tmp size v b) [b; tmp] size b (sval size (int size s b * v)) s.
Proof.
  intros Hs Ht Hb Hn Hv. pose proof (word_pos _ Hs) as P. unfold multiplyCR.
  destruct (Z.eqb_spec v 1) as [->|N1].
  { apply does2_nil. rewrite Z.mul_1_r, int_sval by assumption. reflexivity. }
  destruct (fitsInInt32 v) eqn:F32.
  - assert (D : forall r, decode ((maybeRexRR size b b ++ (if fitsInInt8 v then [107] ++ modrm 192 b b ++ append1 v
          else [105] ++ modrm 192 b b ++ append4 v)) ++ r) = Some (IImulImm size b (Reg b) v, r)).
    { destruct (fitsInInt8 v) eqn:F8; intros r; rewrite <- !app_assoc.
      - rewrite d_mulC8, fits8 by assumption. reflexivity.
      - rewrite d_mulC32, fits32 by assumption. reflexivity. }
    eexists. split; [|split].
    + eapply does_step; [exact D|reflexivity].
    + unfold int. cbn. rewrite set_same, sval_merge, sval_low by assumption. reflexivity.
    + eapply onlyGpr_incl, onlyGpr_write. intros x Hx; cbn in *; tauto.
  - apply does2_via; try assumption; [apply mul_low|]. intros. apply does2_multiplyRR; assumption.
Qed.
Lemma does2_negate size a s : word size -> okReg a ->
  does2 (negateR size a) [a] size a (sval size (- int size s a)) s.
Proof.
  intros Hs Ha. pose proof (word_pos _ Hs) as P.
  destruct (doAlu_write Sub size (writeOp size s (Reg a) 0) a (readOp size s (Reg a)) ltac:(discriminate) Hs) as [H1 H2].
  eexists. split; [|split].
  - eapply does_step; [intros; apply d_negate; assumption|reflexivity].
  - rewrite H2. cbn [fun2 readOp]. unfold int at 1. cbn. rewrite set_same, sval_merge by assumption.
    replace (sval size 0) with 0 by (symmetry; apply sval_small; [lia|]; pose proof (Z.pow_pos_nonneg 2 (8 * size - 1)); lia).
    apply (lowOp_cong Z.sub size 0 _ 0); [exact (fun2_low Sub)|lia|reflexivity|]. rewrite low_low. symmetry. apply low_sval4. assumption.
  - eapply onlyGpr_trans; [apply onlyGpr_write|exact H1].
Qed.

(** shifts *)
Definition shiftSpec (t size x n : Z) : Z :=
  let k := n mod (8 * size) in
  if t =? 224 then x * 2 ^ k else if t =? 232 then low size x / 2 ^ k else x / 2 ^ k.
Lemma shift_exec t size s b c n : word size -> okShift t ->
  match c with Some v => v | None => gpr s 1 end mod (8 * size) = n mod (8 * size) ->
  exists s', exec (IShift (shiftCode t) size (Reg b) c) s = Some s' /\
    int size s' b = sval size (shiftSpec t size (int size s b) n) /\ onlyGpr [b] s s'.
Proof.
  intros Hs Ht E. pose proof (word_pos _ Hs) as P. cbn [exec].
  set (k := if size =? 8 then _ else _).
  assert (K : k = n mod (8 * size)) by (subst k; destruct Hs as [-> | ->]; exact E).
  assert (K0 : 0 <= k) by (rewrite K; apply Z.mod_pos_bound; lia).
  eexists. split; [reflexivity|]. split; [|apply onlyGpr_write].
  unfold int. cbn. rewrite set_same, sval_merge by assumption. unfold shiftSpec. rewrite <- K.
  destruct Ht as [-> | [-> | ->]]; cbn [Z.eqb Pos.eqb shiftCode shiftResult].
  - rewrite Z.shiftl_mul_pow2 by assumption. apply lowOp_cong; [apply mul_low|lia| |reflexivity].
    rewrite low_low, low_sval4 by assumption. reflexivity.
  - rewrite Z.shiftr_div_pow2, low_sval4 by assumption. reflexivity.
  - rewrite Z.shiftr_div_pow2, sval_low by assumption. reflexivity.
Qed.
Lemma mod_sval1 size v : word size -> sval 1 v mod (8 * size) = v mod (8 * size).
Proof.
  intros Hs. assert (H : sval 1 v mod 256 = v mod 256) by exact (low_sval 1 v ltac:(lia)).
  rewrite (Znumtheory.Zmod_div_mod (8 * size) 256 (sval 1 v)), (Znumtheory.Zmod_div_mod (8 * size) 256 v), H; try reflexivity;
    destruct Hs as [-> | ->]; try lia; first [exists 8; reflexivity | exists 4; reflexivity].
Qed.
Lemma does2_doShift t size v b s code : word size -> okReg b -> okShift t -> doShift t v size b = Ok code ->
  does2 code [b] size b (sval size (shiftSpec t size (int size s b) v)) s.
Proof.
  intros Hs Hb Ht. unfold doShift. destruct (Z.eqb_spec v 1) as [->|N]; [|destruct (fitsInInt8 v); [|discriminate]]; intros E; inversion E; subst code; clear E.
  - destruct (shift_exec t size s b (Some 1) 1 Hs Ht eq_refl) as (s' & E & V & O).
    exists s'. split; [eapply does_step; [intros; norm; apply d_shift1; assumption|exact E]|auto].
  - destruct (shift_exec t size s b (Some (sval 1 v)) v Hs Ht (mod_sval1 size v Hs)) as (s' & E & V & O).
    exists s'. split; [eapply does_step; [intros; norm; apply d_shiftC; assumption|exact E]|auto].
Qed.
Lemma mod_int size s r : word size -> gpr s r mod (8 * size) = int size s r mod (8 * size).
Proof.
  intros Hs. unfold int. pose proof (low_sval4 size (gpr s r) Hs) as H. unfold low in H.
  rewrite (Znumtheory.Zmod_div_mod (8 * size) (2 ^ (8 * size)) (sval size _)), (Znumtheory.Zmod_div_mod (8 * size) (2 ^ (8 * size)) (gpr s r)), H; try reflexivity;
    destruct Hs as [-> | ->]; try (cbn; lia); first [exists (2 ^ 27); reflexivity | exists (2 ^ 58); reflexivity].
Qed.
Lemma does2_shiftRR t size b s : word size -> okReg b -> okShift t ->
  does2 (shiftRR t size rcx b) [b] size b (sval size (shiftSpec t size (int size s b) (int size s rcx))) s.
Proof.
  intros Hs Hb Ht. destruct (shift_exec t size s b None (int size s rcx) Hs Ht (mod_int size s 1 Hs)) as (s' & E & V & O).
  exists s'. split; [eapply does_step; [intros; apply d_shiftRR; assumption|exact E]|auto].
Qed.

(** division *)
Lemma low_sval_cdq size x : word size ->
  sval size (if sval size x <? 0 then -1 else 0) * 2 ^ (8 * size) + low size x = sval size x.
Proof.
  intros Hs. pose proof (word_pos _ Hs) as P. pose proof (sval_range size x P) as R. pose proof (pow_half size P) as E.
  pose proof (Z.pow_pos_nonneg 2 (8 * size - 1) ltac:(lia) ltac:(lia)) as P2.
  assert (V : sval size (-1) = -1 /\ sval size 0 = 0) by (split; apply sval_small; lia). destruct V as [V1 V2].
  assert (B : 0 <= low size x < 2 ^ (8 * size)) by (apply Z.mod_pos_bound; lia).
  destruct (Z.ltb_spec (sval size x) 0) as [L|L].
  - rewrite V1. unfold sval in *. destruct (Z.ltb_spec (low size x) (2 ^ (8 * size - 1))); lia.
  - rewrite V2. unfold sval in *. destruct (Z.ltb_spec (low size x) (2 ^ (8 * size - 1))); lia.
Qed.
Definition cdqState (size : Z) (s : state) : state := writeOp size s (Reg 2) (if sval size (gpr s 0) <? 0 then -1 else 0).
Lemma does_cdq size a b s : word size -> does (maybeRexRR size a b ++ [153]) s (cdqState size s).
Proof. intros. eapply does_step; [intros; norm; apply d_cdq; assumption|reflexivity]. Qed.
Definition minInt (size : Z) : Z := - 2 ^ (8 * size - 1).
Lemma quot_range size n d : 0 < size -> minInt size <= n < - minInt size -> minInt size <= d < - minInt size -> d <> 0 ->
  ~ (n = minInt size /\ d = -1) -> minInt size <= Z.quot n d < - minInt size.
Proof.
  unfold minInt. intros Hs Hn Hd D0 X. pose proof (Z.pow_pos_nonneg 2 (8 * size - 1) ltac:(lia) ltac:(lia)) as P2.
  pose proof (Z.quot_rem' n d) as E. pose proof (Z.rem_bound_abs n d D0) as B.
  assert (A : Z.abs (Z.quot n d) <= Z.abs n).
  { rewrite <- Z.quot_abs by assumption. rewrite Z.quot_div_nonneg by lia.
    apply Z.div_le_upper_bound; [lia|]. nia. }
  assert (A2 : 2 <= Z.abs d -> Z.abs (Z.quot n d) * 2 <= Z.abs n).
  { intros. rewrite <- Z.quot_abs by assumption. rewrite Z.quot_div_nonneg by lia.
    pose proof (Z.mul_div_le (Z.abs n) (Z.abs d) ltac:(lia)). pose proof (Z.div_pos (Z.abs n) (Z.abs d)). nia. }
  destruct (Z.lt_ge_cases (Z.abs d) 2) as [L|L]; [|specialize (A2 L); lia].
  assert (C : d = 1 \/ d = -1) by lia. destruct C as [-> | ->].
  - rewrite Z.quot_1_r. lia.
  - change (-1) with (- (1)). rewrite Z.quot_opp_r, Z.quot_1_r by lia. lia.
Qed.
Lemma idiv_state size a s : word size -> okReg a -> a <> 0 -> a <> 2 ->
  exec (IIdiv size (Reg a)) (cdqState size s) =
    if int size s a =? 0 then None
    else if (minInt size <=? Z.quot (int size s 0) (int size s a)) && (Z.quot (int size s 0) (int size s a) <? - minInt size)
    then Some (writeOp size (writeOp size (cdqState size s) (Reg 0) (Z.quot (int size s 0) (int size s a))) (Reg 2) (Z.rem (int size s 0) (int size s a)))
    else None.
Proof.
  intros Hs Ha H0 H2. cbn [exec].
  assert (E1 : sval size (readOp size (cdqState size s) (Reg a)) = int size s a).
  { cbn. rewrite set_other, sval_low by assumption. reflexivity. }
  assert (E2 : sval size (gpr (cdqState size s) 2) * 2 ^ (8 * size) + low size (gpr (cdqState size s) 0) = int size s 0).
  { unfold cdqState. cbn [writeOp gpr]. rewrite set_same, (set_other _ 2 _ 0), sval_merge by (assumption || lia). apply low_sval_cdq. assumption. }
  rewrite E1, E2. unfold minInt. rewrite Z.opp_involutive. reflexivity.
Qed.
Lemma divide_ok size a s : word size -> okReg a -> a <> 0 -> a <> 2 ->
  int size s a <> 0 -> ~ (int size s 0 = minInt size /\ int size s a = -1) ->
  exists s', does (divideRR size a 0) s s' /\ int size s' 0 = Z.quot (int size s 0) (int size s a) /\
    int size s' 2 = Z.rem (int size s 0) (int size s a) /\ onlyGpr [0; 2] s s'.
Proof.
  intros Hs Ha H0 H2 N X. pose proof (word_pos _ Hs) as P.
  pose proof (sval_range size (gpr s 0) P) as R0. pose proof (sval_range size (gpr s a) P) as Ra.
  assert (Q : minInt size <= Z.quot (int size s 0) (int size s a) < - minInt size).
  { apply quot_range; auto; unfold minInt; rewrite Z.opp_involutive; unfold int; assumption. }
  assert (Rm : - 2 ^ (8 * size - 1) <= Z.rem (int size s 0) (int size s a) < 2 ^ (8 * size - 1)).
  { pose proof (Z.rem_bound_abs (int size s 0) (int size s a) N) as B. unfold int in *. lia. }
  eexists. split; [|split; [|split]].
  - unfold divideRR. rewrite app_assoc. eapply does_app; [apply does_cdq; assumption|].
    eapply does_step; [intros; norm; apply d_idiv; assumption|]. rewrite (idiv_state size a s Hs Ha H0 H2).
    apply Z.eqb_neq in N. rewrite N.
    destruct Q as [Q1 Q2]. apply Z.leb_le in Q1. apply Z.ltb_lt in Q2. rewrite Q1, Q2. reflexivity.
  - unfold int at 1. cbn [writeOp gpr]. rewrite set_other, set_same, sval_merge by (assumption || lia).
    apply sval_small; [assumption|]. unfold minInt in Q. lia.
  - unfold int at 1. cbn [writeOp gpr]. rewrite set_same, sval_merge by assumption. apply sval_small; assumption.
  - eapply onlyGpr_trans; [|eapply onlyGpr_trans]; eapply onlyGpr_incl, onlyGpr_write; intros x Hx; cbn in *; tauto.
Qed.
Lemma divide_fault size a s : word size -> okReg a -> a <> 0 -> a <> 2 ->
  int size s a = 0 \/ (int size s 0 = minInt size /\ int size s a = -1) ->
  forall r, runs (divideRR size a 0 ++ r) s Fault.
Proof.
  intros Hs Ha H0 H2 X r. pose proof (word_pos _ Hs) as P. unfold divideRR. rewrite <- app_assoc, app_assoc, <- app_assoc.
  rewrite <- app_assoc. rewrite app_assoc.
  apply (does_cdq size a 0 s Hs). eapply RunFault; [norm; apply d_idiv; assumption|reflexivity|].
  rewrite (idiv_state size a s Hs Ha H0 H2). destruct X as [-> | [E1 E2]]; [reflexivity|].
  rewrite E1, E2. cbn [Z.eqb]. replace (Z.quot (minInt size) (-1)) with (- minInt size).
  - rewrite Z.ltb_irrefl, andb_false_r. reflexivity.
  - change (-1) with (- (1)). rewrite Z.quot_opp_r, Z.quot_1_r by lia. reflexivity.
Qed.
Lemma does_mov8 a b s : okReg a -> okReg b -> a <> b ->
  does (moveRR 8 a 8 b) s (writeOp 8 s (Reg b) (readOp 8 s (Reg a))).
Proof.
  intros Ha Hb N. unfold moveRR. rewrite !okReg_float by assumption. cbn [orb Z.eqb Pos.eqb].
  apply Z.eqb_neq in N. rewrite N. eapply does_step; [intros; norm; apply d_mov8; assumption|reflexivity].
Qed.
Lemma sval_low8 size v : size = 1 \/ size = 2 \/ size = 4 \/ size = 8 -> sval size (low 8 v) = sval size v.
Proof.
  intros Hs. apply sval_of_low. unfold low. symmetry.
  apply (Znumtheory.Zmod_div_mod (2 ^ (8 * size)) (2 ^ (8 * 8))); try (destruct Hs as [->|[->|[->| ->]]]; cbn; lia).
  destruct Hs as [->|[->|[->| ->]]]; [exists (2 ^ 56)|exists (2 ^ 48)|exists (2 ^ 32)|exists 1]; reflexivity.
Qed.
Lemma word_sizes size : word size -> size = 1 \/ size = 2 \/ size = 4 \/ size = 8.
Proof. intros [-> | ->]; auto. Qed.
Lemma remainder_ok size a s : word size -> okReg a -> a <> 0 -> a <> 2 ->
  int size s a <> 0 -> ~ (int size s 0 = minInt size /\ int size s a = -1) ->
  exists s', does (remainderRR size a 0) s s' /\ int size s' 0 = Z.rem (int size s 0) (int size s a) /\ onlyGpr [0; 2] s s'.
Proof.
  intros Hs Ha H0 H2 N X. destruct (divide_ok size a s Hs Ha H0 H2 N X) as (s1 & D & _ & V & O).
  eexists. split; [|split].
  - eapply does_app; [exact D|apply does_mov8; unfold okReg, rdx; lia].
  - unfold int at 1. cbn [writeOp gpr readOp]. rewrite set_same.
    change (merge 8 (gpr s1 0) (low 8 (gpr s1 rdx))) with (low 8 (low 8 (gpr s1 rdx))).
    rewrite low_low, sval_low8 by auto using word_sizes. exact V.
  - eapply onlyGpr_trans; [exact O|]. eapply onlyGpr_incl, onlyGpr_write; intros x Hx; cbn in *; tauto.
Qed.
Lemma absolute_ok size s : word size ->
  exists s', does (absoluteRR size 0 0) s s' /\ int size s' 0 = sval size (Z.abs (int size s 0)) /\ onlyGpr [0; 2] s s'.
Proof.
  intros Hs. pose proof (word_pos _ Hs) as P. unfold absoluteRR. rewrite app_assoc.
  set (s1 := cdqState size s).
  destruct (does2_aluRR 49 Xor size rdx 0 s1 Hs) as (s2 & D2 & V2 & O2); [unfold okReg, rdx; lia|unfold okReg; lia|tauto|].
  destruct (does2_aluRR 41 Sub size rdx 0 s2 Hs) as (s3 & D3 & V3 & O3); [unfold okReg, rdx; lia|unfold okReg; lia|tauto|].
  exists s3. split; [|split].
  - eapply does_app; [apply does_cdq; assumption|]. eapply does_app; [exact D2|exact D3].
  - rewrite V3, V2. cbn [fun2].
    assert (E0 : int size s1 0 = int size s 0) by (unfold int, s1, cdqState; cbn [writeOp gpr]; rewrite set_other by lia; reflexivity).
    assert (Em : int size s2 rdx = int size s1 rdx) by (unfold int; destruct O2 as (O2 & _); rewrite O2 by (cbn; unfold rdx; lia); reflexivity).
    assert (Ed : int size s1 rdx = if int size s 0 <? 0 then -1 else 0).
    { unfold int, s1, cdqState, rdx. cbn [writeOp gpr]. rewrite set_same, sval_merge by assumption.
      pose proof (Z.pow_pos_nonneg 2 (8 * size - 1) ltac:(lia) ltac:(lia)) as P2.
      destruct (_ <? 0); apply sval_small; lia. }
    rewrite Em, Ed, E0.
    rewrite (lowOp_cong Z.sub size (sval size _) _ (Z.lxor (int size s 0) (if int size s 0 <? 0 then -1 else 0)) (if int size s 0 <? 0 then -1 else 0));
      [|exact (fun2_low Sub)|lia|apply low_sval4; assumption|reflexivity].
    f_equal. destruct (Z.ltb_spec (int size s 0) 0).
    + rewrite Z.lxor_m1_r. unfold Z.lnot. lia.
    + rewrite Z.lxor_0_r. lia.
  - eapply onlyGpr_trans; [eapply onlyGpr_incl, onlyGpr_write|eapply onlyGpr_trans; [eapply onlyGpr_incl, O2|eapply onlyGpr_incl, O3]];
      intros x Hx; cbn in *; tauto.
Qed.

(** ** Moves *)
Definition ea (s : state) (m : memory) : Z :=
  gpr s (mbase m) + match mindex m with Some i => gpr s i * mscale m | None => 0 end + moffset m.
Lemma address_ea s m : address s (mbase m) (match mindex m with None => None | Some i => Some (i, mscale m) end) (moffset m) = ea s m.
Proof. unfold address, ea. destruct (mindex m); reflexivity. Qed.
Lemma readOp_mem size s m : readOp size s (memOp m) = load (Z.to_nat size) (mem s) (ea s m).
Proof. unfold memOp. cbn [readOp]. rewrite address_ea. reflexivity. Qed.
Lemma writeOp_mem size s m v : writeOp size s (memOp m) v = State (gpr s) (xmm s) (store (Z.to_nat size) (mem s) (ea s m) v) (flg s).
Proof. unfold memOp. cbn [writeOp]. rewrite address_ea. reflexivity. Qed.
Lemma load_range n : forall m a, 0 <= load n m a < 2 ^ (8 * Z.of_nat n).
Proof.
  induction n as [|n IH]; intros m a; [cbn; lia|].
  cbn [load]. specialize (IH m (a + 1)). pose proof (Z.mod_pos_bound (m (wrap a)) 256 ltac:(lia)).
  replace (8 * Z.of_nat (S n)) with (8 + 8 * Z.of_nat n) by lia. rewrite Z.pow_add_r by lia. change (2 ^ 8) with 256. nia.
Qed.
Lemma store_cong n : forall m a v w x, v mod 2 ^ (8 * Z.of_nat n) = w mod 2 ^ (8 * Z.of_nat n) ->
  store n m a v x = store n m a w x.
Proof.
  induction n as [|n IH]; intros m a v w x E; [reflexivity|].
  cbn [store]. replace (8 * Z.of_nat (S n)) with (8 + 8 * Z.of_nat n) in E by lia.
  rewrite Z.pow_add_r in E by lia. change (2 ^ 8) with 256 in E.
  pose proof (Z.pow_pos_nonneg 2 (8 * Z.of_nat n) ltac:(lia) ltac:(lia)).
  rewrite !Z.rem_mul_r in E by lia.
  pose proof (Z.mod_pos_bound v 256 ltac:(lia)). pose proof (Z.mod_pos_bound w 256 ltac:(lia)).
  assert (E1 : v mod 256 = w mod 256) by lia. assert (E2 : (v / 256) mod 2 ^ (8 * Z.of_nat n) = (w / 256) mod 2 ^ (8 * Z.of_nat n)) by lia.
  unfold set. destruct (x =? wrap a); [exact E1|]. apply IH. exact E2.
Qed.
Definition okSize (n : Z) : Prop := n = 1 \/ n = 2 \/ n = 4 \/ n = 8.
Lemma store_low n m a v w x : okSize n -> low n v = low n w -> store (Z.to_nat n) m a v x = store (Z.to_nat n) m a w x.
Proof. intros Hn E. apply store_cong. rewrite Z2Nat.id by (destruct Hn as [->|[->|[->| ->]]]; lia). exact E. Qed.
Lemma okSize_pos n : okSize n -> 0 < n.
Proof. intros [->|[->|[->| ->]]]; lia. Qed.
Lemma sval_in size n v : word size -> okSize n -> n <= size -> sval size (sval n v) = sval n v.
Proof.
  intros Hs Hn L. pose proof (okSize_pos _ Hn) as P. apply sval_small; [apply word_pos; assumption|].
  pose proof (sval_range n v P) as R. assert (2 ^ (8 * n - 1) <= 2 ^ (8 * size - 1)) by (apply Z.pow_le_mono_r; lia). lia.
Qed.
(** writing a register *)
Lemma does2_write code i rs size b v s : word size -> In b rs ->
  (forall r, decode (code ++ r) = Some (i, r)) -> exec i s = Some (writeOp size s (Reg b) v) ->
  does2 code rs size b (sval size v) s.
Proof.
  intros Hs I D E. eexists. split; [eapply does_step; eassumption|]. split.
  - unfold int. cbn [writeOp gpr]. rewrite set_same, sval_merge by assumption. reflexivity.
  - eapply onlyGpr_incl, onlyGpr_write. intros x [<-|[]]. exact I.
Qed.
Lemma does2_eq code rs size b v w s : v = w -> does2 code rs size b v s -> does2 code rs size b w s.
Proof. intros ->. auto. Qed.
Definition moveSizes (aSize bSize : Z) : Prop :=
  (bSize = 4 /\ (aSize = 1 \/ aSize = 2 \/ aSize = 4)) \/ (bSize = 8 /\ (aSize = 4 \/ aSize = 8)).
Lemma moveRR_ok aSize a bSize b s : moveSizes aSize bSize -> okReg a -> okReg b ->
  does2 (moveRR aSize a bSize b) [b] bSize b (int aSize s a) s.
Proof.
  intros Hm Ha Hb. unfold moveRR. rewrite !okReg_float by assumption. cbn [orb].
  assert (S1 : okSize aSize) by (unfold okSize; destruct Hm as [[_ [->|[->| ->]]]|[_ [->| ->]]]; auto).
  assert (S2 : word bSize) by (unfold word; destruct Hm as [[-> _]|[-> _]]; auto).
  assert (L : aSize <= bSize) by (destruct Hm as [[-> [->|[->| ->]]]|[-> [->| ->]]]; lia).
  unfold int. rewrite <- (sval_in bSize aSize) by assumption.
  destruct Hm as [[-> [->|[->| ->]]]|[-> [->| ->]]]; cbn [Z.eqb Pos.eqb].
  - eapply does2_eq; [|eapply does2_write; [assumption|left; reflexivity|intros; norm; apply d_movsx1; assumption|reflexivity]].
    cbn [readOp]. rewrite (sval_low 1). reflexivity.
  - eapply does2_eq; [|eapply does2_write; [assumption|left; reflexivity|intros; norm; apply d_movsx2; assumption|reflexivity]].
    cbn [readOp]. rewrite (sval_low 2). reflexivity.
  - rewrite (sval_sval 4) by lia. destruct (Z.eqb_spec a b) as [->|N]; [apply does2_nil; reflexivity|].
    eapply does2_eq; [|eapply does2_write; [assumption|left; reflexivity|intros; norm; apply d_mov4; assumption|reflexivity]].
    cbn [readOp]. apply sval_low.
  - eapply does2_eq; [|eapply does2_write; [assumption|left; reflexivity|intros; norm; apply d_movsx4; assumption|reflexivity]].
    cbn [readOp]. rewrite (sval_low 4). reflexivity.
  - rewrite (sval_sval 8) by lia. destruct (Z.eqb_spec a b) as [->|N]; [apply does2_nil; reflexivity|].
    eapply does2_eq; [|eapply does2_write; [assumption|left; reflexivity|intros; norm; apply d_mov8; assumption|reflexivity]].
    cbn [readOp]. apply sval_low.
Qed.
Lemma moveMR_ok aSize m bSize b s : okSize aSize -> word bSize -> aSize <= bSize -> okMem m -> okReg b ->
  exists code, moveMR aSize m bSize b = Ok code /\ does2 code [b] bSize b (memInt aSize s (ea s m)) s.
Proof.
  intros S1 S2 L Hm Hb. unfold moveMR. rewrite okReg_float by assumption. unfold memInt. rewrite <- (sval_in bSize aSize) by assumption.
  destruct S1 as [->|[->|[->| ->]]]; cbn [Z.eqb Pos.eqb]; eexists; (split; [reflexivity|]).
  - eapply does2_eq; [|eapply does2_write; [assumption|left; reflexivity|intros; norm; apply d_load1; assumption|reflexivity]].
    rewrite readOp_mem. reflexivity.
  - eapply does2_eq; [|eapply does2_write; [assumption|left; reflexivity|intros; norm; apply d_load2; assumption|reflexivity]].
    rewrite readOp_mem. reflexivity.
  - eapply does2_eq; [|eapply does2_write; [assumption|left; reflexivity|intros; norm; apply d_load4; assumption|reflexivity]].
    rewrite readOp_mem. reflexivity.
  - assert (bSize = 8) by (destruct S2; lia). subst bSize. rewrite (sval_sval 8) by lia.
    eapply does2_eq; [|eapply does2_write; [assumption|left; reflexivity|intros; norm; apply d_load8; assumption|reflexivity]].
    rewrite readOp_mem. reflexivity.
Qed.
Lemma moveRM_ok aSize a m s : okSize aSize -> okReg a -> okMem m ->
  exists code s', moveRM aSize a m = Ok code /\ does code s s' /\ onlyStore [] aSize (ea s m) (gpr s a) s s'.
Proof.
  intros S1 Ha Hm. unfold moveRM. rewrite okReg_float by assumption.
  assert (D : exists code, (if aSize =? 1 then Ok (maybeRexRM aSize a m ++ [136] ++ modrmSibImm a m)
    else if aSize =? 2 then Ok ([102] ++ maybeRexRM aSize a m ++ [137] ++ modrmSibImm a m)
    else if aSize =? 4 then Ok (maybeRexRM aSize a m ++ [137] ++ modrmSibImm a m)
    else if aSize =? 8 then Ok (maybeRexRM aSize a m ++ [137] ++ modrmSibImm a m) else Abort) = Ok code /\
    forall r, decode (code ++ r) = Some (IMov aSize (memOp m) (Reg a), r)).
  { destruct S1 as [->|[->|[->| ->]]]; cbn [Z.eqb Pos.eqb]; eexists; (split; [reflexivity|]); norm.
    - apply d_store1; assumption.
    - apply d_store2; assumption.
    - apply d_store; auto. left; reflexivity.
    - apply d_store; auto. right; reflexivity. }
  destruct D as (code & -> & D). exists code. eexists. split; [reflexivity|]. split.
  - eapply does_step; [exact D|reflexivity].
  - rewrite writeOp_mem. split; [|split]; intros; cbn; auto. apply store_low; [assumption|]. apply low_low.
Qed.
Lemma moveCR_ok tmp aSize v b s : okSize aSize -> okConst v -> okReg b ->
  does2 (moveCR tmp aSize v b) [b] 8 b (sval aSize v) s.
Proof.
  intros S1 Hv Hb. unfold moveCR. rewrite okReg_float by assumption.
  assert (E : sval 8 (signExtend aSize v) = sval aSize v).
  { destruct S1 as [->|[->|[->| ->]]]; try reflexivity; rewrite signExtend_sval by auto; apply sval_in; unfold word, okSize; auto; lia. }
  eapply does2_eq; [|eapply does2_write; [right; reflexivity|left; reflexivity|intros; apply d_moveCR2; assumption|reflexivity]].
  rewrite E. rewrite <- E. apply sval_sval. lia.
Qed.
Lemma moveCM_ok tmp v bSize m s : okSize bSize -> okReg tmp -> okMem m -> okConst v ->
  mbase m <> tmp -> mindex m <> Some tmp ->
  exists code s', moveCM tmp v bSize m = Ok code /\ does code s s' /\ onlyStore [tmp] bSize (ea s m) v s s'.
Proof.
  intros S1 Ht Hm Hv N1 N2. unfold moveCM.
  assert (W : forall w, low bSize w = low bSize v -> onlyStore [tmp] bSize (ea s m) v s (writeOp bSize s (memOp m) w)).
  { intros w E. rewrite writeOp_mem. split; [|split]; intros; cbn; auto. apply store_low; assumption. }
  destruct S1 as [->|[->|[->| ->]]]; cbn [Z.eqb Pos.eqb].
  - eexists _, _. split; [reflexivity|]. split; [eapply does_step; [norm; apply d_storeC1; assumption|reflexivity]|apply W, low_sval; lia].
  - eexists _, _. split; [reflexivity|]. split; [eapply does_step; [norm; apply d_storeC2; assumption|reflexivity]|apply W, low_sval; lia].
  - eexists _, _. split; [reflexivity|]. split; [eapply does_step; [norm; apply d_storeC; [left; reflexivity|assumption]|reflexivity]|apply W, low_sval; lia].
  - destruct (fitsInInt32 v) eqn:F.
    + eexists _, _. split; [reflexivity|]. split; [eapply does_step; [norm; apply d_storeC; [right; reflexivity|assumption]|reflexivity]|].
      apply W. rewrite fits32 by assumption. reflexivity.
    + destruct (moveCR_ok tmp 8 v tmp s ltac:(unfold okSize; auto) Hv Ht) as (s1 & D1 & V1 & O1).
      destruct (moveRM_ok 8 tmp m s1 ltac:(unfold okSize; auto) Ht Hm) as (code & s2 & -> & D2 & G2 & X2 & M2).
      cbn [bind]. eexists _, s2. split; [reflexivity|]. split; [eapply does_app; eassumption|].
      destruct O1 as (G1 & X1 & M1).
      assert (E : ea s1 m = ea s m).
      { unfold ea. destruct (mindex m) as [i|]; rewrite ?G1; auto; cbn; intros [->|[]]; auto. }
      split; [|split]; intros.
      * rewrite G2, G1 by auto. reflexivity.
      * rewrite X2, X1. reflexivity.
      * rewrite M2, E. assert (EL : low 8 (gpr s1 tmp) = low 8 v) by (apply low_of_sval; [lia|exact V1]).
        rewrite (store_low 8 _ _ _ v x (or_intror (or_intror (or_intror eq_refl))) EL).
        generalize (ea s m). clear -M1. intros a. revert a v x.
        assert (H : forall n a v x, store n (mem s1) a v x = store n (mem s) a v x).
        { induction n as [|n IH]; intros; cbn [store]; [apply M1|]. unfold set. destruct (_ =? _); auto. }
        intros. apply H.
Qed.
Lemma moveZCR_ok v b s : okReg b -> does2 (moveZCR v b) [b] 8 b (low 2 v) s.
Proof.
  intros Hb. eapply does2_eq; [|eapply does2_write; [right; reflexivity|left; reflexivity|intros; apply d_moveZCR; assumption|reflexivity]].
  rewrite sval_sval by lia. apply sval_small; [lia|]. unfold low. pose proof (Z.mod_pos_bound v (2 ^ 16)). cbn in *. lia.
Qed.
Lemma moveZRR_ok a b s : okReg a -> okReg b -> does2 (moveZRR a b) [b] 8 b (low 2 (gpr s a)) s.
Proof.
  intros Ha Hb. eexists. split; [eapply does_step; [intros; apply d_moveZRR; assumption|reflexivity]|]. split.
  - unfold int. cbn [writeOp gpr readOp]. rewrite set_same. change (merge 4 (gpr s b) (low 2 (gpr s a))) with (low 4 (low 2 (gpr s a))).
    pose proof (Z.mod_pos_bound (gpr s a) (2 ^ 16) ltac:(lia)) as R. unfold low at 1.
    rewrite Z.mod_small by (unfold low; cbn in *; lia). apply sval_small; [lia|]. unfold low; cbn in *; lia.
  - apply onlyGpr_write.
Qed.
Lemma moveZMR_ok m b s : okMem m -> okReg b -> does2 (moveZMR m b) [b] 8 b (load 2 (mem s) (ea s m)) s.
Proof.
  intros Hm Hb. eapply does2_eq; [|eapply does2_write; [right; reflexivity|left; reflexivity|intros; apply d_loadZ; assumption|reflexivity]].
  rewrite readOp_mem. apply sval_small; [lia|]. pose proof (load_range 2 (mem s) (ea s m)) as R. change (Z.to_nat 2) with 2%nat. cbn [Z.of_nat] in R. cbn in *. lia.
Qed.
Lemma moveAR_ok tmp address bSize b s : word bSize -> okReg b -> 0 <= address < 2 ^ 64 ->
  exists code, moveAR tmp 8 address bSize b = Ok code /\ does2 code [b] bSize b (memInt bSize s address) s.
Proof.
  intros Hs Hb Ha. unfold moveAR.
  assert (D1 : does (moveCR tmp 8 address b) s (writeOp 8 s (Reg b) (sval 8 address))).
  { unfold moveCR. rewrite okReg_float by assumption. apply does_moveCR2. assumption. }
  set (s1 := writeOp 8 s (Reg b) (sval 8 address)) in *.
  assert (G : gpr s1 b = address).
  { unfold s1. cbn [writeOp gpr]. rewrite set_same. change (low 8 (sval 8 address) = address). rewrite low_sval by lia. apply Z.mod_small. exact Ha. }
  destruct (moveMR_ok bSize (Memory b 0 None 0) bSize b s1) as (code & -> & s2 & D2 & V2 & O2); [apply word_sizes; assumption|assumption|lia|split; [exact Hb|split; [cbn; lia|exact I]]|exact Hb|].
  cbn [bind]. eexists. split; [reflexivity|]. exists s2. split; [eapply does_app; eassumption|]. split.
  - rewrite V2. unfold ea. cbn [mbase mindex moffset]. rewrite G, !Z.add_0_r. reflexivity.
  - eapply onlyGpr_trans; [apply onlyGpr_write|exact O2].
Qed.
Lemma push_ok a s : okReg a -> 8 <= gpr s 4 < 2 ^ 64 ->
  exists s', does (pushR a) s s' /\ gpr s' 4 = gpr s 4 - 8 /\ onlyStore [4] 8 (gpr s 4 - 8) (gpr s a) s s'.
Proof.
  intros Ha R. assert (W : wrap (gpr s 4 - 8) = gpr s 4 - 8) by (apply Z.mod_small; lia).
  eexists. split; [eapply does_step; [intros; apply d_push; assumption|reflexivity]|]. split.
  - cbn [writeOp gpr]. rewrite set_same. exact W.
  - cbn [writeOp gpr mem xmm]. unfold address. cbn [gpr]. rewrite set_same, W, !Z.add_0_r. split; [|split]; intros; cbn [gpr xmm mem]; auto.
    apply set_other. intros ->. apply H. left; reflexivity.
Qed.
Lemma pop_ok size a s : word size -> okReg a -> a <> 4 -> 0 <= gpr s 4 < 2 ^ 64 - 8 ->
  exists s', does (popR size a) s s' /\ gpr s' 4 = gpr s 4 + 8 /\ int 8 s' a = memInt size s (gpr s 4) /\ onlyGpr [a; 4] s s'.
Proof.
  intros Hs Ha N R. assert (W : wrap (gpr s 4 + 8) = gpr s 4 + 8) by (apply Z.mod_small; lia).
  set (s1 := writeOp 8 (State (set (gpr s) 4 (wrap (gpr s 4 + 8))) (xmm s) (mem s) (flg s)) (Reg a) (readOp 8 s (Mem 4 None 0))).
  assert (D1 : does (maybeRexR 4 a ++ [88 + regCode a]) s s1).
  { eapply does_step; [norm; apply d_pop; assumption|reflexivity]. }
  assert (G4 : gpr s1 4 = gpr s 4 + 8) by (unfold s1; cbn [writeOp gpr]; rewrite set_other, set_same by auto; exact W).
  assert (V1 : gpr s1 a = low 8 (load 8 (mem s) (gpr s 4))).
  { unfold s1. cbn [writeOp gpr readOp]. rewrite set_same. unfold address. rewrite !Z.add_0_r. reflexivity. }
  assert (O1 : onlyGpr [a; 4] s s1).
  { split; [|split]; intros; auto. unfold s1. cbn [writeOp gpr]. rewrite !set_other; auto; intros ->; apply H; cbn; auto. }
  unfold popR. rewrite app_assoc. destruct Hs as [-> | ->]; cbn [Z.eqb Pos.eqb].
  - destruct (moveRR_ok 4 a 8 a s1) as (s2 & D2 & V2 & O2); auto; [right; auto|].
    exists s2. split; [eapply does_app; eassumption|]. destruct O2 as (G2 & X2 & M2). split; [|split].
    + rewrite G2; [exact G4|]. intros [E|[]]. auto.
    + rewrite V2. unfold int, memInt. rewrite V1. rewrite sval_low8 by auto. apply sval_of_low. unfold low.
      change (Z.to_nat 4) with 4%nat. cbn [load].
      generalize (load 0 (mem s) (gpr s 4 + 1 + 1 + 1 + 1 + 1 + 1 + 1 + 1)). intros z.
      rewrite ?Z.mul_0_r, ?Z.add_0_r.
      match goal with |- (?A + 256 * (?B + 256 * (?C + 256 * (?D + 256 * ?X)))) mod _ = _ =>
        replace (A + 256 * (B + 256 * (C + 256 * (D + 256 * X)))) with ((A + 256 * (B + 256 * (C + 256 * D))) + X * 2 ^ 32) by lia end.
      apply Z_mod_plus_full.
    + eapply onlyGpr_trans; [exact O1|]. eapply onlyGpr_incl; [|split; [exact G2|split; assumption]]. intros x Hx; cbn in *; tauto.
  - exists s1. rewrite app_nil_r. split; [exact D1|]. split; [exact G4|]. split; [|exact O1].
    unfold int, memInt. rewrite V1. apply sval_low.
Qed.
Lemma swap_ok a b s : okReg a -> okReg b ->
  exists s', does (swapRR a b) s s' /\ int 8 s' a = int 8 s b /\ int 8 s' b = int 8 s a /\ onlyGpr [a; b] s s'.
Proof.
  intros Ha Hb. eexists. split; [eapply does_step; [intros; apply d_swap; assumption|reflexivity]|]. split; [|split].
  - unfold int. cbn [writeOp gpr readOp]. rewrite set_same.
    change (merge 8) with (fun _ v : Z => low 8 v). cbv beta. rewrite !sval_low. reflexivity.
  - unfold int. cbn [writeOp gpr readOp]. change (merge 8) with (fun _ v : Z => low 8 v). cbv beta.
    destruct (Z.eq_dec a b) as [->|N].
    + rewrite set_same. rewrite !sval_low. reflexivity.
    + rewrite set_other, set_same, !sval_low by auto. reflexivity.
  - eapply onlyGpr_trans; eapply onlyGpr_incl, onlyGpr_write; intros x Hx; cbn in *; tauto.
Qed.
End Sem.
