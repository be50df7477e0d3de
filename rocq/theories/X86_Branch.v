(** Comparisons, branches and floating-point sequences. *)
From Coq Require Import List ZArith Bool Lia.
From Verif Require Import Res X86_Model X86_Spec X86_Decode X86_Proofs X86_Sem.
Import ListNotations.
Local Open Scope Z_scope.

Definition rel (op : relation) (x y : Z) : bool :=
  match op with
  | JumpIfEqual => x =? y
  | JumpIfNotEqual => negb (x =? y)
  | JumpIfLess => x <? y
  | JumpIfGreater => y <? x
  | JumpIfLessOrEqual => x <=? y
  | JumpIfGreaterOrEqual => y <=? x
  end.
Definition ccOf (op : relation) : Z :=
  match op with
  | JumpIfEqual => 4 | JumpIfNotEqual => 5 | JumpIfLess => 12 | JumpIfGreater => 15 | JumpIfLessOrEqual => 14 | JumpIfGreaterOrEqual => 13
  end.
Lemma branch_cc op : branch op = conditional (128 + ccOf op).
Proof. destruct op; reflexivity. Qed.
Lemma msb_sval size v : 0 < size -> msb size v = (sval size v <? 0).
Proof.
  intros P. pose proof (pow_half size P) as E. unfold msb, sval.
  pose proof (Z.mod_pos_bound v (2 ^ (8 * size)) ltac:(pose proof (Z.pow_pos_nonneg 2 (8 * size)); lia)) as B. fold (low size v) in B.
  destruct (Z.ltb_spec (low size v) (2 ^ (8 * size - 1))); cbn [negb]; symmetry; [apply Z.ltb_ge|apply Z.ltb_lt]; lia.
Qed.
Lemma sval_diff size X Y : 0 < size ->
  - 2 ^ (8 * size - 1) <= X < 2 ^ (8 * size - 1) -> - 2 ^ (8 * size - 1) <= Y < 2 ^ (8 * size - 1) ->
  exists D, sval size (X - Y) = D /\ - 2 ^ (8 * size - 1) <= D < 2 ^ (8 * size - 1) /\
    (D = X - Y \/ D = X - Y - 2 * 2 ^ (8 * size - 1) \/ D = X - Y + 2 * 2 ^ (8 * size - 1)).
Proof.
  intros P HX HY. eexists. split; [reflexivity|]. split; [apply sval_range; assumption|].
  pose proof (pow_half size P) as E.
  destruct (Z.lt_ge_cases (X - Y) (- 2 ^ (8 * size - 1))) as [L|L]; [|destruct (Z.lt_ge_cases (X - Y) (2 ^ (8 * size - 1))) as [L2|L2]].
  - right. right. rewrite <- (sval_small size (X - Y + 2 * 2 ^ (8 * size - 1))); [|assumption|lia].
    apply sval_of_low. unfold low. rewrite <- E.
    replace (X - Y + 2 ^ (8 * size)) with (X - Y + 1 * 2 ^ (8 * size)) by lia. symmetry. apply Z_mod_plus_full.
  - left. apply sval_small; [assumption|lia].
  - right. left. rewrite <- (sval_small size (X - Y - 2 * 2 ^ (8 * size - 1))); [|assumption|lia].
    apply sval_of_low. unfold low. rewrite <- E.
    replace (X - Y - 2 ^ (8 * size)) with (X - Y + (-1) * 2 ^ (8 * size)) by lia. symmetry. apply Z_mod_plus_full.
Qed.
Lemma cond_cmp op size x y : word size ->
  cond (ccOf op) (snd (aluResult Cmp size x y)) = rel op (sval size x) (sval size y).
Proof.
  intros Hs. pose proof (word_pos _ Hs) as P.
  assert (E : sval size (x - y) = sval size (sval size x - sval size y)).
  { apply lowOp_cong; [exact (fun2_low Sub)|lia|symmetry; apply low_sval; lia|symmetry; apply low_sval; lia]. }
  destruct (sval_diff size _ _ P (sval_range size x P) (sval_range size y P)) as (D & ED & RD & CD).
  pose proof (sval_range size x P) as RX. pose proof (sval_range size y P) as RY.
  pose proof (Z.pow_pos_nonneg 2 (8 * size - 1) ltac:(lia) ltac:(lia)) as P2.
  assert (Zf : (low size (x - y) =? 0) = (sval size x =? sval size y)).
  { replace (low size (x - y) =? 0) with (D =? 0).
    - destruct (Z.eqb_spec D 0), (Z.eqb_spec (sval size x) (sval size y)); auto; lia.
    - assert (L : low size (x - y) = low size D) by (rewrite <- ED, <- E; symmetry; apply low_sval; lia).
      rewrite L. destruct (Z.eqb_spec D 0) as [->|N]; [reflexivity|]. symmetry. apply Z.eqb_neq. intros F.
      apply N. rewrite <- (sval_small size D P RD). unfold sval. rewrite F. destruct (Z.ltb_spec 0 (2 ^ (8 * size - 1))); lia. }
  cbn [aluResult snd]. unfold flagsOf. rewrite msb_sval, E, ED, Zf by assumption.
  destruct op; cbn [ccOf cond rel zf sf ovf Z.odd Z.div]; cbn.
  - reflexivity.
  - reflexivity.
  - destruct (Z.ltb_spec D 0), (Z.eqb_spec (sval size x - sval size y) D), (Z.ltb_spec (sval size x) (sval size y)); cbn; auto; lia.
  - destruct (Z.ltb_spec D 0), (Z.eqb_spec (sval size x - sval size y) D), (Z.eqb_spec (sval size x) (sval size y)), (Z.ltb_spec (sval size y) (sval size x)); cbn; auto; lia.
  - destruct (Z.ltb_spec D 0), (Z.eqb_spec (sval size x - sval size y) D), (Z.eqb_spec (sval size x) (sval size y)), (Z.leb_spec (sval size x) (sval size y)); cbn; auto; lia.
  - destruct (Z.ltb_spec D 0), (Z.eqb_spec (sval size x - sval size y) D), (Z.leb_spec (sval size y) (sval size x)); cbn; auto; lia.
Qed.

Section Branch.
Context (forder : Z -> Z -> Z -> order) (farith : Z -> Z -> Z -> Z -> Z).
Notation runs := (runs forder farith).
Notation exec := (exec forder farith).
Notation does := (does forder farith).
Notation does2 := (does2 forder farith).
Ltac norm := intros; rewrite <- ?app_assoc.

Definition compares (code rs : list Z) (x y : Z) (s : state) : Prop :=
  exists s', does code s s' /\ (forall op, cond (ccOf op) (flg s') = rel op x y) /\ onlyGpr rs s s'.
Lemma compares_branch code rs x y s op : compares code rs x y s ->
  exists s', runs (code ++ branch op) s (if rel op x y then Jumped s' else Fell s') /\ onlyGpr rs s s'.
Proof.
  intros (s' & D & C & O). exists s'. split; [|exact O]. apply D. specialize (C op).
  rewrite branch_cc. rewrite <- (app_nil_r (conditional _)).
  assert (R : 0 <= ccOf op < 16) by (destruct op; cbn; lia).
  destruct (rel op x y).
  - eapply RunJump; [apply d_jcc; assumption|exact C].
  - eapply RunNoJump; [apply d_jcc; assumption|exact C|apply RunEnd].
Qed.
Lemma compareRR_ok size a b s : word size -> okReg a -> okReg b ->
  compares (compareRR size a b) [] (int size s b) (int size s a) s.
Proof.
  intros Hs Ha Hb. eexists. split; [|split].
  - eapply does_step; [intros; apply (d_aluRR 57 Cmp); try assumption; tauto|reflexivity].
  - intros op. change (flg (doAlu Cmp size s (Reg b) (readOp size s (Reg a)))) with (snd (aluResult Cmp size (low size (gpr s b)) (low size (gpr s a)))).
    rewrite cond_cmp, !sval_low by assumption. reflexivity.
  - repeat split.
Qed.
Lemma compareCR_ok tmp size v b s : word size -> okReg tmp -> okReg b -> tmp <> b -> okConst v ->
  compares (compareCR tmp size v b) [tmp] (int size s b) (sval size v) s.
Proof.
  intros Hs Ht Hb N Hv. unfold compareCR, aluC. destruct (fitsInInt32 v) eqn:F32.
  - assert (D : forall r, decode ((maybeRexR size b ++ (if fitsInInt8 v then [131; 248 + regCode b] ++ append1 v
          else [129; 248 + regCode b] ++ append4 v)) ++ r) = Some (IAluImm Cmp size (Reg b) v, r)).
    { destruct (fitsInInt8 v) eqn:F8; intros r; rewrite <- !app_assoc.
      - rewrite (d_aluC8 7 Cmp), fits8 by (assumption || reflexivity || lia). reflexivity.
      - rewrite (d_aluC32 7 Cmp), fits32 by (assumption || reflexivity || lia). reflexivity. }
    eexists. split; [|split].
    + eapply does_step; [exact D|reflexivity].
    + intros op. change (flg (doAlu Cmp size s (Reg b) (low size v))) with (snd (aluResult Cmp size (low size (gpr s b)) (low size v))).
      rewrite cond_cmp, !sval_low by assumption. reflexivity.
    + repeat split.
  - unfold moveCR. rewrite okReg_float by assumption.
    set (s1 := writeOp 8 s (Reg tmp) (sval 8 (signExtend size v))).
    destruct (compareRR_ok size tmp b s1 Hs Ht Hb) as (s2 & D & C & O). exists s2. split; [|split].
    + eapply does_app; [apply does_moveCR2; assumption|exact D].
    + intros op. rewrite C. f_equal.
      * unfold int, s1. cbn [writeOp gpr]. rewrite set_other by auto. reflexivity.
      * unfold int, s1. cbn [writeOp gpr]. rewrite set_same.
        change (merge 8 (gpr s tmp) (sval 8 (signExtend size v))) with (low 8 (sval 8 (signExtend size v))).
        rewrite sval_low8 by (destruct Hs; auto). apply signExtend_low; assumption.
    + eapply onlyGpr_trans; [apply onlyGpr_write|]. eapply onlyGpr_incl, O. intros x [].
Qed.
Lemma compareRM_ok size a m s : word size -> okReg a -> okMem m ->
  (size = 4 -> mbase m <> a /\ mindex m <> Some a) ->
  compares (compareRM size a m) [a] (memInt size s (ea s m)) (int size s a) s.
Proof.
  intros Hs Ha Hm N. unfold compareRM.
  assert (H : forall s1, compares (maybeRexRM size a m ++ [57] ++ modrmSibImm a m) [] (memInt size s1 (ea s1 m)) (int size s1 a) s1).
  { intros s1. eexists. split; [|split].
    - eapply does_step; [norm; apply d_cmpRM; assumption|reflexivity].
    - intros op. change (flg (doAlu Cmp size s1 (memOp m) (readOp size s1 (Reg a)))) with (snd (aluResult Cmp size (readOp size s1 (memOp m)) (low size (gpr s1 a)))).
      rewrite cond_cmp, readOp_mem, sval_low by assumption. reflexivity.
    - repeat split. }
  destruct Hs as [-> | ->]; cbn [Z.eqb Pos.eqb].
  - destruct (N eq_refl) as [N1 N2].
    destruct (moveRR_ok forder farith 4 a 8 a s) as (s1 & D1 & V1 & O1); [right; auto|assumption|assumption|].
    destruct (H s1) as (s2 & D2 & C2 & O2). exists s2. split; [eapply does_app; eassumption|]. destruct O1 as (G1 & X1 & M1). split.
    + intros op. rewrite C2. f_equal.
      * unfold memInt. f_equal. replace (ea s1 m) with (ea s m).
        { change (Z.to_nat 4) with 4%nat. cbn [load]. rewrite !M1. reflexivity. }
        unfold ea. destruct (mindex m) as [i|]; rewrite ?G1; auto; cbn; intros [->|[]]; auto.
      * assert (E : sval 4 (int 8 s1 a) = sval 4 (int 4 s a)) by (rewrite V1; reflexivity).
        unfold int in E. rewrite (sval_sval 4) in E by lia. unfold int. rewrite <- E. symmetry.
        apply sval_of_low. rewrite <- (low_sval 4 (gpr s1 a)) by lia.
        rewrite <- (low_sval 4 (sval 8 (gpr s1 a))) by lia. f_equal.
        rewrite <- (sval_low8 4 (gpr s1 a)), <- (sval_low8 4 (sval 8 _)) by auto. rewrite low_sval by lia. reflexivity.
    + eapply onlyGpr_trans; [split; [exact G1|split; assumption]|]. eapply onlyGpr_incl, O2. intros x [].
  - destruct (H s) as (s2 & D2 & C2 & O2). exists s2. split; [exact D2|]. split; [exact C2|]. eapply onlyGpr_incl, O2. intros x [].
Qed.
Lemma compareCM_ok size v m s : word size -> okMem m -> fitsInInt32 v = true ->
  exists code, compareCM size v m = Ok code /\ compares code [] (memInt size s (ea s m)) (sval size v) s.
Proof.
  intros Hs Hm F32. unfold compareCM. rewrite F32.
  assert (D : exists code, (if fitsInInt8 v then Ok (maybeRexM size m ++ [131] ++ modrmSibImm rdi m ++ append1 v)
     else Ok (maybeRexM size m ++ [129] ++ modrmSibImm rdi m ++ append4 v)) = Ok code /\
     forall r, decode (code ++ r) = Some (IAluImm Cmp size (memOp m) v, r)).
  { destruct (fitsInInt8 v) eqn:F8; eexists; (split; [reflexivity|]); norm.
    - rewrite d_cmpCM8, fits8 by assumption. reflexivity.
    - rewrite d_cmpCM32, fits32 by assumption. reflexivity. }
  destruct D as (code & -> & D). exists code. split; [reflexivity|]. eexists. split; [|split].
  - eapply does_step; [exact D|reflexivity].
  - intros op. change (flg (doAlu Cmp size s (memOp m) (low size v))) with (snd (aluResult Cmp size (readOp size s (memOp m)) (low size v))).
    rewrite cond_cmp, readOp_mem, sval_low by assumption. reflexivity.
  - repeat split.
Qed.

(** ** Floating point *)
Definition relF (op : relation) (orUnordered : bool) (o : order) : bool :=
  match op, o with
  | JumpIfNotEqual, Unordered => true
  | JumpIfEqual, Unordered => false
  | _, Unordered => orUnordered
  | JumpIfEqual, _ => match o with Equal => true | _ => false end
  | JumpIfNotEqual, _ => match o with Equal => false | _ => true end
  | JumpIfLess, _ => match o with Less => true | _ => false end
  | JumpIfGreater, _ => match o with Greater => true | _ => false end
  | JumpIfLessOrEqual, _ => match o with Greater => false | _ => true end
  | JumpIfGreaterOrEqual, _ => match o with Less => false | _ => true end
  end.
Definition orderFlags (o : order) : flags :=
  match o with
  | Less => Flags false false false true false
  | Equal => Flags true false false false false
  | Greater => Flags false false false false false
  | Unordered => Flags true false false true true
  end.
(** the cases that also jump when unordered *)
Definition alsoUnordered (op : relation) (orUnordered : bool) (o : order) : bool :=
  match op, orUnordered, o with
  | JumpIfLess, false, Unordered | JumpIfLessOrEqual, false, Unordered => true
  | _, _, _ => false
  end.
Ltac jmp := match goal with |- X86_Spec.runs _ _ (conditional ?c ++ _) _ _ =>
  let cc := eval vm_compute in (c - 128) in
  first
  [ eapply RunJump; [exact (d_jcc cc _ (conj (Zle_bool_imp_le 0 cc eq_refl) eq_refl))|reflexivity]
  | eapply RunNoJump; [exact (d_jcc cc _ (conj (Zle_bool_imp_le 0 cc eq_refl) eq_refl))|reflexivity|] ] end.
Ltac jp := match goal with |- X86_Spec.runs _ _ ([122; 6] ++ _) _ _ =>
  first
  [ eapply RunNoShort; [exact (d_jp _)|reflexivity|]
  | eapply RunShort; [exact (d_jp _)|reflexivity|split; vm_compute; discriminate|] ] end.
Lemma branchFloat_ok op u s o : flg s = orderFlags o ->
  runs (branchFloat op u) s (if relF op u o || alsoUnordered op u o then Jumped s else Fell s).
Proof.
  intros F. rewrite <- (app_nil_r (branchFloat op u)).
  assert (N : runs [] s (Fell s)) by apply RunEnd.
  destruct s as [g x m f]. cbn in F. subst f.
  destruct op, u, o; cbn [relF alsoUnordered orb branchFloat]; rewrite <- ?app_assoc;
    try jp; repeat jmp; exact N.
Qed.
(** the registers compared *)
Lemma branchFloatRR_ok op u size a b s : word size ->
  exists s', runs (branchFloatRR op u size a b) s
    (if relF op u (forder size (low size (xmm s (swapTo b a))) (low size (xmm s (swapTo a b)))) ||
        alsoUnordered op u (forder size (low size (xmm s (swapTo b a))) (low size (xmm s (swapTo a b))))
     then Jumped s' else Fell s') /\ onlyGpr [] s s'.
Proof.
  intros Hs. unfold branchFloatRR.
  exists (setFlags s (orderFlags (forder size (low size (xmm s (swapTo b a))) (low size (xmm s (swapTo a b)))))).
  split; [|repeat split].
  eapply RunStep; [apply d_ucom; assumption|cbn [exec]; reflexivity|].
  fold (orderFlags (forder size (low size (xmm s (swapTo b a))) (low size (xmm s (swapTo a b))))).
  apply branchFloat_ok. reflexivity.
Qed.
Lemma onlyXmm_set s d v : onlyXmm d s (setXmm s d v).
Proof. split; [|split]; intros; cbn; auto. apply set_other. assumption. Qed.
Definition doesX (code : list Z) (size b v : Z) (s : state) : Prop :=
  exists s', does code s s' /\ low size (xmm s' b) = v /\ onlyXmm b s s'.
Lemma doesX_set code i size b v s :
  (forall r, decode (code ++ r) = Some (i, r)) -> exec i s = Some (setXmm s b v) -> doesX code size b (low size v) s.
Proof. intros D E. eexists. split; [eapply does_step; eassumption|]. split; [cbn; rewrite set_same; reflexivity|apply onlyXmm_set]. Qed.
Lemma doesX_eq code size b v w s : v = w -> doesX code size b v s -> doesX code size b w s.
Proof. intros ->. auto. Qed.
Lemma low_merge_x size x v : word size -> low size (x / 2 ^ (8 * size) * 2 ^ (8 * size) + v) = low size v.
Proof. intros Hs. unfold low. rewrite Z.add_comm. apply Z_mod_plus_full. Qed.
Lemma floatOp_ok o size a b s : okFloatOp o -> word size -> okXmm a -> okXmm b ->
  doesX (floatRegOp o size a b) size (b - 16) (low size (farith o size (low size (xmm s (b - 16))) (low size (xmm s (a - 16))))) s.
Proof.
  intros Ho Hs Ha Hb. eapply doesX_eq; [|eapply doesX_set; [intros; apply d_floatRR; assumption|reflexivity]].
  apply low_merge_x. assumption.
Qed.
Lemma floatMemOp_ok o size m b s : okFloatOp o -> word size -> okMem m -> okXmm b ->
  doesX (floatMemOp o size m b) size (b - 16) (low size (farith o size (low size (xmm s (b - 16))) (load (Z.to_nat size) (mem s) (ea s m)))) s.
Proof.
  intros Ho Hs Hm Hb. eapply doesX_eq; [|eapply doesX_set; [intros; apply d_floatMR; assumption|reflexivity]].
  etransitivity; [apply low_merge_x; assumption|]. cbv beta iota. rewrite readOp_mem. reflexivity.
Qed.
(** moves *)
Lemma moveGX_ok size a bSize b s : word size -> okReg a -> okXmm b ->
  doesX (moveRR size a bSize b) size (b - 16) (low size (gpr s a)) s.
Proof.
  intros Hs Ha Hb. unfold moveRR, sseMoveRR. rewrite (okReg_float a Ha), (okXmm_float b Hb). cbn [orb andb].
  eapply doesX_eq; [|eapply doesX_set; [norm; apply d_movdXG; assumption|reflexivity]]. apply low_low.
Qed.
Lemma moveXG_ok size a bSize b s : word size -> okXmm a -> okReg b ->
  does2 (moveRR size a bSize b) [b] size b (sval size (xmm s (a - 16))) s.
Proof.
  intros Hs Ha Hb. unfold moveRR, sseMoveRR. rewrite (okReg_float b Hb), (okXmm_float a Ha). cbn [orb andb].
  eapply does2_eq; [|eapply does2_write; [assumption|left; reflexivity|norm; apply d_movdGX; assumption|reflexivity]].
  apply sval_low.
Qed.
Lemma moveXX_ok size a bSize b s : word size -> okXmm a -> okXmm b -> (size = 4 -> has8 (Some a) = has8 (Some b)) ->
  doesX (moveRR size a bSize b) size (b - 16) (low size (xmm s (a - 16))) s.
Proof.
  intros Hs Ha Hb E. unfold moveRR, sseMoveRR. rewrite (okXmm_float a Ha), (okXmm_float b Hb). cbn [orb andb].
  destruct Hs as [-> | ->]; cbn [Z.eqb Pos.eqb].
  - specialize (E eq_refl). eapply doesX_eq; [|eapply doesX_set; [norm; rewrite d_movss, !swapTo_same by auto; reflexivity|reflexivity]].
    rewrite (low_merge_x 4) by (left; reflexivity). apply low_low.
  - eapply doesX_eq; [|eapply doesX_set; [norm; apply d_movsd; assumption|reflexivity]].
    rewrite (low_merge_x 8) by (right; reflexivity). apply low_low.
Qed.
Lemma loadX_ok size m bSize b s : word size -> okMem m -> okXmm b ->
  exists code, moveMR size m bSize b = Ok code /\ doesX code size (b - 16) (load (Z.to_nat size) (mem s) (ea s m)) s.
Proof.
  intros Hs Hm Hb. unfold moveMR. rewrite (okXmm_float b Hb). eexists. split; [reflexivity|].
  eapply doesX_eq; [|eapply doesX_set; [intros; apply d_loadX; assumption|reflexivity]].
  rewrite readOp_mem. apply Z.mod_small. pose proof (load_range (Z.to_nat size) (mem s) (ea s m)) as R.
  rewrite Z2Nat.id in R by (pose proof (word_pos _ Hs); lia). exact R.
Qed.
Lemma storeX_ok size a m s : word size -> okXmm a -> okMem m ->
  exists code s', moveRM size a m = Ok code /\ does code s s' /\ onlyStore [] size (ea s m) (xmm s (a - 16)) s s'.
Proof.
  intros Hs Ha Hm. unfold moveRM. rewrite (okXmm_float a Ha). eexists _, _. split; [reflexivity|]. split.
  - eapply does_step; [intros; apply d_storeX; assumption|reflexivity].
  - rewrite writeOp_mem. split; [|split]; intros; cbn; auto. apply store_low; [unfold okSize; destruct Hs; auto|]. apply low_low.
Qed.
(** sign changes, in place *)
Lemma maskX_ok gtmp tmp v s : okReg gtmp -> okXmm tmp -> 0 <= v < 2 ^ 32 ->
  exists s1, does (moveCR gtmp 4 v tmp) s s1 /\ xmm s1 (tmp - 16) = v /\
    (forall q, q <> tmp - 16 -> xmm s1 q = xmm s q) /\ (forall r, r <> gtmp -> gpr s1 r = gpr s r) /\ (forall x, mem s1 x = mem s x).
Proof.
  intros Hg Ht Hv. unfold moveCR. rewrite (okXmm_float tmp Ht).
  set (s0 := writeOp 8 s (Reg gtmp) (sval 8 (signExtend 4 v))).
  assert (D : does (sseMoveRR 4 gtmp tmp) s0 (setXmm s0 (tmp - 16) (readOp 4 s0 (Reg gtmp)))).
  { unfold sseMoveRR. rewrite (okReg_float gtmp Hg). cbn [andb].
    eapply does_step; [norm; apply d_movdXG; [left; reflexivity|assumption|assumption]|reflexivity]. }
  eexists. split; [eapply does_app; [apply does_moveCR2; assumption|exact D]|]. split; [|split; [|split]]; intros; cbn.
  - rewrite set_same, set_same. change (low 4 (low 8 (sval 8 (signExtend 4 v))) = v).
    rewrite low_sval by lia. rewrite signExtend_sval by auto.
    assert (E : low 4 (low 8 (sval 4 v)) = low 4 (sval 4 v)).
    { apply low_of_sval; [lia|]. apply sval_low8. auto. }
    rewrite E, low_sval by lia. apply Z.mod_small. exact Hv.
  - rewrite set_other by auto. reflexivity.
  - rewrite set_other by auto. reflexivity.
  - reflexivity.
Qed.
Lemma floatNegate_ok gtmp tmp a s : okReg gtmp -> okXmm tmp -> okXmm a -> tmp <> a ->
  exists s', does (floatNegateRR gtmp tmp a a) s s' /\ xmm s' (a - 16) = Z.lxor (xmm s (a - 16)) (2 ^ 31) /\
    (forall q, q <> a - 16 -> q <> tmp - 16 -> xmm s' q = xmm s q) /\ (forall r, r <> gtmp -> gpr s' r = gpr s r) /\ (forall x, mem s' x = mem s x).
Proof.
  intros Hg Ht Ha N. unfold floatNegateRR. rewrite Z.eqb_refl.
  destruct (maskX_ok gtmp tmp 2147483648 s Hg Ht ltac:(lia)) as (s1 & D1 & V1 & X1 & G1 & M1).
  eexists. split; [eapply does_app; [exact D1|eapply does_step; [norm; apply d_xorps; assumption|reflexivity]]|].
  split; [|split; [|split]]; intros; cbn [setXmm xmm gpr mem]; auto.
  - rewrite set_same, V1, X1 by lia. reflexivity.
  - rewrite set_other by auto. auto.
Qed.
Lemma floatAbsolute_ok gtmp tmp a s : okReg gtmp -> okXmm tmp -> okXmm a -> tmp <> a ->
  exists s', does (floatAbsoluteRR gtmp tmp a a) s s' /\ xmm s' (a - 16) = Z.land (xmm s (a - 16)) (2 ^ 31 - 1) /\
    (forall q, q <> a - 16 -> q <> tmp - 16 -> xmm s' q = xmm s q) /\ (forall r, r <> gtmp -> gpr s' r = gpr s r) /\ (forall x, mem s' x = mem s x).
Proof.
  intros Hg Ht Ha N. unfold floatAbsoluteRR. rewrite Z.eqb_refl.
  destruct (maskX_ok gtmp tmp 2147483647 s Hg Ht ltac:(lia)) as (s1 & D1 & V1 & X1 & G1 & M1).
  eexists. split; [eapply does_app; [exact D1|eapply does_step; [norm; apply d_andps; assumption|reflexivity]]|].
  split; [|split; [|split]]; intros; cbn [setXmm xmm gpr mem]; auto.
  - rewrite set_same, V1, X1 by lia. reflexivity.
  - rewrite set_other by auto. auto.
Qed.
End Branch.
