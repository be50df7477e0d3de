(** How the interpreter's memory represents a JVM state, and what its primitives do to that. *)
From Verif Require Import Base Res Bits Interp_Types Interp_Model Jvm_Spec Interp_Obs Interp_Spec.
Import ListNotations.
Local Open Scope N_scope.

(** * Integers *)
Lemma pow_half : forall w, (0 < w)%Z -> (2 ^ w = 2 * 2 ^ (w - 1) /\ 0 < 2 ^ (w - 1))%Z.
Proof.
  intros w Hw. split; [|apply Z.pow_pos_nonneg; lia].
  rewrite <- Z.pow_succ_r by lia. f_equal. lia.
Qed.

Lemma sgn_range : forall w z, (0 < w)%Z -> inI w (sgn w z) = true.
Proof.
  intros w z Hw. destruct (pow_half w Hw) as [E P].
  unfold inI, sgn, minI, maxI. pose proof (Z.mod_pos_bound z (2 ^ w) ltac:(lia)).
  destruct (z mod 2 ^ w <? 2 ^ (w - 1))%Z eqn:C; lia.
Qed.

Lemma sgn_id : forall w z, (0 < w)%Z -> inI w z = true -> sgn w z = z.
Proof.
  intros w z Hw H. destruct (pow_half w Hw) as [E P].
  unfold inI, minI, maxI in H. unfold sgn.
  destruct (Z.ltb_spec z 0).
  - replace (z mod 2 ^ w)%Z with (z + 2 ^ w)%Z.
    + destruct (Z.ltb_spec (z + 2 ^ w) (2 ^ (w - 1))); lia.
    + rewrite <- (Z.mod_small (z + 2 ^ w) (2 ^ w)) by lia.
      rewrite <- (Z.mul_1_l (2 ^ w)) at 1. rewrite Z.mod_add by lia. reflexivity.
  - rewrite Z.mod_small by lia. destruct (Z.ltb_spec z (2 ^ (w - 1))); lia.
Qed.

Lemma mod_sgn : forall w z, (0 < w)%Z -> (sgn w z mod 2 ^ w = z mod 2 ^ w)%Z.
Proof.
  intros w z Hw. destruct (pow_half w Hw) as [E P]. unfold sgn.
  destruct (z mod 2 ^ w <? 2 ^ (w - 1))%Z.
  - apply Z.mod_mod. lia.
  - replace (z mod 2 ^ w - 2 ^ w)%Z with (z mod 2 ^ w + (-1) * 2 ^ w)%Z by lia.
    rewrite Z.mod_add by lia. apply Z.mod_mod. lia.
Qed.

Lemma ubits_sgn : forall w z, (0 < w)%Z -> ubits w (sgn w z) = ubits w z.
Proof. intros. unfold ubits. rewrite mod_sgn by assumption. reflexivity. Qed.

Lemma ubits_lt : forall w z, (0 < w)%Z -> (Z.of_N (ubits w z) < 2 ^ w)%Z.
Proof.
  intros w z Hw. destruct (pow_half w Hw). unfold ubits.
  pose proof (Z.mod_pos_bound z (2 ^ w) ltac:(lia)). lia.
Qed.

Lemma of_ubits : forall w z, (0 < w)%Z -> Z.of_N (ubits w z) = (z mod 2 ^ w)%Z.
Proof.
  intros w z Hw. destruct (pow_half w Hw). unfold ubits.
  pose proof (Z.mod_pos_bound z (2 ^ w) ltac:(lia)). lia.
Qed.

Lemma sgn_mod : forall w z, (0 < w)%Z -> sgn w (z mod 2 ^ w) = sgn w z.
Proof. intros w z Hw. destruct (pow_half w Hw). unfold sgn. rewrite Z.mod_mod by lia. reflexivity. Qed.

Lemma sbits_ubits : forall w z, (0 < w)%Z -> inI w z = true -> sbits w (ubits w z) = z.
Proof.
  intros w z Hw H. unfold sbits. rewrite of_ubits, sgn_mod by assumption. apply sgn_id; assumption.
Qed.

Lemma sbits_ubits_sgn : forall w z, (0 < w)%Z -> sbits w (ubits w z) = sgn w z.
Proof. intros w z Hw. unfold sbits. rewrite of_ubits, sgn_mod by assumption. reflexivity. Qed.

Lemma ubits_sbits : forall w n, (0 < w)%Z -> (Z.of_N n < 2 ^ w)%Z -> ubits w (sbits w n) = n.
Proof.
  intros w n Hw H. unfold sbits. rewrite ubits_sgn by assumption. unfold ubits.
  rewrite Z.mod_small by lia. lia.
Qed.

Lemma sgn_congr : forall w a b, (0 < w)%Z -> (a mod 2 ^ w = b mod 2 ^ w)%Z -> sgn w a = sgn w b.
Proof. intros w a b Hw H. unfold sgn. rewrite H. reflexivity. Qed.

Lemma ubits_congr : forall w a b, (a mod 2 ^ w = b mod 2 ^ w)%Z -> ubits w a = ubits w b.
Proof. intros w a b H. unfold ubits. rewrite H. reflexivity. Qed.

Lemma inI32 : forall z, inI 32 z = true <-> (-2147483648 <= z <= 2147483647)%Z.
Proof. intros z. unfold inI, minI, maxI. change (2 ^ (32 - 1))%Z with 2147483648%Z. lia. Qed.
Lemma inI64 : forall z, inI 64 z = true <-> (-9223372036854775808 <= z <= 9223372036854775807)%Z.
Proof. intros z. unfold inI, minI, maxI. change (2 ^ (64 - 1))%Z with 9223372036854775808%Z. lia. Qed.

Lemma u32_lt : forall z, u32 z < 2 ^ 32.
Proof. intros z. pose proof (ubits_lt 32 z ltac:(lia)). change (2 ^ 32)%Z with (Z.of_N (2 ^ 32)) in H. lia. Qed.
Lemma u64_lt : forall z, u64 z < 2 ^ 64.
Proof. intros z. pose proof (ubits_lt 64 z ltac:(lia)). change (2 ^ 64)%Z with (Z.of_N (2 ^ 64)) in H. lia. Qed.

Definition hi32 (n : N) : N := N.shiftr n 32.
Definition lo32 (n : N) : N := N.land n 0xFFFFFFFF.

Lemma join32 : forall n, N.lor (N.shiftl (hi32 n) 32) (lo32 n) = n.
Proof.
  intros n. unfold hi32, lo32. change 0xFFFFFFFF with (N.ones 32).
  rewrite N.land_ones, N.shiftl_mul_pow2, N.shiftr_div_pow2.
  apply N.bits_inj. intros i. rewrite N.lor_spec.
  destruct (N.lt_ge_cases i 32) as [L | G].
  - rewrite N.mul_pow2_bits_low by assumption. rewrite N.mod_pow2_bits_low by assumption. reflexivity.
  - rewrite N.mod_pow2_bits_high by assumption. rewrite orb_false_r.
    rewrite N.mul_pow2_bits_high by assumption. rewrite N.div_pow2_bits.
    f_equal. lia.
Qed.

(** * Representation of values *)
Definition vrel (mem : N -> slot) (i : N) (v : val) : Prop :=
  match v with
  | VInt z => mem i = (IntTag, u32 z)
  | VFlt b => mem i = (IntTag, b)
  | VRef o => mem i = (ObjectTag, o)
  | VRet p => mem i = (IntTag, p)
  | VLong z => mem i = (IntTag, hi32 (u64 z)) /\ mem (i + 1) = (IntTag, lo32 (u64 z))
  | VDbl b => mem i = (IntTag, hi32 b) /\ mem (i + 1) = (IntTag, lo32 b)
  end.


Lemma vsize_pos : forall v, 1 <= vsize v <= 2.
Proof. intros v. unfold vsize. destruct (cat2 v); lia. Qed.

Lemma vrel_ext : forall mem mem' i v,
  vrel mem i v -> (forall j, i <= j < i + vsize v -> mem' j = mem j) -> vrel mem' i v.
Proof.
  intros mem mem' i v H X. destruct v; unfold vsize in X; simpl in *;
    try (rewrite X by lia; assumption);
    destruct H; split; rewrite X by lia; assumption.
Qed.

(** [stk] (top first) occupies the slots lo .. sp-1. *)
Fixpoint stkRel (mem : N -> slot) (lo : N) (st : list val) (sp : N) : Prop :=
  match st with
  | [] => sp = lo
  | v :: r =>
      lo + vsize v <= sp /\ vrel mem (sp - vsize v) v /\ valOk v /\ stkRel mem lo r (sp - vsize v)
  end.

Lemma stkRel_depth : forall mem lo st sp, stkRel mem lo st sp -> sp = lo + depth st.
Proof.
  intros mem lo st. induction st as [|v r IH]; intros sp H; simpl in *; [lia|].
  destruct H as (A & _ & _ & B). apply IH in B. fold (depth r). lia.
Qed.

Lemma stkRel_ext : forall mem mem' lo st sp,
  stkRel mem lo st sp -> (forall j, lo <= j < sp -> mem' j = mem j) -> stkRel mem' lo st sp.
Proof.
  intros mem mem' lo st. induction st as [|v r IH]; intros sp H X; simpl in *; [assumption|].
  destruct H as (A & B & C & D). pose proof (vsize_pos v).
  split; [assumption|]. split.
  - eapply vrel_ext; [eassumption|]. intros j Hj. apply X. lia.
  - split; [assumption|]. apply IH; [assumption|]. intros j Hj. apply X. lia.
Qed.

Definition locRel (mem : N -> slot) (base n : N) (loc : N -> option val) : Prop :=
  forall i v, loc i = Some v -> i + vsize v <= n /\ vrel mem (base + i) v /\ valOk v.

Definition monOk (E : env) (f : jframe) : Prop :=
  let M := e_method E (j_m f) in
  if m_sync M then
    if m_static M then j_mon f = Some (m_jclass M) else exists o, j_mon f = Some o
  else j_mon f = None.

(** Frame [f] has its record at [fr], its locals at [base] and its operands up to [lim]. *)
Record frameAt (E : env) (mem : N -> slot) (sz : N) (f : jframe) (fr lim base : N) (nxt : Z) : Prop := {
  fa_fr : fr = base + m_maxLocals (e_method E (j_m f));
  fa_base : mem fr = (IntTag, base);
  fa_next : mem (fr + 1) = (IntTag, u32 nxt);
  fa_meth : mem (fr + 2) = (ObjectTag, j_m f);
  fa_ip : fst (mem (fr + 3)) = IntTag;
  fa_loc : locRel mem base (m_maxLocals (e_method E (j_m f))) (j_loc f);
  fa_stk : stkRel mem (fr + 4) (j_stk f) lim;
  fa_depth : depth (j_stk f) <= m_maxStack (e_method E (j_m f));
  fa_room : fr + 4 + m_maxStack (e_method E (j_m f)) <= sz;
  fa_mon : monOk E f;
  fa_pc : isBoundary (m_code (e_method E (j_m f))) (j_pc f) = true
}.

(** The frames below the one at [fr]; [nxt] is its saved link, [lim] its base. *)
Fixpoint callers (E : env) (mem : N -> slot) (sz : N) (bot : Z)
         (rest : list jframe) (fr nxt : Z) (lim : N) : Prop :=
  match rest with
  | [] =>
      fr = bot /\ (-1 <= nxt < bot)%Z /\
      ((0 <= nxt)%Z -> Z.to_N nxt + 4 <= lim /\
         fst (mem (Z.to_N nxt + 2)) = ObjectTag /\ fst (mem (Z.to_N nxt + 3)) = IntTag)
  | g :: rest' =>
      (bot <= nxt < fr)%Z /\ (0 <= nxt)%Z /\
      (exists l, ilen (m_code (e_method E (j_m g))) (j_pc g) = Some l /\
                 mem (Z.to_N nxt + 3) = (IntTag, j_pc g + l)) /\
      exists base' nxt',
        frameAt E mem sz g (Z.to_N nxt) lim base' nxt' /\
        callers E mem sz bot rest' nxt nxt' base'
  end.

Lemma frameAt_lim : forall E mem sz f fr lim base nxt,
  frameAt E mem sz f fr lim base nxt -> base <= fr /\ fr + 4 <= lim <= sz /\ lim = fr + 4 + depth (j_stk f).
Proof.
  intros E mem sz f fr lim base nxt H. destruct H. apply stkRel_depth in fa_stk0. lia.
Qed.

Lemma frameAt_ext : forall E mem mem' sz f fr lim base nxt,
  frameAt E mem sz f fr lim base nxt -> (forall j, j < lim -> mem' j = mem j) ->
  frameAt E mem' sz f fr lim base nxt.
Proof.
  intros E mem mem' sz f fr lim base nxt H X.
  pose proof (frameAt_lim _ _ _ _ _ _ _ _ H) as (L1 & L2 & L3). destruct H.
  constructor; try assumption; try (rewrite X by lia; assumption).
  - intros i v Hv. destruct (fa_loc0 i v Hv) as (A & B & C). split; [assumption|]. split; [|assumption].
    eapply vrel_ext; [eassumption|]. intros j Hj. apply X. lia.
  - eapply stkRel_ext; [eassumption|]. intros j Hj. apply X. lia.
Qed.

Lemma callers_ext : forall E mem mem' sz bot rest fr nxt lim,
  callers E mem sz bot rest fr nxt lim -> (forall j, j < lim -> mem' j = mem j) ->
  callers E mem' sz bot rest fr nxt lim.
Proof.
  intros E mem mem' sz bot rest. induction rest as [|g rest IH]; intros fr nxt lim H X; simpl in *.
  - destruct H as (A & B & C). split; [assumption|]. split; [assumption|].
    intros P. destruct (C P) as (C1 & C2 & C3). split; [assumption|].
    split; rewrite X by lia; assumption.
  - destruct H as (A & B & (l & C1 & C2) & base' & nxt' & F & R).
    pose proof (frameAt_lim _ _ _ _ _ _ _ _ F) as (L1 & L2 & L3).
    split; [assumption|]. split; [assumption|]. split.
    + exists l. split; [assumption|]. rewrite X by lia. assumption.
    + exists base', nxt'. split; [eapply frameAt_ext; eassumption|].
      apply IH with (1 := R). intros j Hj. apply X. lia.
Qed.

(** The interpreter state [s] represents the frames f :: rest, except for the program counter
    of f: the interpreter's ip is [i]; [x] is the pending exception (0: none). *)
Definition Rst (E : env) (bot : Z) (x : N) (s : cst) (i : N) (h : heap) (lg : list mev) (f : jframe) (rest : list jframe) : Prop :=
  ip s = i /\ hp s = h /\ log s = lg /\ cur s = j_m f /\ exc s = x /\ ssz s < 2 ^ 31 /\
  (0 <= frm s)%Z /\ (0 <= bot)%Z /\
  exists base nxt,
    frameAt E (mem s) (ssz s) f (Z.to_N (frm s)) (sp s) base nxt /\
    callers E (mem s) (ssz s) bot rest (frm s) nxt base.

Definition wst (f : jframe) (st : list val) : jframe :=
  {| j_m := j_m f; j_pc := j_pc f; j_loc := j_loc f; j_stk := st; j_mon := j_mon f |}.
Definition wloc (f : jframe) (loc : N -> option val) : jframe :=
  {| j_m := j_m f; j_pc := j_pc f; j_loc := loc; j_stk := j_stk f; j_mon := j_mon f |}.

Definition maxSt (E : env) (f : jframe) : N := m_maxStack (e_method E (j_m f)).
Definition maxLo (E : env) (f : jframe) : N := m_maxLocals (e_method E (j_m f)).

Definition valTag (v : val) : N := match v with VRef _ => ObjectTag | _ => IntTag end.

Section Prim.
Variables (E : env) (bot : Z) (x : N).

(** Pop of a one-slot value *)
Lemma popSlot_ok : forall s i h lg f rest v st,
  Rst E bot x s i h lg (wst f (v :: st)) rest -> cat2 v = false ->
  exists s', popSlot s (valTag v) = Ok (valBits v, s') /\ Rst E bot x s' i h lg (wst f st) rest /\ valOk v
             /\ s' = setSp s (sp s - 1) /\ mem s (sp s - 1) = (valTag v, valBits v) /\ 1 <= sp s <= ssz s.
Proof.
  intros s i h lg f rest v st (A1 & A2 & A3 & A4 & A5 & A6 & A7 & A8 & base & nxt & F & C) Hc.
  pose proof (frameAt_lim _ _ _ _ _ _ _ _ F) as (L1 & L2 & L3).
  destruct F. cbn [j_m j_stk wst j_loc j_pc j_mon] in *.
  destruct fa_stk0 as (S1 & S2 & S3 & S4). unfold vsize in *. rewrite Hc in *.
  assert (M : mem s (sp s - 1) = (valTag v, valBits v)).
  { destruct v; simpl in *; try discriminate; assumption. }
  exists (setSp s (sp s - 1)). split.
  - unfold popSlot, below. replace (1 <=? sp s) with true by lia. cbn [bind].
    unfold rdSlot. replace (sp s - 1 <? ssz s) with true by lia. cbn [bind]. rewrite M. cbn [fst snd].
    rewrite N.eqb_refl. reflexivity.
  - split; [|split; [assumption|split; [reflexivity|split; [assumption|lia]]]].
    unfold Rst. cbn [ip hp log cur exc ssz frm mem sp setSp].
    do 8 (split; [assumption|]).
    exists base, nxt. split; [|assumption].
    constructor; cbn [j_m j_stk wst j_loc j_pc j_mon]; try assumption.
    cbn [j_stk wst] in fa_depth0. simpl in fa_depth0. fold (depth st) in fa_depth0. unfold vsize in fa_depth0. rewrite Hc in fa_depth0. lia.
Qed.

Lemma popInt_ok : forall s i h lg f rest v st,
  Rst E bot x s i h lg (wst f (v :: st)) rest -> cat2 v = false -> valTag v = IntTag ->
  exists s', popInt s = Ok (valBits v, s') /\ Rst E bot x s' i h lg (wst f st) rest /\ valOk v.
Proof.
  intros s i h lg f rest v st H Hc Ht. destruct (popSlot_ok _ _ _ _ _ _ _ _ H Hc) as (s' & P & R & V & _).
  exists s'. unfold popInt. rewrite <- Ht. auto.
Qed.

Lemma popObject_ok : forall s i h lg f rest o st,
  Rst E bot x s i h lg (wst f (VRef o :: st)) rest ->
  exists s', popObject s = Ok (o, s') /\ Rst E bot x s' i h lg (wst f st) rest /\ o < 2 ^ 64.
Proof.
  intros s i h lg f rest o st H. destruct (popSlot_ok _ _ _ _ _ _ _ _ H eq_refl) as (s' & P & R & V & _).
  exists s'. auto.
Qed.

Lemma popLong_ok : forall s i h lg f rest v st,
  Rst E bot x s i h lg (wst f (v :: st)) rest -> cat2 v = true ->
  exists s', popLong s = Ok (valBits v, s') /\ Rst E bot x s' i h lg (wst f st) rest /\ valOk v.
Proof.
  intros s i h lg f rest v st (A1 & A2 & A3 & A4 & A5 & A6 & A7 & A8 & base & nxt & F & C) Hc.
  pose proof (frameAt_lim _ _ _ _ _ _ _ _ F) as (L1 & L2 & L3).
  destruct F. cbn [j_m j_stk wst j_loc j_pc j_mon] in *.
  destruct fa_stk0 as (S1 & S2 & S3 & S4). unfold vsize in *. rewrite Hc in *.
  assert (M : mem s (sp s - 2) = (IntTag, hi32 (valBits v)) /\ mem s (sp s - 1) = (IntTag, lo32 (valBits v))).
  { replace (sp s - 1) with (sp s - 2 + 1) by lia. destruct v; simpl in *; try discriminate; assumption. }
  destruct M as [M2 M1].
  exists (setSp (setSp s (sp s - 1)) (sp s - 1 - 1)). split.
  - unfold popLong, popInt, popSlot, below. replace (1 <=? sp s) with true by lia. cbn [bind].
    unfold rdSlot. replace (sp s - 1 <? ssz s) with true by lia. cbn [bind]. rewrite M1. cbn [fst snd].
    rewrite N.eqb_refl. cbn [bind sp setSp mem ssz]. replace (1 <=? sp s - 1) with true by lia. cbn [bind].
    replace (sp s - 1 - 1 <? ssz s) with true by lia. cbn [bind].
    replace (sp s - 1 - 1) with (sp s - 2) by lia. rewrite M2. cbn [fst snd]. rewrite N.eqb_refl. cbn [bind].
    rewrite join32. reflexivity.
  - replace (sp s - 1 - 1) with (sp s - 2) by lia. split; [|assumption].
    unfold Rst. cbn [ip hp log cur exc ssz frm mem sp setSp].
    do 8 (split; [assumption|]).
    exists base, nxt. split; [|assumption].
    constructor; cbn [j_m j_stk wst j_loc j_pc j_mon]; try assumption.
    simpl in fa_depth0. fold (depth st) in fa_depth0. unfold vsize in fa_depth0. rewrite Hc in fa_depth0. lia.
Qed.

(** Changing memory in the operand area at or above the stack pointer *)
Lemma Rst_write_above : forall s i h lg f rest st mem' sp' v,
  Rst E bot x s i h lg (wst f st) rest ->
  (forall j, j < sp s -> mem' j = mem s j) ->
  sp' = sp s + vsize v -> vrel mem' (sp s) v -> valOk v ->
  depth (v :: st) <= maxSt E f ->
  forall s', mem s' = mem' -> sp s' = sp' -> ssz s' = ssz s -> frm s' = frm s -> ip s' = i ->
             cur s' = cur s -> exc s' = exc s -> hp s' = h -> log s' = lg ->
  Rst E bot x s' i h lg (wst f (v :: st)) rest.
Proof.
  intros s i h lg f rest st mem' sp' v (A1 & A2 & A3 & A4 & A5 & A6 & A7 & A8 & base & nxt & F & C) X Hsp V VO D
         s' E1 E2 E3 E4 E5 E6 E7 E8 E9.
  pose proof (frameAt_lim _ _ _ _ _ _ _ _ F) as (L1 & L2 & L3).
  assert (F' := frameAt_ext _ _ mem' _ _ _ _ _ _ F X).
  unfold Rst. rewrite E1, E2, E3, E4. subst sp'.
  split; [assumption|]. split; [assumption|]. split; [assumption|].
  split; [rewrite E6; exact A4|]. split; [rewrite E7; assumption|]. do 3 (split; [assumption|]).
  exists base, nxt. split.
  - destruct F'. constructor; cbn [j_m j_stk wst j_loc j_pc j_mon] in *; try assumption.
    cbn [stkRel]. pose proof (stkRel_depth _ _ _ _ fa_stk0).
    split; [lia|]. replace (sp s + vsize v - vsize v) with (sp s) by lia.
    split; [assumption|]. split; [assumption|]. assumption.
  - eapply callers_ext; [eassumption|]. intros j Hj. apply X. lia.
Qed.

Lemma Rst_room : forall s i h lg f rest st,
  Rst E bot x s i h lg (wst f st) rest -> sp s + (maxSt E f - depth st) <= ssz s /\ depth st <= maxSt E f.
Proof.
  intros s i h lg f rest st (A1 & A2 & A3 & A4 & A5 & A6 & A7 & A8 & base & nxt & F & C).
  pose proof (frameAt_lim _ _ _ _ _ _ _ _ F) as (L1 & L2 & L3). destruct F.
  cbn [j_m j_stk wst j_loc j_pc j_mon] in *. unfold maxSt. lia.
Qed.

Lemma pushSlot_ok : forall s i h lg f rest st v,
  Rst E bot x s i h lg (wst f st) rest -> cat2 v = false -> valOk v -> depth (v :: st) <= maxSt E f ->
  exists s', pushSlot s (valTag v, valBits v) = Ok s' /\ Rst E bot x s' i h lg (wst f (v :: st)) rest.
Proof.
  intros s i h lg f rest st v H Hc VO D. pose proof (Rst_room _ _ _ _ _ _ _ H) as [Rm _].
  assert (D' := D). cbn [depth fold_right] in D'. fold (depth st) in D'. unfold vsize in D'. rewrite Hc in D'.
  eexists. split.
  - unfold pushSlot, wrSlot. replace (sp s <? ssz s) with true by lia. cbn [bind]. reflexivity.
  - eapply Rst_write_above with (mem' := fun j => if j =? sp s then (valTag v, valBits v) else mem s j) (sp' := sp s + 1);
      try exact H; try reflexivity; try assumption; try apply H.
    + intros j Hj. replace (j =? sp s) with false by lia. reflexivity.
    + unfold vsize. rewrite Hc. lia.
    + destruct v; simpl in *; try discriminate; rewrite N.eqb_refl; reflexivity.
Qed.

Lemma pushInt_ok : forall s i h lg f rest st v n,
  Rst E bot x s i h lg (wst f st) rest -> cat2 v = false -> valTag v = IntTag -> valBits v = n ->
  valOk v -> depth (v :: st) <= maxSt E f ->
  exists s', pushInt s n = Ok s' /\ Rst E bot x s' i h lg (wst f (v :: st)) rest.
Proof.
  intros s i h lg f rest st v n H Hc Ht Hn VO D. unfold pushInt. rewrite <- Ht, <- Hn. apply pushSlot_ok; assumption.
Qed.

Lemma pushObject_ok : forall s i h lg f rest st o,
  Rst E bot x s i h lg (wst f st) rest -> o < 2 ^ 64 -> depth (VRef o :: st) <= maxSt E f ->
  exists s', pushObject s o = Ok s' /\ Rst E bot x s' i h lg (wst f (VRef o :: st)) rest.
Proof. intros s i h lg f rest st o H VO D. apply (pushSlot_ok s i h lg f rest st (VRef o)); auto. Qed.

Lemma pushLong_ok : forall s i h lg f rest st v n,
  Rst E bot x s i h lg (wst f st) rest -> cat2 v = true -> valBits v = n ->
  valOk v -> depth (v :: st) <= maxSt E f ->
  exists s', pushLong s n = Ok s' /\ Rst E bot x s' i h lg (wst f (v :: st)) rest.
Proof.
  intros s i h lg f rest st v n H Hc Hn VO D. pose proof (Rst_room _ _ _ _ _ _ _ H) as [Rm _].
  assert (D' := D). cbn [depth fold_right] in D'. fold (depth st) in D'. unfold vsize in D'. rewrite Hc in D'.
  eexists. split.
  - unfold pushLong, pushInt, pushSlot, wrSlot. replace (sp s <? ssz s) with true by lia. cbn [bind sp setSp setMem ssz mem].
    replace (sp s + 1 <? ssz s) with true by lia. cbn [bind]. reflexivity.
  - subst n.
    eapply Rst_write_above
      with (mem' := fun j => if j =? sp s + 1 then (IntTag, lo32 (valBits v)) else
                             if j =? sp s then (IntTag, hi32 (valBits v)) else mem s j)
           (sp' := sp s + 2);
      try exact H; try reflexivity; try assumption; try apply H.
    + intros j Hj. replace (j =? sp s) with false by lia. replace (j =? sp s + 1) with false by lia. reflexivity.
    + unfold vsize. rewrite Hc. lia.
    + destruct v; simpl in *; try discriminate; replace (sp s =? sp s + 1) with false by lia;
        rewrite !N.eqb_refl; split; reflexivity.
    + cbn [sp setSp setMem]. lia.
Qed.

End Prim.
