(** Code operands, local variables and frames, on the representation of Interp_Rel. *)
From Verif Require Import Base Res Bits Interp_Types Interp_Model Jvm_Spec Interp_Obs Interp_Spec Interp_Rel Interp_Rel2.
Import ListNotations.
Local Open Scope N_scope.
Local Open Scope res_scope.

(** * Operands in the code *)
Lemma byteAt_lt : forall c i b, byteAt c i = Some b -> i < N.of_nat (length c).
Proof.
  intros c i b H. unfold byteAt in H.
  assert (N.to_nat i < length c)%nat by (apply nth_error_Some; congruence). lia.
Qed.
Lemma byteAt_byte : forall c i b, Forall (fun b => b < 256) c -> byteAt c i = Some b -> b < 256.
Proof.
  intros c i b F H. unfold byteAt in H. apply nth_error_In in H.
  rewrite Forall_forall in F. apply F. assumption.
Qed.
Lemma u2At_lt : forall c i v, u2At c i = Some v -> i + 1 < N.of_nat (length c).
Proof.
  intros c i v H. unfold u2At, bindO in H.
  destruct (byteAt c i) eqn:B1; [|discriminate]. destruct (byteAt c (i + 1)) eqn:B2; [|discriminate].
  eapply byteAt_lt. eassumption.
Qed.
Lemma u2At_range : forall c i v, Forall (fun b => b < 256) c -> u2At c i = Some v -> v < 65536.
Proof.
  intros c i v F H. unfold u2At, bindO in H.
  destruct (byteAt c i) eqn:B1; [|discriminate]. destruct (byteAt c (i + 1)) eqn:B2; [|discriminate].
  injection H as <-. apply byteAt_byte in B1, B2; auto. lia.
Qed.
Lemma s4At_lt : forall c i v, s4At c i = Some v -> i + 3 < N.of_nat (length c).
Proof.
  intros c i v H. unfold s4At, bindO in H.
  destruct (u2At c i) eqn:B1; [|discriminate]. destruct (u2At c (i + 2)) eqn:B2; [|discriminate].
  apply u2At_lt in B2. lia.
Qed.
Lemma s4At_range : forall c i v, s4At c i = Some v -> inI 32 v = true.
Proof.
  intros c i v H. unfold s4At, bindO in H.
  destruct (u2At c i) eqn:B1; [|discriminate]. destruct (u2At c (i + 2)) eqn:B2; [|discriminate].
  injection H as <-. apply sgn_range. lia.
Qed.
Lemma s2At_range : forall c i v, s2At c i = Some v -> inI 16 v = true.
Proof.
  intros c i v H. unfold s2At, bindO in H. destruct (u2At c i) eqn:B1; [|discriminate].
  injection H as <-. apply sgn_range. lia.
Qed.
Lemma inI_16_32 : forall v, inI 16 v = true -> inI 32 v = true.
Proof. intros v. unfold inI, minI, maxI. change (2 ^ (16 - 1))%Z with 32768%Z. change (2 ^ (32 - 1))%Z with 2147483648%Z. lia. Qed.
Lemma inI_8_32 : forall v, inI 8 v = true -> inI 32 v = true.
Proof. intros v. unfold inI, minI, maxI. change (2 ^ (8 - 1))%Z with 128%Z. change (2 ^ (32 - 1))%Z with 2147483648%Z. lia. Qed.

Lemma lor8 : forall a b, b < 256 -> N.lor (N.shiftl a 8) b = a * 256 + b.
Proof. intros a b H. rewrite N.shiftl_mul_pow2. apply (lor_disjoint a b 8). exact H. Qed.

Lemma lor32 : forall a b c d, b < 256 -> c < 256 -> d < 256 ->
  N.lor (N.lor (N.lor (N.shiftl a 24) (N.shiftl b 16)) (N.shiftl c 8)) d
  = (a * 256 + b) * 65536 + (c * 256 + d).
Proof.
  intros a b c d Hb Hc Hd.
  assert (E1 : N.lor (N.shiftl a 24) (N.shiftl b 16) = N.shiftl (a * 256 + b) 16).
  { rewrite <- (lor8 a b Hb). rewrite N.shiftl_lor, N.shiftl_shiftl. reflexivity. }
  rewrite E1. rewrite <- N.lor_assoc, (lor8 c d Hd).
  rewrite N.shiftl_mul_pow2. change (2 ^ 16) with 65536. apply (lor_disjoint _ _ 16).
  change (2 ^ 16) with 65536. lia.
Qed.

Section Code.
Variables (E : env) (bot : Z) (x : N).
Hypothesis WF : wfEnv E.
Definition codeOf (f : jframe) : list N := m_code (e_method E (j_m f)).

Lemma bytesOk : forall f, Forall (fun b => b < 256) (codeOf f).
Proof. intros f. apply wm_bytes. apply (we_method E WF). Qed.
Lemma codeLen : forall f, N.of_nat (length (codeOf f)) < 65536.
Proof. intros f. apply wm_len. apply (we_method E WF). Qed.

Lemma codeByte_ok : forall s i h lg f rest k b,
  Rst E bot x s i h lg f rest -> byteAt (codeOf f) k = Some b -> codeByte E s k = Ok b.
Proof.
  intros s i h lg f rest k b H B. unfold codeByte. rewrite (Rst_cur _ _ _ _ _ _ _ _ _ H).
  unfold byteAt, codeOf in B. rewrite B. reflexivity.
Qed.

Lemma next1_ok : forall s i h lg f rest b,
  Rst E bot x s i h lg f rest -> byteAt (codeOf f) i = Some b ->
  next1 E s = Ok (b, setIp s (i + 1)) /\ Rst E bot x (setIp s (i + 1)) (i + 1) h lg f rest.
Proof.
  intros s i h lg f rest b H B. pose proof (Rst_ip _ _ _ _ _ _ _ _ _ H) as I. split.
  - unfold next1. rewrite I. rewrite (codeByte_ok _ _ _ _ _ _ _ _ H B). reflexivity.
  - eapply Rst_setIp. eassumption.
Qed.

Lemma read16_ok : forall s i h lg f rest v,
  Rst E bot x s i h lg f rest -> s2At (codeOf f) i = Some v ->
  exists s', codeReadInt16 E s = Ok (v, s') /\ Rst E bot x s' (i + 2) h lg f rest.
Proof.
  intros s i h lg f rest v H B. unfold s2At, u2At, bindO in B.
  destruct (byteAt (codeOf f) i) as [b1|] eqn:B1; [|discriminate].
  destruct (byteAt (codeOf f) (i + 1)) as [b2|] eqn:B2; [|discriminate]. injection B as <-.
  destruct (next1_ok _ _ _ _ _ _ _ H B1) as [N1 H1].
  destruct (next1_ok _ _ _ _ _ _ _ H1 B2) as [N2 H2].
  eexists. split.
  - unfold codeReadInt16. rewrite N1. cbn [bind]. rewrite N2. cbn [bind].
    rewrite lor8 by (eapply byteAt_byte; [apply bytesOk | eassumption]). reflexivity.
  - replace (i + 2) with (i + 1 + 1) by lia. assumption.
Qed.

Lemma readIndex_ok : forall s i h lg f rest v,
  Rst E bot x s i h lg f rest -> u2At (codeOf f) i = Some v ->
  exists s', readIndex E s = Ok (v, s') /\ Rst E bot x s' (i + 2) h lg f rest.
Proof.
  intros s i h lg f rest v H B.
  destruct (read16_ok s i h lg f rest (sbits 16 v) H) as (s' & R & H').
  - unfold s2At, bindO. rewrite B. reflexivity.
  - exists s'. split; [|assumption]. unfold readIndex. rewrite R. cbn [bind].
    rewrite ubits_sbits; [reflexivity | lia |].
    apply u2At_range in B; [|apply bytesOk]. change (2 ^ 16)%Z with 65536%Z. lia.
Qed.

Lemma int32At_ok : forall s i h lg f rest k v,
  Rst E bot x s i h lg f rest -> s4At (codeOf f) k = Some v -> codeInt32At E s k = Ok v.
Proof.
  intros s i h lg f rest k v H B. unfold s4At, u2At, bindO in B.
  destruct (byteAt (codeOf f) k) as [b1|] eqn:B1; [|discriminate].
  destruct (byteAt (codeOf f) (k + 1)) as [b2|] eqn:B2; [|discriminate].
  destruct (byteAt (codeOf f) (k + 2)) as [b3|] eqn:B3; [|discriminate].
  destruct (byteAt (codeOf f) (k + 2 + 1)) as [b4|] eqn:B4; [|discriminate]. injection B as <-.
  replace (k + 2 + 1) with (k + 3) in B4 by lia.
  unfold codeInt32At.
  rewrite (codeByte_ok _ _ _ _ _ _ _ _ H B1). cbn [bind].
  rewrite (codeByte_ok _ _ _ _ _ _ _ _ H B2). cbn [bind].
  rewrite (codeByte_ok _ _ _ _ _ _ _ _ H B3). cbn [bind].
  rewrite (codeByte_ok _ _ _ _ _ _ _ _ H B4). cbn [bind].
  rewrite lor32; [reflexivity | | |]; (eapply byteAt_byte; [apply bytesOk | eassumption]).
Qed.

Lemma read32_ok : forall s i h lg f rest v,
  Rst E bot x s i h lg f rest -> s4At (codeOf f) i = Some v ->
  codeReadInt32 E s = Ok (v, setIp s (i + 4)) /\ Rst E bot x (setIp s (i + 4)) (i + 4) h lg f rest.
Proof.
  intros s i h lg f rest v H B. pose proof (Rst_ip _ _ _ _ _ _ _ _ _ H) as I. split.
  - unfold codeReadInt32. rewrite I, (int32At_ok _ _ _ _ _ _ _ _ H B). reflexivity.
  - eapply Rst_setIp. eassumption.
Qed.

(** * Local variables *)
Lemma frameBase_ok : forall s i h lg f rest,
  Rst E bot x s i h lg f rest ->
  exists base nxt, frameBase s (frm s) = Ok base /\
     frameAt E (mem s) (ssz s) f (Z.to_N (frm s)) (sp s) base nxt /\
     callers E (mem s) (ssz s) bot rest (frm s) nxt base.
Proof.
  intros s i h lg f rest (A1 & A2 & A3 & A4 & A5 & A6 & A7 & A8 & base & nxt & F & C).
  pose proof (frameAt_lim _ _ _ _ _ _ _ _ F) as (L1 & L2 & L3).
  exists base, nxt. split; [|split; assumption].
  unfold frameBase, frameIdx. replace (0 <=? frm s)%Z with true by lia. cbn [bind].
  unfold peekInt, peek, rdSlot, FrameBaseOffset. rewrite N.add_0_r.
  replace (Z.to_N (frm s) <? ssz s) with true by lia. cbn [bind].
  rewrite (fa_base _ _ _ _ _ _ _ _ F). reflexivity.
Qed.

Lemma localSlot : forall s i h lg f rest k v,
  Rst E bot x s i h lg f rest -> j_loc f k = Some v ->
  exists base, frameBase s (frm s) = Ok base /\ vrel (mem s) (base + k) v /\ valOk v /\ base + k + vsize v <= ssz s.
Proof.
  intros s i h lg f rest k v H L. destruct (frameBase_ok _ _ _ _ _ _ H) as (base & nxt & FB & F & C).
  pose proof (frameAt_lim _ _ _ _ _ _ _ _ F) as (L1 & L2 & L3).
  destruct (fa_loc _ _ _ _ _ _ _ _ F k v L) as (V1 & V2 & V3).
  pose proof (fa_fr _ _ _ _ _ _ _ _ F).
  exists base. split; [assumption|]. split; [assumption|]. split; [assumption|]. lia.
Qed.

Lemma localInt_ok : forall s i h lg f rest k v,
  Rst E bot x s i h lg f rest -> j_loc f k = Some v -> cat2 v = false -> valTag v = IntTag ->
  localInt s k = Ok (valBits v) /\ valOk v.
Proof.
  intros s i h lg f rest k v H L Hc Ht. destruct (localSlot _ _ _ _ _ _ _ _ H L) as (base & FB & V & VO & B).
  split; [|assumption]. unfold localInt. rewrite FB. cbn [bind]. unfold peekInt, peek, rdSlot.
  unfold vsize in B. rewrite Hc in B. replace (base + k <? ssz s) with true by lia. cbn [bind].
  destruct v; simpl in *; try discriminate; rewrite V; reflexivity.
Qed.

Lemma loadLocal_ok : forall s i h lg f rest k t v,
  Rst E bot x s i h lg f rest -> j_loc f k = Some v -> hasTy t v = true ->
  depth (v :: j_stk f) <= maxSt E f ->
  exists s', loadLocal s t k = Ok s' /\ Rst E bot x s' i h lg (wst f (v :: j_stk f)) rest.
Proof.
  intros s i h lg f rest k t v H L T D.
  pose proof (Rst_stk _ _ _ _ _ _ _ _ _ H) as H0.
  destruct (localSlot _ _ _ _ _ _ _ _ H L) as (base & FB & V & VO & B).
  unfold loadLocal, localInt, localLong, localObject, peekLong, peekInt, peekObject, peek, rdSlot.
  rewrite FB. cbn [bind]. unfold vsize in B.
  destruct t, v; try discriminate; cbn [cat2 vrel] in *.
  - replace (base + k <? ssz s) with true by lia. rewrite V. cbn [bind fst snd N.eqb IntTag].
    eapply pushInt_ok; eauto.
  - replace (base + k <? ssz s) with true by lia. replace (base + k + 1 <? ssz s) with true by lia.
    destruct V as [V1 V2]. rewrite V1, V2. cbn [bind fst snd N.eqb IntTag]. rewrite join32.
    eapply pushLong_ok; eauto.
  - replace (base + k <? ssz s) with true by lia. rewrite V. cbn [bind fst snd N.eqb IntTag].
    eapply pushInt_ok; eauto.
  - replace (base + k <? ssz s) with true by lia. replace (base + k + 1 <? ssz s) with true by lia.
    destruct V as [V1 V2]. rewrite V1, V2. cbn [bind fst snd N.eqb IntTag]. rewrite join32.
    eapply pushLong_ok; eauto.
  - replace (base + k <? ssz s) with true by lia. rewrite V.
    cbn [bind fst snd]. rewrite N.eqb_refl. eapply pushObject_ok; eauto.
Qed.

Lemma locRel_set : forall mem mem' base n l i v,
  locRel mem base n l ->
  (forall j, base <= j < base + n -> (j < base + i \/ base + i + vsize v <= j) -> mem' j = mem j) ->
  vrel mem' (base + i) v -> valOk v -> i + vsize v <= n ->
  locRel mem' base n (setLoc l i v).
Proof.
  intros mem mem' base n l i v R X V VO B j w Hw. unfold setLoc in Hw.
  destruct (N.eqb_spec j i) as [->|Nji].
  - injection Hw as <-. auto.
  - destruct (cat2 v && (j =? i + 1)) eqn:C1; [discriminate|].
    destruct ((j + 1 =? i) && match l j with Some w0 => cat2 w0 | None => false end) eqn:C2; [discriminate|].
    destruct (R j w Hw) as (R1 & R2 & R3). split; [assumption|]. split; [|assumption].
    eapply vrel_ext; [eassumption|]. intros k Hk. rewrite Hw in C2.
    apply X; [lia|]. unfold vsize in *. destruct (cat2 v), (cat2 w); lia.
Qed.

(** Changing memory in the locals of the current frame *)
Lemma Rst_set_local : forall s i h lg f rest base nxt k v mem' s',
  Rst E bot x s i h lg f rest ->
  frameAt E (mem s) (ssz s) f (Z.to_N (frm s)) (sp s) base nxt ->
  callers E (mem s) (ssz s) bot rest (frm s) nxt base ->
  (forall j, (j < base + k \/ base + k + vsize v <= j) -> mem' j = mem s j) ->
  vrel mem' (base + k) v -> valOk v -> k + vsize v <= maxLo E f ->
  mem s' = mem' -> sp s' = sp s -> ssz s' = ssz s -> frm s' = frm s -> ip s' = ip s -> cur s' = cur s ->
  exc s' = exc s -> hp s' = hp s -> log s' = log s ->
  Rst E bot x s' i h lg (wloc f (setLoc (j_loc f) k v)) rest.
Proof.
  intros s i h lg f rest base nxt k v mem' s' (A1 & A2 & A3 & A4 & A5 & A6 & A7 & A8 & _) F C X V VO B E1 E0 E2 E3 E4 E5 E6 E7 E8.
  pose proof (frameAt_lim _ _ _ _ _ _ _ _ F) as (L1 & L2 & L3).
  unfold Rst. rewrite E1, E0, E2, E3, E4, E5, E6, E7, E8. do 8 (split; [assumption|]).
  exists base, nxt. unfold maxLo in B. split.
  - pose proof F as F0. destruct F. constructor; cbn [j_m j_stk wloc j_loc j_pc j_mon] in *; try assumption;
      try (rewrite X by lia; assumption).
    + eapply locRel_set; eauto.
    + eapply stkRel_ext; [eassumption|]. intros j Hj. apply X. lia.
  - eapply callers_ext; [eassumption|]. intros j Hj. apply X. lia.
Qed.

Lemma setLocalSlot_ok : forall s i h lg f rest k v (g : cst -> N -> N -> res cst),
  (forall s k n, g s k n = do b <- frameBase s (frm s); wrSlot s (b + k) (valTag v, n)) ->
  Rst E bot x s i h lg f rest -> cat2 v = false -> valOk v -> k + 1 <= maxLo E f ->
  exists s', g s k (valBits v) = Ok s' /\ Rst E bot x s' i h lg (wloc f (setLoc (j_loc f) k v)) rest.
Proof.
  intros s i h lg f rest k v g Hg H Hc VO B. destruct (frameBase_ok _ _ _ _ _ _ H) as (base & nxt & FB & F & C).
  pose proof (frameAt_lim _ _ _ _ _ _ _ _ F) as (L1 & L2 & L3). pose proof (fa_fr _ _ _ _ _ _ _ _ F) as FR.
  unfold maxLo in B. rewrite Hg, FB. cbn [bind]. unfold wrSlot. replace (base + k <? ssz s) with true by lia.
  eexists. split; [reflexivity|].
  eapply Rst_set_local with (mem' := fun j => if j =? base + k then (valTag v, valBits v) else mem s j);
    try exact H; try eassumption; try reflexivity.
  - unfold vsize. rewrite Hc. intros j Hj. replace (j =? base + k) with false by lia. reflexivity.
  - destruct v; simpl in *; try discriminate; rewrite N.eqb_refl; reflexivity.
  - unfold vsize, maxLo. rewrite Hc. lia.
Qed.

Lemma setLocalInt_ok : forall s i h lg f rest k v,
  Rst E bot x s i h lg f rest -> cat2 v = false -> valTag v = IntTag -> valOk v -> k + 1 <= maxLo E f ->
  exists s', setLocalInt s k (valBits v) = Ok s' /\ Rst E bot x s' i h lg (wloc f (setLoc (j_loc f) k v)) rest.
Proof.
  intros. eapply setLocalSlot_ok with (g := setLocalInt); eauto.
  intros. unfold setLocalInt, pokeInt. rewrite H1. reflexivity.
Qed.
Lemma setLocalObject_ok : forall s i h lg f rest k o,
  Rst E bot x s i h lg f rest -> o < 2 ^ 64 -> k + 1 <= maxLo E f ->
  exists s', setLocalObject s k o = Ok s' /\ Rst E bot x s' i h lg (wloc f (setLoc (j_loc f) k (VRef o))) rest.
Proof.
  intros. eapply setLocalSlot_ok with (g := setLocalObject) (v := VRef o); eauto.
Qed.
Lemma setLocalLong_ok : forall s i h lg f rest k v,
  Rst E bot x s i h lg f rest -> cat2 v = true -> valOk v -> k + 2 <= maxLo E f ->
  exists s', setLocalLong s k (valBits v) = Ok s' /\ Rst E bot x s' i h lg (wloc f (setLoc (j_loc f) k v)) rest.
Proof.
  intros s i h lg f rest k v H Hc VO B. destruct (frameBase_ok _ _ _ _ _ _ H) as (base & nxt & FB & F & C).
  pose proof (frameAt_lim _ _ _ _ _ _ _ _ F) as (L1 & L2 & L3). pose proof (fa_fr _ _ _ _ _ _ _ _ F) as FR.
  unfold maxLo in B. unfold setLocalLong. rewrite FB. cbn [bind]. unfold pokeLong, pokeInt, wrSlot.
  replace (base + k <? ssz s) with true by lia. cbn [bind ssz setMem].
  replace (base + k + 1 <? ssz s) with true by lia.
  eexists. split; [reflexivity|].
  eapply Rst_set_local with
    (mem' := fun j => if j =? base + k + 1 then (IntTag, lo32 (valBits v)) else
                      if j =? base + k then (IntTag, hi32 (valBits v)) else mem s j);
    try exact H; try eassumption; try reflexivity.
  - unfold vsize. rewrite Hc. intros j Hj. replace (j =? base + k) with false by lia.
    replace (j =? base + k + 1) with false by lia. reflexivity.
  - destruct v; simpl in *; try discriminate; rewrite !N.eqb_refl; replace (base + k =? base + k + 1) with false by lia; split; reflexivity.
  - unfold vsize, maxLo. rewrite Hc. lia.
Qed.

Lemma wloc_wst : forall f st loc, wloc (wst f st) loc = wst (wloc f loc) st.
Proof. reflexivity. Qed.

Lemma storeLocal_ok : forall s i h lg f rest k t v st,
  Rst E bot x s i h lg (wst f (v :: st)) rest -> storable t v = true -> k + vsize v <= maxLo E f ->
  exists s', storeLocal s t k = Ok s' /\ Rst E bot x s' i h lg (wst (wloc f (setLoc (j_loc f) k v)) st) rest.
Proof.
  intros s i h lg f rest k t v st H T B. unfold storeLocal.
  destruct t; cbn [storable] in T.
  - destruct v; try discriminate.
    destruct (popInt_ok _ _ _ _ _ _ _ _ _ _ _ H eq_refl eq_refl) as (s1 & P & H1 & VO). rewrite P. cbn [bind].
    match type of VO with valOk ?v => exact (setLocalInt_ok _ _ _ _ _ _ k v H1 eq_refl eq_refl VO B) end.
  - destruct v; try discriminate.
    destruct (popLong_ok _ _ _ _ _ _ _ _ _ _ _ H eq_refl) as (s1 & P & H1 & VO). rewrite P. cbn [bind].
    match type of VO with valOk ?v => exact (setLocalLong_ok _ _ _ _ _ _ k v H1 eq_refl VO B) end.
  - destruct v; try discriminate.
    destruct (popInt_ok _ _ _ _ _ _ _ _ _ _ _ H eq_refl eq_refl) as (s1 & P & H1 & VO). rewrite P. cbn [bind].
    match type of VO with valOk ?v => exact (setLocalInt_ok _ _ _ _ _ _ k v H1 eq_refl eq_refl VO B) end.
  - destruct v; try discriminate.
    destruct (popLong_ok _ _ _ _ _ _ _ _ _ _ _ H eq_refl) as (s1 & P & H1 & VO). rewrite P. cbn [bind].
    match type of VO with valOk ?v => exact (setLocalLong_ok _ _ _ _ _ _ k v H1 eq_refl VO B) end.
  - assert (Hc : cat2 v = false) by (destruct v; try discriminate; reflexivity).
    destruct (popSlot_ok _ _ _ _ _ _ _ _ _ _ _ H Hc) as (s1 & P & H1 & VO & S1 & M1 & B1).
    unfold vsize in B. rewrite Hc in B.
    destruct (setLocalSlot_ok s1 i h lg (wst f st) rest k v
                (fun s k n => do b <- frameBase s (frm s); wrSlot s (b + k) (valTag v, n))
                (fun _ _ _ => eq_refl) H1 Hc VO B) as (s2 & W & H2).
    exists s2. split; [|exact H2].
    subst s1. unfold store. unfold frameBase, peekInt, peek, rdSlot, wrSlot in W. cbn [mem ssz frm setSp] in W.
    unfold frameBase, peekInt, peek, rdSlot. unfold cpSlot, rdSlot, wrSlot, below.
    destruct (frameIdx (frm s)); cbn [bind] in *; try discriminate.
    destruct (a + FrameBaseOffset <? ssz s); cbn [bind] in *; try discriminate.
    destruct (fst (mem s (a + FrameBaseOffset)) =? IntTag); cbn [bind] in *; try discriminate.
    replace (1 <=? sp s) with true by lia. cbn [bind]. replace (sp s - 1 <? ssz s) with true by lia. cbn [bind].
    rewrite M1. destruct (snd (mem s (a + FrameBaseOffset)) + k <? ssz s); [|discriminate].
    cbn [bind]. rewrite <- W. reflexivity.
Qed.
End Code.
