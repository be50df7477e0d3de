(** Calls into Java: pushing the arguments, the first frame, running, and the result. *)
From Verif Require Import Base Res Bits Interp_Types Interp_Model Jvm_Spec Interp_Obs Interp_Spec.
From Verif Require Import Interp_Rel Interp_Rel2 Interp_Rel3 Interp_Rel4 Interp_Heap Interp_Arith Interp_Exec Interp_Step.
Import ListNotations.
Local Open Scope N_scope.
Local Open Scope res_scope.

Lemma pushArg_ok : forall s lo st v,
  stkRel (mem s) lo st (sp s) -> argOk v -> sp s + vsize v <= ssz s ->
  exists s', pushArg s v = Ok s' /\ stkRel (mem s') lo (v :: st) (sp s') /\ sp s' = sp s + vsize v /\
    (forall j, j < sp s -> mem s' j = mem s j) /\
    ssz s' = ssz s /\ frm s' = frm s /\ exc s' = exc s /\ hp s' = hp s /\ log s' = log s.
Proof.
  intros s lo st v SR [VO NR] L. pose proof (stkRel_depth _ _ _ _ SR) as D.
  assert (One : forall sl w, vsize w = 1 -> argOk w -> sp s + 1 <= ssz s ->
     (forall m, m (sp s) = sl -> vrel m (sp s) w) ->
     exists s', pushSlot s sl = Ok s' /\ stkRel (mem s') lo (w :: st) (sp s') /\ sp s' = sp s + vsize w /\
    (forall j, j < sp s -> mem s' j = mem s j) /\
    ssz s' = ssz s /\ frm s' = frm s /\ exc s' = exc s /\ hp s' = hp s /\ log s' = log s).
  { intros sl w W [WO _] WL V. unfold pushSlot, wrSlot. replace (sp s <? ssz s) with true by lia. cbn [bind].
    eexists. split; [reflexivity|]. cbn [mem setSp setMem sp ssz frm exc hp log]. rewrite W.
    split; [|repeat split; auto; intros; destruct (N.eqb_spec j (sp s)); [lia|reflexivity]].
    cbn [stkRel]. rewrite W. replace (sp s + 1 - 1) with (sp s) by lia. split; [lia|]. split.
    - apply V. rewrite N.eqb_refl. reflexivity.
    - split; [assumption|]. eapply stkRel_ext; [exact SR|]. intros j Hj. replace (j =? sp s) with false by lia. reflexivity. }
  assert (Two : forall b w, vsize w = 2 -> argOk w -> sp s + 2 <= ssz s ->
     (forall m, m (sp s) = (IntTag, hi32 b) -> m (sp s + 1) = (IntTag, lo32 b) -> vrel m (sp s) w) ->
     exists s', pushLong s b = Ok s' /\ stkRel (mem s') lo (w :: st) (sp s') /\ sp s' = sp s + vsize w /\
    (forall j, j < sp s -> mem s' j = mem s j) /\
    ssz s' = ssz s /\ frm s' = frm s /\ exc s' = exc s /\ hp s' = hp s /\ log s' = log s).
  { intros b w W [WO _] WL V. unfold pushLong, pushInt, pushSlot, wrSlot. replace (sp s <? ssz s) with true by lia.
    cbn [bind mem setSp setMem sp ssz frm exc hp log]. replace (sp s + 1 <? ssz s) with true by lia.
    cbn [bind mem setSp setMem sp ssz frm exc hp log].
    eexists. split; [reflexivity|]. cbn [mem setSp setMem sp ssz frm exc hp log]. rewrite W.
    split; [|repeat split; auto; [lia|]; intros; replace (j =? sp s + 1) with false by lia; replace (j =? sp s) with false by lia; reflexivity].
    cbn [stkRel]. rewrite W. replace (sp s + 1 + 1 - 2) with (sp s) by lia. split; [lia|]. split.
    - apply V.
      + replace (sp s =? sp s + 1) with false by lia. rewrite N.eqb_refl. reflexivity.
      + rewrite N.eqb_refl. reflexivity.
    - split; [assumption|]. eapply stkRel_ext; [exact SR|]. intros j Hj.
      replace (j =? sp s + 1) with false by lia. replace (j =? sp s) with false by lia. reflexivity. }
  destruct v; cbn [pushArg]; try contradiction; unfold vsize in *; cbn [cat2] in *.
  - apply One with (w := VInt z); auto. split; auto.
  - apply Two with (w := VLong z); auto. split; auto. intros m A B. split; assumption.
  - apply One with (w := VFlt bits); auto. split; auto.
  - apply Two with (w := VDbl bits); auto. split; auto. intros m A B. split; assumption.
  - apply One with (w := VRef o); auto. split; auto.
Qed.

Lemma pushArgs_ok : forall args s lo st,
  stkRel (mem s) lo st (sp s) -> Forall argOk args -> sp s + depth args <= ssz s ->
  exists s', pushArgs s args = Ok s' /\ stkRel (mem s') lo (rev args ++ st) (sp s') /\ sp s' = sp s + depth args /\
    (forall j, j < sp s -> mem s' j = mem s j) /\
    ssz s' = ssz s /\ frm s' = frm s /\ exc s' = exc s /\ hp s' = hp s /\ log s' = log s.
Proof.
  induction args as [|v r IH]; intros s lo st SR F L.
  - exists s. cbn [pushArgs rev app depth fold_right]. repeat (split; [solve [auto | cbn; lia]|]). reflexivity.
  - rewrite depth_cons in L. inversion F as [|? ? F1 F2]; subst.
    destruct (pushArg_ok s lo st v SR F1 ltac:(lia)) as (s1 & P & SR1 & SP & M & B1 & B2 & B3 & B4 & B5).
    destruct (IH s1 lo (v :: st) SR1 F2 ltac:(lia)) as (s2 & P2 & SR2 & SP2 & M2 & C1 & C2 & C3 & C4 & C5).
    exists s2. cbn [pushArgs]. rewrite P. cbn [bind]. split; [exact P2|]. cbn [rev]. rewrite <- app_assoc. cbn [app].
    split; [exact SR2|]. rewrite depth_cons. split; [lia|]. split; [intros j Hj; rewrite M2 by lia; apply M; exact Hj|].
    repeat (split; [congruence|]). congruence.
Qed.

Section Entry.
Variable E : env.
Hypothesis WF : wfEnv E.

Lemma entryFrame_ok : forall s lo args m mo,
  ready s -> lo <= sp s -> ((0 <= frm s)%Z -> Z.to_N (frm s) + 4 <= lo) ->
  stkRel (mem s) lo (rev args) (sp s) ->
  depth args = m_pf (e_method E m) ->
  stackOverflows E s m = false ->
  m_pf (e_method E m) <= m_maxLocals (e_method E m) ->
  monOf (e_method E m) args = Some mo ->
  isBoundary (m_code (e_method E m)) 0 = true ->
  exists s', pushFrame E s m = Ok s' /\
    Rst E (frm s') 0 s' 0 (hp s) (match mo with Some o => MEnter o :: log s | None => log s end)
      {| j_m := m; j_pc := 0; j_loc := argLoc args 0 noLoc; j_stk := []; j_mon := mo |} [].
Proof.
  intros s lo args m mo (RX & RS & RF & RB) LO FL SR D O PL MO B0.
  apply stackOverflows_false in O.
  pose proof (stkRel_depth _ _ _ _ SR) as DD. rewrite depth_rev in DD.
  set (M := e_method E m) in *. set (base' := sp s - m_pf M) in *.
  assert (BL : base' = lo) by lia.
  set (fr := Z.to_N (frm s)) in *.
  set (lg' := match mo with Some o => MEnter o :: log s | None => log s end).
  assert (P1 : (if m_sync M then
              if m_static M then Ok (addLog s (MEnter (m_jclass M)))
              else do o <- peekObject s base'; Ok (addLog s (MEnter o))
            else Ok s) = Ok (match mo with Some o => addLog s (MEnter o) | None => s end)).
  { unfold monOf in MO. destruct (m_sync M); [|injection MO as <-; reflexivity].
    destruct (m_static M); [injection MO as <-; reflexivity|].
    destruct args as [|v args']; [discriminate|].
    pose proof SR as S2. apply stkRel_rev_cons in S2. destruct S2 as (V & VO & S2).
    rewrite depth_cons in D. pose proof (vsize_pos v).
    destruct v; try discriminate. injection MO as <-. cbn [vrel] in V. unfold peekObject, peek, rdSlot.
    replace (base' <? ssz s) with true by lia. cbn [bind]. rewrite BL, V. cbn [bind fst snd].
    rewrite N.eqb_refl. reflexivity. }
  set (s1 := match mo with Some o => addLog s (MEnter o) | None => s end) in *.
  assert (Q : mem s1 = mem s /\ ssz s1 = ssz s /\ sp s1 = sp s /\ frm s1 = frm s /\ ip s1 = ip s /\
              exc s1 = exc s /\ hp s1 = hp s /\ log s1 = lg').
  { unfold s1, lg'. destruct mo; cbn; auto 10. }
  destruct Q as (Q1 & Q2 & Q3 & Q4 & Q5 & Q6 & Q7 & Q8).
  set (frame := base' + m_maxLocals M).
  set (mem0 := fun j => if (0 <=? frm s)%Z && (j =? fr + 3) then (IntTag, ip s) else mem s j).
  set (memF := fun j =>
     if j =? frame + 3 then (IntTag, 0) else if j =? frame + 2 then (ObjectTag, m) else
     if j =? frame then (IntTag, base') else if j =? frame + 1 then (IntTag, u32 (frm s)) else
     if (base' + m_pf M <=? j) && (j <? base' + m_pf M + (m_maxLocals M - m_pf M)) then (0, 0) else mem0 j).
  assert (PF : exists s', pushFrame E s m = Ok s' /\ (forall j, mem s' j = memF j) /\ ssz s' = ssz s /\ sp s' = frame + 4 /\
               frm s' = Z.of_N frame /\ ip s' = 0 /\ cur s' = m /\ exc s' = exc s /\ hp s' = hp s /\ log s' = lg').
  { unfold pushFrame. fold M. unfold below. replace (m_pf M <=? sp s) with true by lia. cbn [bind].
    fold base'. rewrite P1. cbn [bind]. rewrite Q4.
    assert (X2 : exists s2, (if (0 <=? frm s)%Z then do i <- frameIdx (frm s); pokeInt s1 (i + FrameIpOffset) (ip s1) else Ok s1) = Ok s2 /\
       (forall j, mem s2 j = mem0 j) /\ ssz s2 = ssz s /\ sp s2 = sp s /\ frm s2 = frm s /\ exc s2 = exc s /\ hp s2 = hp s /\ log s2 = lg').
    { unfold mem0. destruct (0 <=? frm s)%Z eqn:G.
      - unfold frameIdx. rewrite G. cbn [bind]. unfold pokeInt, wrSlot. fold fr. unfold FrameIpOffset. rewrite Q2.
        specialize (FL ltac:(lia)). replace (fr + 3 <? ssz s) with true by lia.
        eexists. split; [reflexivity|]. cbn [mem setMem ssz sp frm exc hp log andb]. rewrite Q1, Q5. auto 10.
      - exists s1. cbn [andb]. rewrite Q1. auto 10. }
    destruct X2 as (s2 & X2 & Y1 & Y2 & Y3 & Y4 & Y5 & Y6 & Y7). rewrite X2. cbn [bind].
    replace (m_maxLocals M <? m_pf M) with false by lia.
    unfold zeroSlots. cbn [ssz setMem setIp mem sp frm ip cur exc hp log]. rewrite ?Y2.
    replace (base' + m_pf M + (m_maxLocals M - m_pf M) <=? ssz s) with true by lia.
    cbn [bind ssz setMem setIp mem sp frm ip cur exc hp log]. rewrite ?Y2.
    fold frame. unfold FrameNextOffset, FrameBaseOffset, FrameMethodOffset, FrameFootprint, FrameIpOffset, pokeObject, pokeInt, wrSlot.
    rewrite ?N.add_0_r.
    cbn [bind ssz setMem setIp mem sp frm ip cur exc hp log setSp setFrm]; rewrite ?Y2.
    replace (frame + 1 <? ssz s) with true by lia. cbn [bind ssz setMem setIp mem sp frm ip cur exc hp log setSp setFrm]; rewrite ?Y2.
    replace (frame <? ssz s) with true by lia. cbn [bind ssz setMem setIp mem sp frm ip cur exc hp log setSp setFrm]; rewrite ?Y2.
    replace (frame + 2 <? ssz s) with true by lia. cbn [bind ssz setMem setIp mem sp frm ip cur exc hp log setSp setFrm]; rewrite ?Y2.
    replace (frame + 3 <? ssz s) with true by lia. cbn [bind ssz setMem setIp mem sp frm ip cur exc hp log setSp setFrm]; rewrite ?Y2.
    eexists. split; [reflexivity|]. cbn [ssz setMem setIp mem sp frm ip cur exc hp log setSp setFrm].
    rewrite Y4, Y5, Y6, Y7. split; [intros j; unfold memF; rewrite Y1; reflexivity|].
    repeat (split; [solve [reflexivity | assumption]|]). reflexivity. }
  destruct PF as (s' & PF & E1 & E2 & E3 & E4 & E5 & E6 & E7 & E8 & E9).
  exists s'. split; [exact PF|].
  assert (X : forall j, lo <= j < sp s -> mem s' j = mem s j).
  { intros j J1. rewrite E1. unfold memF, mem0. eqbs. cbn [andb]. destruct (0 <=? frm s)%Z eqn:G; [|reflexivity].
    specialize (FL ltac:(lia)). replace (j =? fr + 3) with false by lia. reflexivity. }
  unfold Rst. rewrite E2, E3, E4, E5, E6, E7, E8, E9.
  split; [reflexivity|]. split; [reflexivity|]. split; [reflexivity|]. split; [reflexivity|].
  split; [assumption|]. split; [assumption|]. split; [lia|]. split; [lia|].
  rewrite N2Z.id. exists base', (frm s). split.
  - constructor; cbn [j_m j_stk j_loc j_pc j_mon]; fold M.
    + reflexivity.
    + rewrite E1. unfold memF. eqbs. reflexivity.
    + rewrite E1. unfold memF. eqbs. reflexivity.
    + rewrite E1. unfold memF. eqbs. reflexivity.
    + rewrite E1. unfold memF. eqbs. reflexivity.
    + apply argLoc_rel with (sp := sp s).
      * rewrite N.add_0_r, BL. eapply stkRel_ext; [exact SR|]. exact X.
      * lia.
      * intros k v Hv. discriminate.
    + reflexivity.
    + cbn [depth fold_right]. lia.
    + lia.
    + unfold monOk. cbn [j_m j_mon]. fold M. unfold monOf in MO.
      destruct (m_sync M); [|congruence]. destruct (m_static M); [congruence|].
      destruct args as [|[] ?]; try discriminate. injection MO as <-. eauto.
    + exact B0.
  - cbn [callers]. split; [reflexivity|]. split; [destruct (Z.leb_spec 0 (frm s)); [specialize (FL H)|]; lia|].
    intros G. specialize (FL G). destruct (RB G) as (_ & T2 & T3). fold fr in T2, T3 |- *. split; [lia|].
    rewrite !E1. unfold memF, mem0. replace (0 <=? frm s)%Z with true by lia.
    split; eqbs; cbn [andb fst]; [exact T2|reflexivity].
Qed.

Theorem invoke_ok : forall n s m args jh S0,
  ready s -> hrel E (hp s) jh -> jnext jh < 2 ^ 63 ->
  Forall argOk args -> depth args = m_pf (e_method E m) ->
  m_pf (e_method E m) <= m_maxLocals (e_method E m) ->
  isBoundary (m_code (e_method E m)) 0 = true ->
  entered E m args jh (log s) = Some S0 -> sound E S0 ->
  exists s' o, invokeN n E s m args = Ok (s', o) /\
    ((exists out, jsteps E n S0 out /\ agrees E out s' o) \/
     (o = IThrew (jnext jh) /\ hrel E (hp s') (snd (jalloc jh (newInst E (e_soe E)))) /\
      log s' = log s /\ exc s' = 0 /\
      ssz s < sp s + 2 * m_pf (e_method E m) + m_maxLocals (e_method E m) + 4 + m_maxStack (e_method E m))).
Proof.
  intros n s m args jh S0 RD HR HJ FA DA PL B0 EN SD. unfold invokeN. set (M := e_method E m) in *.
  assert (OV : forall s0, hp s0 = hp s -> log s0 = log s -> exists s' o,
     (do (s1, _) <- throwNew E s0 (e_soe E); Ok (setExc s1 0, IThrew (exc s1))) = Ok (s', o) /\
     o = IThrew (jnext jh) /\ hrel E (hp s') (snd (jalloc jh (newInst E (e_soe E)))) /\ log s' = log s /\ exc s' = 0).
  { intros s0 H0 L0. unfold throwNew. pose proof (newInst_rel E WF (e_soe E)) as NR.
    destruct (hrel_alloc E _ _ _ _ HR HJ NR) as [A B]. rewrite H0.
    destruct (alloc (hp s) (zeroInst E (e_soe E))) as [o h]. cbn [fst snd bind jalloc] in *. subst o.
    do 2 eexists. split; [reflexivity|]. cbn [exc setExc setHp hp log]. auto. }
  destruct (N.ltb_spec (ssz s) (sp s + m_pf M + 1)) as [L1|L1].
  - destruct (OV s eq_refl eq_refl) as (s' & o & P & Q1 & Q2 & Q3 & Q4). exists s', o. split; [exact P|].
    right. unfold M. fold M. split; [assumption|]. split; [assumption|]. split; [assumption|]. split; [assumption|]. lia.
  - destruct (pushArgs_ok args s (sp s) [] eq_refl FA ltac:(lia)) as (s1 & P1 & SR & SP & MM & A1 & A2 & A3 & A4 & A5).
    rewrite P1. cbn [bind]. rewrite app_nil_r in SR.
    destruct (stackOverflows E s1 m) eqn:SO.
    + destruct (OV s1 A4 A5) as (s' & o & P & Q1 & Q2 & Q3 & Q4). exists s', o. split; [exact P|].
      right. split; [assumption|]. split; [assumption|]. split; [assumption|]. split; [assumption|].
      unfold stackOverflows, FrameFootprint in SO. fold M in SO. lia.
    + assert (MO : exists mo, monOf M args = Some mo /\
         S0 = {| j_frames := [{| j_m := m; j_pc := 0; j_loc := argLoc args 0 noLoc; j_stk := []; j_mon := mo |}];
                 j_heap := jh; j_log := match mo with Some o => MEnter o :: log s | None => log s end |}).
      { unfold entered in EN. fold M in EN. unfold monOf. destruct (m_sync M); cbn [negb] in EN.
        - destruct (m_static M); [eexists; split; [reflexivity|]; injection EN as <-; reflexivity|].
          destruct args as [|[] ?]; try discriminate. eexists; split; [reflexivity|]; injection EN as <-; reflexivity.
        - eexists; split; [reflexivity|]; injection EN as <-; reflexivity. }
      destruct MO as (mo & MO & ->).
      assert (RD1 : ready s1).
      { destruct RD as (R1 & R2 & R3 & R4). unfold ready. rewrite A1, A2, A3. split; [assumption|]. split; [assumption|]. split; [assumption|].
        intros G. destruct (R4 G) as (T1 & T2 & T3). split; [lia|]. rewrite !MM by lia. auto. }
      destruct (entryFrame_ok s1 (sp s) args m mo RD1 ltac:(lia)) as (s2 & P2 & R2); try assumption.
      { rewrite A2. intros G. destruct RD as (_ & _ & _ & R4). apply R4. exact G. }
      rewrite A4, A5 in R2. rewrite P2. cbn [bind].
      destruct (run_ok E (frm s2) WF n s2 (hp s) {| j_m := m; j_pc := 0; j_loc := argLoc args 0 noLoc; j_stk := []; j_mon := mo |} [] jh _ R2 HR HJ SD) as (out & s3 & o & JS & RN & SR3). rewrite RN. cbn [bind].
      destruct out as [S'|v h' l'|x h' l']; cbn [stepRel] in SR3.
      * destruct SR3 as (-> & NX & f & rest & h & F1 & F2 & F3). do 2 eexists. split; [reflexivity|]. left. eexists. split; [exact JS|].
        cbn [agrees]. destruct F2 as (_ & -> & -> & _). auto.
      * destruct SR3 as (r & -> & RR & H3 & s4 & P4 & H4 & L4 & X4). rewrite P4. cbn [bind].
        do 2 eexists. split; [reflexivity|]. left. eexists. split; [exact JS|]. cbn [agrees]. rewrite H4. auto.
      * destruct SR3 as (-> & H3 & L3). do 2 eexists. split; [reflexivity|]. left. eexists. split; [exact JS|].
        cbn [agrees setExc hp log exc]. auto.
Qed.
End Entry.
