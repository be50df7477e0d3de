(** Frames: calls, returns and exception dispatch, on the representation of Interp_Rel. *)
From Verif Require Import Base Res Bits Interp_Types Interp_Model Jvm_Spec Interp_Obs Interp_Spec Interp_Rel Interp_Rel2 Interp_Rel3.
Import ListNotations.
Local Open Scope N_scope.
Local Open Scope res_scope.

(** * Instruction boundaries *)
Lemma ilen_pos : forall c pc l, ilen c pc = Some l -> 1 <= l.
Proof.
  intros c pc l H. unfold ilen, bindO, guard in H.
  repeat match type of H with
  | context [match ?y with _ => _ end] => destruct y eqn:?; try discriminate
  end; injection H as <-; lia.
Qed.

Lemma bounds_ge : forall fuel c p b, In b (bounds fuel c p) -> p <= b.
Proof.
  induction fuel as [|k IH]; intros c p b H; cbn [bounds] in H; [contradiction|].
  destruct (N.of_nat (length c) <=? p); [contradiction|]. destruct H as [->|H]; [lia|].
  destruct (ilen c p); [|contradiction]. apply IH in H. lia.
Qed.

Lemma bounds_apart : forall fuel c p pc b l,
  In pc (bounds fuel c p) -> In b (bounds fuel c p) -> ilen c pc = Some l -> b <= pc \/ pc + l <= b.
Proof.
  induction fuel as [|k IH]; intros c p pc b l P B L; cbn [bounds] in *; [contradiction|].
  destruct (N.of_nat (length c) <=? p); [contradiction|].
  destruct P as [->|P].
  - rewrite L in B. destruct B as [->|B]; [lia|]. apply bounds_ge in B. lia.
  - destruct (ilen c p) as [l0|] eqn:L0; [|contradiction].
    destruct B as [->|B]; [apply bounds_ge in P; lia|]. eapply IH; eassumption.
Qed.

Lemma boundary_apart : forall c pc b l,
  isBoundary c pc = true -> isBoundary c b = true -> ilen c pc = Some l -> b <= pc \/ pc + l <= b.
Proof.
  intros c pc b l P B L. unfold isBoundary in *.
  apply existsb_exists in P, B. destruct P as (p' & P & Pe), B as (b' & B & Be).
  apply N.eqb_eq in Pe, Be. subst. eapply bounds_apart; eassumption.
Qed.

Lemma boundary_lt : forall c pc, isBoundary c pc = true -> pc < N.of_nat (length c).
Proof.
  intros c pc P. unfold isBoundary in P. apply existsb_exists in P. destruct P as (p' & P & Pe).
  apply N.eqb_eq in Pe. subst p'. unfold boundaries in P. revert P. generalize (S (length c)) 0.
  intros n. induction n as [|k IH]; intros p P; cbn [bounds] in P; [contradiction|].
  destruct (N.leb_spec (N.of_nat (length c)) p); [contradiction|]. destruct P as [->|P]; [assumption|].
  destruct (ilen c p); [|contradiction]. apply IH in P. assumption.
Qed.

(** * Arguments *)
Lemma popArgs_spec : forall fuel n st acc args r,
  popArgs fuel n st acc = Some (args, r) ->
  exists taken, st = taken ++ r /\ args = rev taken ++ acc /\ depth taken = n.
Proof.
  induction fuel as [|k IH]; intros n st acc args r H; cbn [popArgs] in H.
  - destruct (N.eqb_spec n 0); [|discriminate]. injection H as <- <-. exists []. subst. auto.
  - destruct (N.eqb_spec n 0).
    + injection H as <- <-. exists []. subst. auto.
    + destruct st as [|v st]; [discriminate|]. destruct (N.leb_spec (vsize v) n); [|discriminate].
      apply IH in H. destruct H as (t & -> & -> & D). exists (v :: t). split; [reflexivity|].
      split; [cbn [rev]; rewrite <- app_assoc; reflexivity|]. rewrite depth_cons. lia.
Qed.
Lemma takeArgs_spec : forall n st args r,
  takeArgs n st = Some (args, r) -> st = rev args ++ r /\ depth (rev args) = n.
Proof.
  intros n st args r H. apply popArgs_spec in H. destruct H as (t & -> & -> & D).
  rewrite app_nil_r, rev_involutive. auto.
Qed.

Lemma depth_rev : forall a, depth (rev a) = depth a.
Proof. induction a as [|v a IH]; [reflexivity|]. cbn [rev]. rewrite depth_app, IH, !depth_cons. cbn. lia. Qed.

Lemma stkRel_rev_cons : forall mem lo v r sp,
  stkRel mem lo (rev (v :: r)) sp -> vrel mem lo v /\ valOk v /\ stkRel mem (lo + vsize v) (rev r) sp.
Proof.
  intros mem lo v r sp H. cbn [rev] in H. apply stkRel_app in H. destruct H as (A & B & C).
  cbn [stkRel] in C. destruct C as (C1 & C2 & C3 & C4).
  assert (K : sp - depth (rev r) = lo + vsize v) by lia. rewrite K in *.
  replace (lo + vsize v - vsize v) with lo in * by lia. auto.
Qed.

Lemma argLoc_rel : forall mem base n args k l sp,
  stkRel mem (base + k) (rev args) sp -> sp <= base + n -> locRel mem base n l ->
  locRel mem base n (argLoc args k l).
Proof.
  intros mem base n args. induction args as [|v r IH]; intros k l sp S B L; cbn [argLoc]; [assumption|].
  pose proof (stkRel_depth _ _ _ _ S) as D. rewrite depth_rev, depth_cons in D.
  apply stkRel_rev_cons in S. destruct S as (V & VO & S).
  apply IH with (sp := sp); [|assumption|].
  - rewrite N.add_assoc. assumption.
  - eapply locRel_set; try eassumption; [reflexivity|lia].
Qed.

Lemma callers_bot : forall E mem sz bot rest fr nxt lim,
  callers E mem sz bot rest fr nxt lim -> (bot <= fr)%Z.
Proof. intros E mem sz bot rest fr nxt lim H. destruct rest; cbn [callers] in H; lia. Qed.

Section Frames.
Variables (E : env) (bot : Z).
Hypothesis WF : wfEnv E.
Notation codeOf := (codeOf E).

Lemma stackOverflows_false : forall s m, stackOverflows E s m = false ->
  sp s + m_pf (e_method E m) + m_maxLocals (e_method E m) + 4 + m_maxStack (e_method E m) <= ssz s.
Proof. intros s m H. unfold stackOverflows, FrameFootprint in H. lia. Qed.

Definition monOf (M : method) (args : list val) : option (option N) :=
  if m_sync M then
    if m_static M then Some (Some (m_jclass M))
    else match args with VRef o :: _ => Some (Some o) | _ => None end
  else Some None.

Lemma pushFrame_ok : forall x s i h lg f rest args st m' l mo,
  Rst E bot x s i h lg (wst f (rev args ++ st)) rest ->
  depth (rev args) = m_pf (e_method E m') ->
  ilen (codeOf f) (j_pc f) = Some l -> i = j_pc f + l ->
  stackOverflows E s m' = false ->
  m_pf (e_method E m') <= m_maxLocals (e_method E m') ->
  monOf (e_method E m') args = Some mo ->
  isBoundary (m_code (e_method E m')) 0 = true ->
  exists s', pushFrame E s m' = Ok s' /\
    Rst E bot x s' 0 h (match mo with Some o => MEnter o :: lg | None => lg end)
      {| j_m := m'; j_pc := 0; j_loc := argLoc args 0 noLoc; j_stk := []; j_mon := mo |} (wst f st :: rest).
Proof.
  intros x s i h lg f rest args st m' l mo H D L Hi O PL MO B0.
  apply stackOverflows_false in O.
  destruct H as (A1 & A2 & A3 & A4 & A5 & A6 & A7 & A8 & base & nxt & F & C).
  pose proof (frameAt_lim _ _ _ _ _ _ _ _ F) as (L1 & L2 & L3).
  pose proof (callers_bot _ _ _ _ _ _ _ _ C) as CB.
  pose proof (fa_stk _ _ _ _ _ _ _ _ F) as SR. cbn [j_stk wst] in SR.
  apply stkRel_app in SR. destruct SR as (S1 & S2 & S3). rewrite D in *.
  set (M := e_method E m') in *. set (base' := sp s - m_pf M) in *.
  set (fr := Z.to_N (frm s)) in *.
  set (lg' := match mo with Some o => MEnter o :: lg | None => lg end).
  assert (P1 : (if m_sync M then
              if m_static M then Ok (addLog s (MEnter (m_jclass M)))
              else do o <- peekObject s base'; Ok (addLog s (MEnter o))
            else Ok s) = Ok (match mo with Some o => addLog s (MEnter o) | None => s end)).
  { unfold monOf in MO. destruct (m_sync M); [|injection MO as <-; reflexivity].
    destruct (m_static M); [injection MO as <-; reflexivity|].
    destruct args as [|v args']; [discriminate|].
    apply stkRel_rev_cons in S2. destruct S2 as (V & VO & S2).
    rewrite depth_rev, depth_cons in D. pose proof (vsize_pos v).
    destruct v; try discriminate. injection MO as <-. cbn [vrel] in V. unfold peekObject, peek, rdSlot.
    replace (base' <? ssz s) with true by lia. cbn [bind]. rewrite V. cbn [bind fst snd].
    rewrite N.eqb_refl. reflexivity. }
  set (s1 := match mo with Some o => addLog s (MEnter o) | None => s end) in *.
  assert (Q : mem s1 = mem s /\ ssz s1 = ssz s /\ sp s1 = sp s /\ frm s1 = frm s /\ ip s1 = ip s /\
              exc s1 = exc s /\ hp s1 = hp s /\ log s1 = lg').
  { unfold s1, lg'. destruct mo; cbn; auto 10. rewrite A3. auto 10. }
  destruct Q as (Q1 & Q2 & Q3 & Q4 & Q5 & Q6 & Q7 & Q8).
  set (frame := base' + m_maxLocals M).
  set (memF := fun j =>
     if j =? frame + 3 then (IntTag, 0) else if j =? frame + 2 then (ObjectTag, m') else
     if j =? frame then (IntTag, base') else if j =? frame + 1 then (IntTag, u32 (frm s)) else
     if (base' + m_pf M <=? j) && (j <? base' + m_pf M + (m_maxLocals M - m_pf M)) then (0, 0) else
     if j =? fr + 3 then (IntTag, ip s) else mem s j).
  assert (PF : exists s', pushFrame E s m' = Ok s' /\ mem s' = memF /\ ssz s' = ssz s /\ sp s' = frame + 4 /\
               frm s' = Z.of_N frame /\ ip s' = 0 /\ cur s' = m' /\ exc s' = exc s /\ hp s' = hp s /\ log s' = lg').
  { eexists. split.
    - unfold pushFrame. fold M. unfold below. replace (m_pf M <=? sp s) with true by lia. cbn [bind].
      fold base'. rewrite P1. cbn [bind]. rewrite Q4. replace (0 <=? frm s)%Z with true by lia.
      unfold frameIdx. replace (0 <=? frm s)%Z with true by lia. cbn [bind].
      unfold pokeInt, wrSlot. rewrite Q2. fold fr. unfold FrameIpOffset. replace (fr + 3 <? ssz s) with true by lia.
      cbn [bind]. replace (m_maxLocals M <? m_pf M) with false by lia.
      unfold zeroSlots. cbn [ssz setMem setIp mem sp frm ip cur exc hp log]. rewrite Q2.
      replace (base' + m_pf M + (m_maxLocals M - m_pf M) <=? ssz s) with true by lia. cbn [bind].
      cbn [ssz setMem setIp mem sp frm ip cur exc hp log]. rewrite ?Q2.
      fold frame. unfold FrameNextOffset, FrameBaseOffset, FrameMethodOffset, FrameFootprint, pokeObject, wrSlot.
      rewrite ?N.add_0_r.
      cbn [bind ssz setMem setIp mem sp frm ip cur exc hp log setSp setFrm]; rewrite ?Q2.
      replace (frame + 1 <? ssz s) with true by lia. cbn [bind ssz setMem setIp mem sp frm ip cur exc hp log setSp setFrm]; rewrite ?Q2.
      replace (frame <? ssz s) with true by lia. cbn [bind ssz setMem setIp mem sp frm ip cur exc hp log setSp setFrm]; rewrite ?Q2.
      replace (frame + 2 <? ssz s) with true by lia. cbn [bind ssz setMem setIp mem sp frm ip cur exc hp log setSp setFrm]; rewrite ?Q2.
      replace (frame + 3 <? ssz s) with true by lia. cbn [bind ssz setMem setIp mem sp frm ip cur exc hp log setSp setFrm]; rewrite ?Q2.
      reflexivity.
    - cbn [ssz setMem setIp mem sp frm ip cur exc hp log setSp setFrm].
      rewrite Q1, ?Q2, Q4, Q5, Q6, Q7, Q8. unfold memF. rewrite ?N.add_0_r.
      repeat (split; [reflexivity|]). reflexivity. }
  destruct PF as (s' & PF & E1 & E2 & E3 & E4 & E5 & E6 & E7 & E8 & E9).
  exists s'. split; [exact PF|].
  assert (X : forall j, j < sp s -> j <> fr + 3 -> memF j = mem s j).
  { intros j J1 J2. unfold memF. eqbs. cbn [andb]. reflexivity. }
  assert (X3 : memF (fr + 3) = (IntTag, ip s)).
  { unfold memF. eqbs. cbn [andb]. reflexivity. }
  assert (FRL : fr + 4 <= base') by lia.
  unfold Rst. rewrite E1, E2, E3, E4, E5, E6, E7, E8, E9.
  split; [reflexivity|]. split; [assumption|]. split; [reflexivity|]. split; [reflexivity|].
  split; [assumption|]. split; [assumption|]. split; [lia|]. split; [assumption|].
  rewrite N2Z.id. exists base', (frm s). split.
  - constructor; cbn [j_m j_stk j_loc j_pc j_mon]; fold M.
    + reflexivity.
    + unfold memF. eqbs. reflexivity.
    + unfold memF. eqbs. reflexivity.
    + unfold memF. eqbs. reflexivity.
    + unfold memF. eqbs. reflexivity.
    + apply argLoc_rel with (sp := sp s).
      * rewrite N.add_0_r. eapply stkRel_ext; [exact S2|]. intros j Hj. apply X; lia.
      * lia.
      * intros k v Hv. discriminate.
    + reflexivity.
    + cbn [depth fold_right]. lia.
    + lia.
    + unfold monOk. cbn [j_m j_mon]. fold M. unfold monOf in MO.
      destruct (m_sync M); [|congruence]. destruct (m_static M); [congruence|].
      destruct args as [|[] ?]; try discriminate. injection MO as <-. eauto.
    + exact B0.
  - cbn [callers wst j_m j_pc]. split; [lia|]. split; [assumption|]. fold fr. split.
    + exists l. split; [exact L|]. rewrite X3. rewrite <- Hi, A1. reflexivity.
    + exists base, nxt. split.
      * destruct F. cbn [j_m j_stk wst j_loc j_pc j_mon] in *. fold fr in fa_fr, fa_base, fa_next, fa_meth, fa_ip, fa_stk, fa_room.
        constructor; cbn [j_m j_stk wst j_loc j_pc j_mon]; try assumption; try (rewrite X by lia; assumption).
        -- rewrite X3. reflexivity.
        -- intros k v Hv. destruct (fa_loc k v Hv) as (V1 & V2 & V3). split; [assumption|]. split; [|assumption].
           eapply vrel_ext; [eassumption|]. intros j Hj. apply X; lia.
        -- eapply stkRel_ext; [exact S3|]. intros j Hj. apply X; lia.
        -- rewrite depth_app in fa_depth. lia.
      * eapply callers_ext; [eassumption|]. intros j Hj. apply X; lia.
Qed.

Lemma nxt_roundtrip : forall z, (-1 <= z < 2 ^ 31)%Z -> s32 (u32 z) = z.
Proof.
  intros z H. apply sbits_ubits; [lia|]. apply inI32. change (2 ^ 31)%Z with 2147483648%Z in H. lia.
Qed.

Lemma frame_fields : forall s f fr lim base nxt,
  frameAt E (mem s) (ssz s) f (Z.to_N fr) lim base nxt -> (0 <= fr)%Z -> ssz s < 2 ^ 31 -> (-1 <= nxt < 2 ^ 31)%Z ->
  frameMethod s fr = Ok (j_m f) /\ frameBase s fr = Ok base /\ frameNext s fr = Ok nxt.
Proof.
  intros s f fr lim base nxt F P Z N. pose proof (frameAt_lim _ _ _ _ _ _ _ _ F) as (L1 & L2 & L3).
  unfold frameMethod, frameBase, frameNext, frameIdx. replace (0 <=? fr)%Z with true by lia. cbn [bind].
  unfold FrameBaseOffset, FrameNextOffset, FrameMethodOffset. rewrite N.add_0_r.
  unfold peekObject, peekInt, peek, rdSlot.
  replace (Z.to_N fr <? ssz s) with true by lia. replace (Z.to_N fr + 1 <? ssz s) with true by lia.
  replace (Z.to_N fr + 2 <? ssz s) with true by lia. cbn [bind].
  rewrite (fa_base _ _ _ _ _ _ _ _ F), (fa_next _ _ _ _ _ _ _ _ F), (fa_meth _ _ _ _ _ _ _ _ F).
  cbn [fst snd bind]. rewrite !N.eqb_refl. cbn [bind]. rewrite nxt_roundtrip by assumption. auto.
Qed.

(** The monitor release of popFrame *)
Lemma popFrame_release : forall x s i h lg f rest base nxt,
  Rst E bot x s i h lg f rest ->
  frameAt E (mem s) (ssz s) f (Z.to_N (frm s)) (sp s) base nxt ->
  frameBase s (frm s) = Ok base -> lostMonitor E f = false ->
  exists s1,
  (if m_sync (e_method E (j_m f)) then
     if m_static (e_method E (j_m f)) then Ok (addLog s (MExit (m_jclass (e_method E (j_m f)))))
     else do b <- frameBase s (frm s); do o <- peekObject s b; Ok (addLog s (MExit o))
   else Ok s) = Ok s1 /\ mem s1 = mem s /\ ssz s1 = ssz s /\ sp s1 = sp s /\ frm s1 = frm s /\
   exc s1 = exc s /\ hp s1 = hp s /\ log s1 = exitLog f lg.
Proof.
  intros x s i h lg f rest base nxt H F FB LM. destruct H as (_ & _ & A3 & _).
  pose proof (frameAt_lim _ _ _ _ _ _ _ _ F) as (L1 & L2 & L3).
  pose proof (fa_mon _ _ _ _ _ _ _ _ F) as MO. unfold monOk in MO. unfold lostMonitor in LM. unfold exitLog.
  destruct (m_sync (e_method E (j_m f))).
  - destruct (m_static (e_method E (j_m f))).
    + rewrite MO. eexists. split; [reflexivity|]. cbn. rewrite A3. auto 10.
    + destruct MO as (o & MO). rewrite MO in *. cbn [negb andb] in LM.
      destruct (j_loc f 0) as [v|] eqn:V0; [|discriminate]. destruct v; try discriminate.
      apply negb_false_iff, N.eqb_eq in LM. subst o0.
      destruct (fa_loc _ _ _ _ _ _ _ _ F 0 _ V0) as (V1 & V2 & V3). rewrite N.add_0_r in V2. cbn [vrel] in V2.
      rewrite FB. cbn [bind]. unfold peekObject, peek, rdSlot. replace (base <? ssz s) with true by lia. cbn [bind].
      rewrite V2. cbn [fst snd]. rewrite N.eqb_refl. eexists. split; [reflexivity|]. cbn. rewrite A3. auto 10.
  - rewrite MO. eexists. split; [reflexivity|]. auto 10.
Qed.

Lemma popFrame_ok : forall x s i h lg f g rest,
  Rst E bot x s i h lg f (g :: rest) -> lostMonitor E f = false ->
  exists s' l, popFrame E s = Ok s' /\ ilen (codeOf g) (j_pc g) = Some l /\
    Rst E bot x s' (j_pc g + l) h (exitLog f lg) g rest /\ (frm s' < frm s)%Z /\ ssz s' = ssz s /\
    mem s' (Z.to_N (frm s') + 3) = (IntTag, j_pc g + l).
Proof.
  intros x s i h lg f g rest H LM. pose proof H as H0.
  destruct H as (A1 & A2 & A3 & A4 & A5 & A6 & A7 & A8 & base & nxt & F & C).
  pose proof (frameAt_lim _ _ _ _ _ _ _ _ F) as (L1 & L2 & L3).
  cbn [callers] in C. destruct C as (C1 & C2 & (l & C3 & C4) & base' & nxt' & F' & C').
  pose proof (frameAt_lim _ _ _ _ _ _ _ _ F') as (L1' & L2' & L3').
  assert (NR : (-1 <= nxt < 2 ^ 31)%Z) by (change (2 ^ 31) with 2147483648 in A6; change (2 ^ 31)%Z with 2147483648%Z; lia).
  destruct (frame_fields s f (frm s) _ _ _ F A7 A6 NR) as (FM & FB & FN).
  assert (NR' : (-1 <= nxt' < 2 ^ 31)%Z).
  { change (2 ^ 31)%Z with 2147483648%Z in *. change (2 ^ 31) with 2147483648 in A6. destruct rest; cbn [callers] in C'; lia. }
  destruct (popFrame_release _ _ _ _ _ _ _ _ _ H0 F FB LM) as (s1 & P1 & Q1 & Q2 & Q3 & Q4 & Q5 & Q6 & Q7).
  assert (FB1 : frameBase s1 (frm s1) = Ok base).
  { rewrite <- FB. unfold frameBase, peekInt, peek, rdSlot. rewrite Q1, Q2, Q4. reflexivity. }
  assert (FN1 : frameNext (setSp s1 base) (frm (setSp s1 base)) = Ok nxt).
  { rewrite <- FN. unfold frameNext, peekInt, peek, rdSlot. cbn [mem ssz setSp frm]. rewrite Q1, Q2, Q4. reflexivity. }
  assert (FM1 : frameMethod (setSp s1 base) nxt = Ok (j_m g)).
  { rewrite <- Q1, <- Q2 in F'.
    destruct (frame_fields (setSp s1 base) g nxt _ _ _ F' C2 ltac:(cbn; rewrite Q2; assumption) NR') as (K & _). exact K. }
  assert (FI1 : frameIp (setSp s1 base) nxt = Ok (j_pc g + l)).
  { unfold frameIp, frameIdx. replace (0 <=? nxt)%Z with true by lia. cbn [bind].
    unfold peekInt, peek, rdSlot, FrameIpOffset. cbn [mem ssz setSp]. rewrite Q1, Q2, C4.
    replace (Z.to_N nxt + 3 <? ssz s) with true by lia. reflexivity. }
  exists (setIp (setFrm (setSp s1 base) nxt (j_m g)) (j_pc g + l)), l.
  split; [|split; [exact C3|split; [|split; [|split]]]].
  - unfold popFrame. rewrite FM. cbn [bind]. rewrite P1. cbn [bind]. rewrite FB1. cbn [bind].
    rewrite FN1. cbn [bind]. replace (0 <=? nxt)%Z with true by lia. rewrite FM1. cbn [bind]. rewrite FI1. reflexivity.
  - unfold Rst. cbn [ip hp log cur exc ssz frm mem sp setSp setIp setFrm]. rewrite Q1, Q2, Q5, Q6, Q7.
    split; [reflexivity|]. split; [assumption|]. split; [reflexivity|]. split; [reflexivity|].
    split; [assumption|]. split; [assumption|]. split; [assumption|]. split; [assumption|].
    exists base', nxt'. auto.
  - cbn. lia.
  - cbn. assumption.
  - cbn. rewrite Q1. exact C4.
Qed.

Lemma popFrame_bottom : forall x s i h lg f,
  Rst E bot x s i h lg f [] -> lostMonitor E f = false ->
  exists s', popFrame E s = Ok s' /\ (frm s' < bot)%Z /\ hp s' = h /\ log s' = exitLog f lg /\ exc s' = x.
Proof.
  intros x s i h lg f H LM. pose proof H as H0.
  destruct H as (A1 & A2 & A3 & A4 & A5 & A6 & A7 & A8 & base & nxt & F & C).
  pose proof (frameAt_lim _ _ _ _ _ _ _ _ F) as (L1 & L2 & L3).
  cbn [callers] in C. destruct C as (C1 & C2 & C3).
  assert (NR : (-1 <= nxt < 2 ^ 31)%Z) by (change (2 ^ 31) with 2147483648 in A6; change (2 ^ 31)%Z with 2147483648%Z; lia).
  destruct (frame_fields s f (frm s) _ _ _ F A7 A6 NR) as (FM & FB & FN).
  destruct (popFrame_release _ _ _ _ _ _ _ _ _ H0 F FB LM) as (s1 & P1 & Q1 & Q2 & Q3 & Q4 & Q5 & Q6 & Q7).
  assert (FB1 : frameBase s1 (frm s1) = Ok base).
  { rewrite <- FB. unfold frameBase, peekInt, peek, rdSlot. rewrite Q1, Q2, Q4. reflexivity. }
  assert (FN1 : frameNext (setSp s1 base) (frm (setSp s1 base)) = Ok nxt).
  { rewrite <- FN. unfold frameNext, peekInt, peek, rdSlot. cbn [mem ssz setSp frm]. rewrite Q1, Q2, Q4. reflexivity. }
  unfold popFrame. rewrite FM. cbn [bind]. rewrite P1. cbn [bind]. rewrite FB1. cbn [bind]. rewrite FN1. cbn [bind].
  destruct (Z.leb_spec 0 nxt) as [P|P].
  - destruct (C3 P) as (D1 & D2 & D3). unfold frameMethod, frameIp, frameIdx. replace (0 <=? nxt)%Z with true by lia.
    cbn [bind]. unfold peekInt, peekObject, peek, rdSlot, FrameIpOffset, FrameMethodOffset. cbn [mem ssz setSp].
    rewrite Q1, Q2. replace (Z.to_N nxt + 3 <? ssz s) with true by lia. replace (Z.to_N nxt + 2 <? ssz s) with true by lia.
    cbn [bind]. rewrite D2, D3, !N.eqb_refl. cbn [bind]. eexists. split; [reflexivity|]. cbn.
    rewrite Q5, Q6, Q7. split; [lia|]. auto.
  - eexists. split; [reflexivity|]. cbn. rewrite Q5, Q6, Q7. split; [lia|]. auto.
Qed.

(** * Handlers *)
Lemma findHandler_ok : forall h f i l x k hs,
  isBoundary (codeOf f) (j_pc f) = true -> ilen (codeOf f) (j_pc f) = Some l ->
  j_pc f < i <= j_pc f + l -> objectClass h x = Ok k ->
  incl hs (m_handlers (e_method E (j_m f))) ->
  findHandler E h (j_m f) i x hs = Ok (find (catches E (j_m f) (j_pc f) x k) hs).
Proof.
  intros h f i l x k hs B L I OC. induction hs as [|e hs IH]; intros IN; [reflexivity|].
  assert (IN' : incl hs (m_handlers (e_method E (j_m f)))) by (intros y Hy; apply IN; right; exact Hy).
  specialize (IH IN'). cbn [findHandler find].
  pose proof (we_method E WF (j_m f)) as WM.
  destruct (wm_whole _ WM _ B) as (l' & L' & W). unfold Interp_Rel3.codeOf in L. rewrite L in L'. injection L' as <-.
  pose proof (wm_len _ WM) as CL. change (2 ^ 16) with 65536 in CL.
  assert (P : (i + 2 ^ 32 - 1) mod 2 ^ 32 = i - 1).
  { change (2 ^ 32) with 4294967296. lia. }
  rewrite P.
  destruct (wm_handlers _ WM e (IN e (or_introl eq_refl))) as [HS HE].
  assert (S1 : h_start e <= j_pc f \/ j_pc f + l <= h_start e)
    by (destruct HS; [eapply boundary_apart; eassumption | lia]).
  assert (S2 : h_end e <= j_pc f \/ j_pc f + l <= h_end e)
    by (destruct HE; [eapply boundary_apart; eassumption | lia]).
  unfold catches at 1.
  replace (h_start e <=? i - 1) with (h_start e <=? j_pc f) by lia.
  replace (i - 1 <? h_end e) with (j_pc f <? h_end e) by lia.
  destruct ((h_start e <=? j_pc f) && (j_pc f <? h_end e)); cbn [andb]; [|exact IH].
  destruct (h_type e =? 0); cbn [orb]; [reflexivity|].
  destruct (x =? e_shutdown E); cbn [negb andb]; [exact IH|].
  rewrite OC. cbn [bind]. destruct (e_instance E (e_resolveClass E (j_m f) (h_type e)) k); [reflexivity|exact IH].
Qed.

(** What an outcome of the specification means for the interpreter's outcome *)
Definition outRel (jh : jheap) (h : heap) (out : jres) (s' : cst) (o : sout) : Prop :=
  match out with
  | JRun S' =>
      o = SLoop /\ j_heap S' = jh /\
      exists f' rest', j_frames S' = f' :: rest' /\ Rst E bot 0 s' (j_pc f') h (j_log S') f' rest'
  | JThrown e jh' lg' => o = SUncaught e /\ jh' = jh /\ hp s' = h /\ log s' = lg' /\ exc s' = e
  | JDone _ _ _ => False
  end.

Lemma catch_ok : forall x jh h rest f s i lg e out,
  Rst E bot x s i h lg f rest -> x < 2 ^ 64 ->
  runs E {| j_m := j_m f; j_pc := h_ip e; j_loc := j_loc f; j_stk := [VRef x]; j_mon := j_mon f |} rest jh lg = Some out ->
  exists s' o,
    (do f <- frameIdx (frm s);
     let s1 := setIp (setSp s (f + FrameFootprint)) (h_ip e) in
     do s2 <- pushObject s1 (exc s1);
     Ok (setExc s2 0, SLoop)) = Ok (s', o) /\ outRel jh h out s' o.
Proof.
  intros x jh h rest f s i lg e out H X J.
  pose proof H as (A1 & A2 & A3 & A4 & A5 & A6 & A7 & A8 & base & nxt & F & C).
  pose proof (frameAt_lim _ _ _ _ _ _ _ _ F) as (L1 & L2 & L3).
  unfold runs, guard in J.
  match type of J with (if ?c then _ else _) = _ => destruct c eqn:RN; [|discriminate] end.
  injection J as <-. apply andb_true_iff in RN. destruct RN as [RN _].
  unfold runnable in RN. cbn [j_m j_pc j_stk] in RN. apply andb_true_iff in RN. destruct RN as [RB RD].
  cbn [depth fold_right] in RD. change (vsize (VRef x)) with 1 in RD.
  unfold frameIdx. replace (0 <=? frm s)%Z with true by lia. cbn [bind].
  assert (H1 : Rst E bot x (setIp (setSp s (Z.to_N (frm s) + 4)) (h_ip e)) (h_ip e) h lg
                 (wst {| j_m := j_m f; j_pc := h_ip e; j_loc := j_loc f; j_stk := [VRef x]; j_mon := j_mon f |} []) rest).
  { unfold Rst. cbn [ip hp log cur exc ssz frm mem sp setSp setIp wst j_m].
    split; [reflexivity|]. do 7 (split; [assumption|]). exists base, nxt. split; [|exact C].
    destruct F. constructor; cbn [j_m j_stk wst j_loc j_pc j_mon]; try assumption; [reflexivity|].
    cbn [depth fold_right]. lia. }
  destruct (pushObject_ok _ _ _ _ _ _ _ _ _ _ x H1 X) as (s2 & P2 & H2).
  { unfold maxSt. cbn [j_m]. rewrite depth_cons. change (vsize (VRef x)) with 1. cbn [depth fold_right]. lia. }
  cbn [exc setIp setSp]. rewrite A5. unfold FrameFootprint. rewrite P2. cbn [bind].
  exists (setExc s2 0), SLoop. split; [reflexivity|].
  cbn [outRel j_heap j_frames j_log]. split; [reflexivity|]. split; [reflexivity|].
  do 2 eexists. split; [reflexivity|]. cbn [j_pc].
  destruct H2 as (B1 & B2 & B3 & B4 & B5 & B6 & B7 & B8 & B9).
  unfold Rst. cbn [ip hp log cur exc ssz frm mem sp setExc].
  do 4 (split; [assumption|]). split; [reflexivity|]. do 3 (split; [assumption|]). exact B9.
Qed.

Lemma unwind_ok : forall x jh h k rest f s i si lg l fuel out,
  Rst E bot x s i h lg f rest ->
  mem s (Z.to_N (frm s) + 3) = (IntTag, si) ->
  ilen (codeOf f) (j_pc f) = Some l -> j_pc f < si <= j_pc f + l ->
  objectClass h x = Ok k -> x < 2 ^ 64 ->
  existsb (lostMonitor E) (f :: rest) = false ->
  jthrow E (f :: rest) jh lg x k = Some out ->
  (Z.to_nat (frm s - bot) + 2 <= fuel)%nat ->
  exists s' o, unwind fuel E bot s = Ok (s', o) /\ outRel jh h out s' o.
Proof.
  intros x jh h k rest. induction rest as [|g rest IH];
    intros f s i si lg l fuel out H SI L I OC X LM J FU;
    (destruct fuel as [|fuel]; [lia|]); cbn [unwind];
    pose proof H as (A1 & A2 & A3 & A4 & A5 & A6 & A7 & A8 & base & nxt & F & C);
    pose proof (frameAt_lim _ _ _ _ _ _ _ _ F) as (L1 & L2 & L3);
    pose proof (callers_bot _ _ _ _ _ _ _ _ C) as CB;
    replace (frm s <? bot)%Z with false by lia;
    pose proof (fa_pc _ _ _ _ _ _ _ _ F) as B;
    (assert (FM : frameMethod s (frm s) = Ok (j_m f));
     [ unfold frameMethod, frameIdx; replace (0 <=? frm s)%Z with true by lia; cbn [bind];
       unfold peekObject, peek, rdSlot, FrameMethodOffset;
       replace (Z.to_N (frm s) + 2 <? ssz s) with true by lia; cbn [bind];
       rewrite (fa_meth _ _ _ _ _ _ _ _ F); reflexivity |]);
    (assert (FI : frameIp s (frm s) = Ok si);
     [ unfold frameIp, frameIdx; replace (0 <=? frm s)%Z with true by lia; cbn [bind];
       unfold peekInt, peek, rdSlot, FrameIpOffset;
       replace (Z.to_N (frm s) + 3 <? ssz s) with true by lia; cbn [bind];
       rewrite SI; reflexivity |]);
    rewrite FM; cbn [bind]; rewrite FI; cbn [bind];
    replace (findHandler E (hp s) (j_m f) si (exc s) (m_handlers (e_method E (j_m f))))
      with (findHandler E h (j_m f) si x (m_handlers (e_method E (j_m f)))) by (rewrite A2, A5; reflexivity);
    rewrite (findHandler_ok h f si l x k _ B L I OC (incl_refl _)); cbn [bind];
    cbn [jthrow] in J;
    (destruct (find (catches E (j_m f) (j_pc f) x k) (m_handlers (e_method E (j_m f)))) as [e|] eqn:FH;
     [ eapply catch_ok; eassumption |]).
  - cbn [jthrow] in J. injection J as <-. cbn [existsb] in LM.
    destruct (popFrame_bottom x s i h lg f H ltac:(destruct (lostMonitor E f); [discriminate|reflexivity]))
      as (s' & P & P1 & P2 & P3 & P4).
    rewrite P. cbn [bind]. destruct fuel as [|fuel]; [lia|]. cbn [unwind]. replace (frm s' <? bot)%Z with true by lia.
    do 2 eexists. split; [reflexivity|]. cbn [outRel]. rewrite P4. auto 6.
  - cbn [existsb] in LM. destruct (lostMonitor E f) eqn:LF; [discriminate|]. cbn [orb] in LM.
    destruct (popFrame_ok x s i h lg f g rest H LF) as (s' & l' & P & L' & R' & FR & SZ & M').
    rewrite P. cbn [bind]. pose proof (ilen_pos _ _ _ L').
    pose proof R' as (_ & _ & _ & _ & _ & _ & _ & _ & base' & nxt' & F' & C'). pose proof (callers_bot _ _ _ _ _ _ _ _ C').
    eapply IH; try eassumption; lia.
Qed.

Lemma frm_lt : forall x s i h lg f rest, Rst E bot x s i h lg f rest -> (bot <= frm s)%Z /\ Z.to_N (frm s) + 4 <= ssz s /\ (0 <= bot)%Z.
Proof.
  intros x s i h lg f rest (A1 & A2 & A3 & A4 & A5 & A6 & A7 & A8 & base & nxt & F & C).
  pose proof (frameAt_lim _ _ _ _ _ _ _ _ F) as (L1 & L2 & L3). pose proof (callers_bot _ _ _ _ _ _ _ _ C). lia.
Qed.

(** label throw_ *)
Lemma throw_ok : forall x jh h k f rest s i lg l st out,
  Rst E bot x s i h lg (wst f st) rest ->
  ilen (codeOf f) (j_pc f) = Some l -> j_pc f < i <= j_pc f + l ->
  objectClass h x = Ok k -> x < 2 ^ 64 ->
  existsb (lostMonitor E) (f :: rest) = false ->
  jthrow E (f :: rest) jh lg x k = Some out ->
  exists s' o,
   (do f <- frameIdx (frm s);
    do s2 <- pokeInt s (f + FrameIpOffset) (ip s);
    unwind (N.to_nat (ssz s2 + 2)) E bot s2) = Ok (s', o) /\ outRel jh h out s' o.
Proof.
  intros x jh h k f rest s i lg l st out H L I OC X LM J.
  destruct (frm_lt _ _ _ _ _ _ _ H) as (B1 & B2 & B3).
  pose proof (Rst_ip _ _ _ _ _ _ _ _ _ H) as IP.
  unfold frameIdx. replace (0 <=? frm s)%Z with true by lia. cbn [bind].
  unfold pokeInt, wrSlot, FrameIpOffset. replace (Z.to_N (frm s) + 3 <? ssz s) with true by lia. cbn [bind].
  eapply (unwind_ok x jh h k rest (wst f st)) with (i := i) (si := i) (lg := lg) (l := l); try assumption.
  - destruct H as (A1 & A2 & A3 & A4 & A5 & A6 & A7 & A8 & base & nxt & F & C).
    pose proof (frameAt_lim _ _ _ _ _ _ _ _ F) as (L1 & L2 & L3).
    unfold Rst. cbn [ip hp log cur exc ssz frm mem sp setMem].
    do 8 (split; [assumption|]). exists base, nxt. split.
    + destruct F. constructor; try assumption; try (replace (_ =? _) with false by lia; assumption).
      * rewrite N.eqb_refl. reflexivity.
      * intros j v Hv. destruct (fa_loc j v Hv) as (V1 & V2 & V3). split; [assumption|]. split; [|assumption].
        eapply vrel_ext; [eassumption|]. intros q Hq. cbn [j_m wst] in *.
        replace (q =? Z.to_N (frm s) + 3) with false by lia. reflexivity.
      * eapply stkRel_ext; [eassumption|]. intros q Hq. replace (q =? Z.to_N (frm s) + 3) with false by lia. reflexivity.
    + eapply callers_ext; [eassumption|]. intros q Hq. replace (q =? Z.to_N (frm s) + 3) with false by lia. reflexivity.
  - cbn [mem frm setMem]. rewrite N.eqb_refl, IP. reflexivity.
  - cbn [frm ssz setMem]. lia.
Qed.
End Frames.
