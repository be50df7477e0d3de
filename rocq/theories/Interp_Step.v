(** Every step of the interpreter is a step of the specification. *)
From Verif Require Import Base Res Bits Interp_Types Interp_Model Jvm_Spec Interp_Obs Interp_Spec.
From Verif Require Import Interp_Rel Interp_Rel2 Interp_Rel3 Interp_Rel4 Interp_Heap Interp_Arith Interp_Exec.
From Verif Require Import Interp_ExecA Interp_ExecB Interp_ExecC Interp_ExecD.
Import ListNotations.
Local Open Scope N_scope.
Local Open Scope res_scope.

Section Step.
Variables (E : env) (bot : Z).
Hypothesis WF : wfEnv E.
Notation codeOf := (codeOf E).
Notation Rs := (Rst E bot).

Lemma exec_ok : forall s h lg f rest jh,
  Rs 0 s (j_pc f + 1) h lg f rest -> hrel E h jh -> jnext jh < 2 ^ 63 ->
  forall o, okOp E bot s h lg f rest jh o.
Proof.
  intros s h lg f rest jh H HR HJ o. destruct o;
    first [ eapply ok_const; solve [eassumption | exact I]
          | eapply ok_push; solve [eassumption | exact I]
          | eapply ok_local; solve [eassumption | exact I]
          | eapply ok_stack; solve [eassumption | exact I]
          | eapply ok_int; solve [eassumption | exact I]
          | eapply ok_div; solve [eassumption | exact I]
          | eapply ok_float; solve [eassumption | exact I]
          | eapply ok_conv; eassumption
          | eapply ok_inc; eassumption
          | eapply ok_if; solve [eassumption | exact I]
          | eapply ok_goto; solve [eassumption | exact I]
          | eapply ok_switch; solve [eassumption | exact I]
          | eapply ok_return; eassumption
          | eapply ok_wide; eassumption
          | eapply ok_field; solve [eassumption | exact I]
          | eapply ok_new; solve [eassumption | exact I]
          | eapply ok_object; solve [eassumption | exact I]
          | eapply ok_arrload; eassumption
          | eapply ok_arrstore; eassumption
          | eapply ok_invoke; solve [eassumption | exact I] ].
Qed.

Lemma Rst_pc : forall x s i h lg g rest p,
  Rs x s i h lg g rest -> isBoundary (m_code (e_method E (j_m g))) p = true ->
  Rs x s i h lg {| j_m := j_m g; j_pc := p; j_loc := j_loc g; j_stk := j_stk g; j_mon := j_mon g |} rest.
Proof.
  intros x s i h lg g rest p (A1 & A2 & A3 & A4 & A5 & A6 & A7 & A8 & base & nxt & F & C) B.
  unfold Rst. cbn [j_m]. do 8 (split; [assumption|]). exists base, nxt. split; [|exact C].
  destruct F. constructor; cbn [j_m j_pc j_loc j_stk j_mon]; assumption.
Qed.

Lemma Rst_boundary : forall x s i h lg g rest, Rs x s i h lg g rest -> isBoundary (codeOf g) (j_pc g) = true.
Proof. intros x s i h lg g rest (_ & _ & _ & _ & _ & _ & _ & _ & base & nxt & F & _). exact (fa_pc _ _ _ _ _ _ _ _ F). Qed.

Definition stepRel (out : jres) (s' : cst) (o : sout) : Prop :=
  match out with
  | JRun S' =>
      o = SLoop /\ jnext (j_heap S') < 2 ^ 63 /\
      exists f rest h, j_frames S' = f :: rest /\ Rs 0 s' (j_pc f) h (j_log S') f rest /\ hrel E h (j_heap S')
  | JDone v jh lg =>
      exists r, o = SRet r /\ retRel v r /\ hrel E (hp s') jh /\
      exists s2, popFrame E s' = Ok s2 /\ hp s2 = hp s' /\ log s2 = lg /\ exc s2 = 0
  | JThrown x jh lg => o = SUncaught x /\ hrel E (hp s') jh /\ log s' = lg
  end.

Lemma jthrow_next : forall fs h lg o k S', jthrow E fs h lg o k = Some (JRun S') -> jnext (j_heap S') < 2 ^ 63.
Proof.
  induction fs as [|f fs IH]; intros h lg o k S' J; cbn [jthrow] in J; [discriminate|].
  destruct (find _ _) as [e|].
  - unfold runs, guard in J. destruct (_ && (jnext h <? 2 ^ 63)) eqn:G; [|discriminate].
    injection J as <-. cbn [j_heap]. apply andb_true_iff in G. destruct G as [_ G]. apply N.ltb_lt in G. exact G.
  - eapply IH. exact J.
Qed.
Lemma jthrow_done : forall fs h lg o k v h' l', jthrow E fs h lg o k <> Some (JDone v h' l').
Proof.
  induction fs as [|f fs IH]; intros h lg o k v h' l' J; cbn [jthrow] in J; [discriminate|].
  destruct (find _ _) as [e|].
  - unfold runs, guard in J. destruct (_ && _); discriminate.
  - eapply IH. exact J.
Qed.

Lemma outRel_stepRel : forall jh h out s' o fs lg x k,
  outRel E bot jh h out s' o -> hrel E h jh -> jthrow E fs jh lg x k = Some out -> stepRel out s' o.
Proof.
  intros jh h out s' o fs lg x k OR HR J. destruct out as [S'|v h' l'|e h' l']; cbn [outRel stepRel] in *.
  - destruct OR as (A & B & f' & rest' & C & D). split; [assumption|]. split; [eapply jthrow_next; exact J|].
    exists f', rest', h. rewrite B. auto.
  - contradiction.
  - destruct OR as (A & B & C & D & F). subst. auto.
Qed.

Lemma runs_inv : forall f rest jh lg out, runs E f rest jh lg = Some out ->
  isBoundary (codeOf f) (j_pc f) = true /\ depth (j_stk f) <= maxSt E f /\ jnext jh < 2 ^ 63 /\
  out = JRun {| j_frames := f :: rest; j_heap := jh; j_log := lg |}.
Proof.
  intros f rest jh lg out J. unfold runs, guard in J. destruct (runnable E f && (jnext jh <? 2 ^ 63)) eqn:G; [|discriminate].
  injection J as <-. apply andb_true_iff in G. destruct G as [G1 G2]. apply N.ltb_lt in G2.
  unfold runnable in G1. apply andb_true_iff in G1. destruct G1 as [G1 G3]. apply N.leb_le in G3. auto.
Qed.

Lemma stepRun : forall f rest jh lg h s' out,
  runs E f rest jh lg = Some out -> Rs 0 s' (j_pc f) h lg f rest -> hrel E h jh -> stepRel out s' SLoop.
Proof.
  intros f rest jh lg h s' out J R HR. apply runs_inv in J. destruct J as (_ & _ & NX & ->). cbn [stepRel j_heap j_frames j_log].
  split; [reflexivity|]. split; [assumption|]. exists f, rest, h. auto.
Qed.

Lemma ret_ok : forall s i h lg f g rest v r out jh,
  Rs 0 s i h lg f (g :: rest) -> lostMonitor E f = false -> retRel v r -> hrel E h jh ->
  (let? l := ilen (codeOf g) (j_pc g) in
   runs E {| j_m := j_m g; j_pc := j_pc g + l; j_loc := j_loc g;
             j_stk := match v with Some x => x :: j_stk g | None => j_stk g end; j_mon := j_mon g |}
        rest jh (exitLog f lg)) = Some out ->
  exists s', ret E bot s r = Ok (s', CLoop) /\ stepRel out s' SLoop.
Proof.
  intros s i h lg f g rest v r out jh R LM RR HR J.
  destruct (popFrame_ok E bot _ _ _ _ _ _ _ _ R LM) as (s1 & l & PF & L & R1 & FL & _).
  rewrite L in J. cbn [bindO] in J. pose proof (runs_inv _ _ _ _ _ J) as (B & D & NX & _). cbn [j_m j_pc j_stk] in B, D.
  assert (BF : (bot <? frm s)%Z = true).
  { destruct R1 as (_ & _ & _ & _ & _ & _ & _ & _ & b1 & n1 & _ & C1). apply callers_bot in C1. lia. }
  assert (X : exists s2, ret E bot s r = Ok (s2, CLoop) /\
     Rs 0 s2 (j_pc g + l) h (exitLog f lg) (wst g (match v with Some x => x :: j_stk g | None => j_stk g end)) rest).
  { unfold ret. rewrite BF, PF. cbn [bind]. apply Rst_stk in R1. unfold loop.
    change (maxSt E _) with (maxSt E g) in D.
    assert (P1 : forall v n, cat2 v = false -> valTag v = IntTag -> valBits v = n -> valOk v -> depth (v :: j_stk g) <= maxSt E g ->
      exists s2, (do s0 <- (do s2 <- pushInt s1 n; Ok s2); Ok (s0, CLoop)) = Ok (s2, CLoop) /\
        Rs 0 s2 (j_pc g + l) h (exitLog f lg) (wst g (v :: j_stk g)) rest).
    { intros w n Q1 Q2 Q3 Q4 QD. destruct (pushInt_ok _ _ _ _ _ _ _ _ _ _ w n R1 Q1 Q2 Q3 Q4 QD) as (s2 & P & R2). rewrite P. cbn [bind]. eauto. }
    assert (P2 : forall v n, cat2 v = true -> valBits v = n -> valOk v -> depth (v :: j_stk g) <= maxSt E g ->
      exists s2, (do s0 <- (do s2 <- pushLong s1 n; Ok s2); Ok (s0, CLoop)) = Ok (s2, CLoop) /\
        Rs 0 s2 (j_pc g + l) h (exitLog f lg) (wst g (v :: j_stk g)) rest).
    { intros w n Q1 Q3 Q4 QD. destruct (pushLong_ok _ _ _ _ _ _ _ _ _ _ w n R1 Q1 Q3 Q4 QD) as (s2 & P & R2). rewrite P. cbn [bind]. eauto. }
    cbn [bind] in P1, P2.
    destruct v as [[z|z|b|b|o'|p]|], r as [|n|n|o]; try contradiction; cbn [retRel] in RR.
    - destruct RR as [-> Q]. destruct (P1 (VInt z) (u32 z) eq_refl eq_refl eq_refl Q D) as (s2 & P & R2).
      destruct (pushInt s1 (u32 z)); cbn [bind] in *; try discriminate; eauto.
    - destruct RR as [-> Q]. destruct (P2 (VLong z) (u64 z) eq_refl eq_refl Q D) as (s2 & P & R2).
      destruct (pushLong s1 (u64 z)); cbn [bind] in *; try discriminate; eauto.
    - destruct RR as [-> Q]. destruct (P1 (VFlt b) b eq_refl eq_refl eq_refl Q D) as (s2 & P & R2).
      destruct (pushInt s1 b); cbn [bind] in *; try discriminate; eauto.
    - destruct RR as [-> Q]. destruct (P2 (VDbl b) b eq_refl eq_refl Q D) as (s2 & P & R2).
      destruct (pushLong s1 b); cbn [bind] in *; try discriminate; eauto.
    - destruct RR as [-> Q].
      destruct (pushObject_ok _ _ _ _ _ _ _ _ _ _ o R1 Q D) as (s2 & P & R2). rewrite P. cbn [bind]. eauto.
    - cbn [bind]. eauto. }
  destruct X as (s2 & X & R2). exists s2. split; [exact X|]. eapply stepRun; [exact J| |exact HR].
  cbn [j_pc]. apply Rst_pc with (p := j_pc g + l) in R2; [exact R2|exact B].
Qed.

Theorem step_ok : forall s h f rest jh lg,
  Rs 0 s (j_pc f) h lg f rest -> hrel E h jh -> jnext jh < 2 ^ 63 ->
  let S := {| j_frames := f :: rest; j_heap := jh; j_log := lg |} in
  divergent E S = false -> (forall ov, jstep ov E S <> None) ->
  exists ov out s' o, jstep ov E S = Some out /\ step E bot s = Ok (s', o) /\ stepRel out s' o.
Proof.
  intros s h f rest jh lg R HR HJ S DV NN. unfold divergent in DV. cbn [S j_frames j_heap] in DV.
  apply orb_false_iff in DV. destruct DV as [DV LM].
  assert (LMf : lostMonitor E f = false) by (cbn [existsb] in LM; apply orb_false_iff in LM; exact (proj1 LM)).
  set (c := m_code (e_method E (j_m f))) in *.
  assert (OPX : exists o, opAt c (j_pc f) = Some o).
  { specialize (NN false). unfold jstep in NN. cbn [S j_frames] in NN. unfold jeval in NN. fold c in NN.
    destruct (opAt c (j_pc f)) as [o|]; [eauto|]. cbn [bindO] in NN. congruence. }
  destruct OPX as [o OP].
  assert (BY : exists b, byteAt c (j_pc f) = Some b /\ decode b = Some o).
  { unfold opAt, bindO in OP. destruct (byteAt c (j_pc f)) as [b|] eqn:B; [|discriminate]. exists b. split; [reflexivity|].
    rewrite decode_jdecode; [assumption|]. eapply byteAt_byte; [apply (bytesOk E WF f)|exact B]. }
  destruct BY as (b & BY & DC).
  destruct (next1_ok _ _ _ _ _ _ _ _ _ _ R BY) as [N1 R1].
  unfold step. rewrite N1. cbn [bind]. rewrite DC. clear N1.
  destruct (jeval E (j_m f) (j_pc f) (j_loc f) (j_stk f) jh) as [e|] eqn:JE.
  2:{ exfalso. apply (NN false). unfold jstep. cbn [S j_frames j_heap]. rewrite JE. reflexivity. }
  pose proof (exec_ok _ _ _ _ _ _ R1 HR HJ o OP e JE DV) as EF.
  set (s0 := setIp s (j_pc f + 1)) in *.
  destruct e as [loc st jh' | p loc st | cl jh' | x | m' args st | v | ev st]; cbn [effOk] in EF.
  - (* ENext *)
    destruct (jstep false E S) as [out|] eqn:J0; [|contradiction (NN false J0)].
    exists false, out. pose proof J0 as J. unfold jstep in J. cbn [S j_frames j_heap j_log] in J. rewrite JE in J. cbn [bindO] in J. fold c in J.
    destruct (ilen c (j_pc f)) as [l|] eqn:L; cbn [bindO] in J; [|discriminate].
    pose proof (runs_inv _ _ _ _ _ J) as (B & D & NX & _). cbn [j_m j_pc j_stk] in B, D.
    destruct (EF D NX) as (s' & h' & l' & X & L' & R' & HR'). change (codeOf f) with c in L'. rewrite L in L'. injection L' as <-.
    rewrite X. cbn [bind]. do 2 eexists. split; [exact J0|]. split; [reflexivity|].
    eapply stepRun; [exact J| |exact HR']. cbn [j_pc]. apply Rst_pc with (p := j_pc f + l) in R'; [exact R'|exact B].
  - (* EJump *)
    destruct (jstep false E S) as [out|] eqn:J0; [|contradiction (NN false J0)].
    exists false, out. pose proof J0 as J. unfold jstep in J. cbn [S j_frames j_heap j_log] in J. rewrite JE in J. cbn [bindO] in J.
    pose proof (runs_inv _ _ _ _ _ J) as (B & D & NX & _). cbn [j_m j_pc j_stk] in B, D.
    assert (PL : p < 2 ^ 16).
    { apply boundary_lt in B. unfold Interp_Rel3.codeOf in B. cbn [j_m] in B. pose proof (codeLen E WF f) as CL.
      unfold Interp_Rel3.codeOf in CL. change (2 ^ 16) with 65536. lia. }
    destruct (EF D PL) as (s' & X & R').
    rewrite X. cbn [bind]. do 2 eexists. split; [exact J0|]. split; [reflexivity|].
    eapply stepRun; [exact J| |exact HR]. cbn [j_pc]. apply Rst_pc with (p := p) in R'; [exact R'|exact B].
  - (* ENew *)
    destruct EF as (-> & s' & i & h' & st & l & X & L & I & R' & HR').
    destruct (jstep false E S) as [out|] eqn:J0; [|contradiction (NN false J0)].
    exists false, out. pose proof J0 as J. unfold jstep in J. cbn [S j_frames j_heap j_log] in J. rewrite JE in J. cbn [bindO] in J.
    unfold throwNewJ in J. destruct (jalloc jh (newInst E cl)) as [x jh1] eqn:AL. unfold jalloc in AL. injection AL as <- <-.
    cbn [snd jalloc] in HR'. rewrite X. cbn [bind].
    assert (OC : objectClass h' (jnext jh) = Ok cl).
    { eapply hrel_class; [exact HR'|]. unfold jclass. cbn [jobjs]. rewrite N.eqb_refl. reflexivity. }
    destruct (throw_ok E bot WF _ _ _ _ _ _ _ _ _ _ _ _ R' L I OC ltac:(change (2 ^ 63) with 9223372036854775808 in HJ; change (2 ^ 64) with 18446744073709551616; lia) LM J) as (s2 & o2 & T & OR).
    rewrite T. do 2 eexists. split; [exact J0|]. split; [reflexivity|]. eapply outRel_stepRel; eassumption.
  - (* EThrow *)
    destruct EF as (s' & i & st & l & X & L & I & R' & XL).
    destruct (jstep false E S) as [out|] eqn:J0; [|contradiction (NN false J0)].
    exists false, out. pose proof J0 as J. unfold jstep in J. cbn [S j_frames j_heap j_log] in J. rewrite JE in J. cbn [bindO] in J.
    destruct (jclass jh x) as [k|] eqn:JC; cbn [bindO] in J; [|discriminate]. rewrite X. cbn [bind].
    pose proof (hrel_class E h jh x k HR JC) as OC.
    destruct (throw_ok E bot WF _ _ _ _ _ _ _ _ _ _ _ _ R' L I OC XL LM J) as (s2 & o2 & T & OR).
    rewrite T. do 2 eexists. split; [exact J0|]. split; [reflexivity|]. eapply outRel_stepRel; eassumption.
  - (* ECall *)
    destruct EF as (s1 & l & X & L & R' & TA). rewrite X. unfold doInvoke.
    destruct (stackOverflows E s1 m') eqn:SO.
    + destruct (jstep true E S) as [out|] eqn:J0; [|contradiction (NN true J0)].
      exists true, out. pose proof J0 as J. unfold jstep in J. cbn [S j_frames j_heap j_log] in J. rewrite JE in J. cbn [bindO] in J.
      unfold throwNewJ in J. destruct (jalloc jh (newInst E (e_soe E))) as [x jh1] eqn:AL. unfold jalloc in AL. injection AL as <- <-.
      apply Rst_stk in R'.
      destruct (throwNew_ok E bot WF h lg f rest jh HR HJ s1 _ _ (e_soe E) R') as (s2 & h2 & T2 & R2 & HR2). rewrite T2. cbn [bind].
      cbn [snd jalloc] in HR2.
      assert (OC : objectClass h2 (jnext jh) = Ok (e_soe E)).
      { eapply hrel_class; [exact HR2|]. unfold jclass. cbn [jobjs]. rewrite N.eqb_refl. reflexivity. }
      pose proof (ilen_pos _ _ _ L) as LP.
      destruct (throw_ok E bot WF _ _ _ _ _ _ _ _ _ _ _ _ R2 L ltac:(lia) OC ltac:(change (2 ^ 63) with 9223372036854775808 in HJ; change (2 ^ 64) with 18446744073709551616; lia) LM J) as (s3 & o3 & T & OR).
      rewrite T. do 2 eexists. split; [exact J0|]. split; [reflexivity|]. eapply outRel_stepRel; eassumption.
    + destruct (jstep false E S) as [out|] eqn:J0; [|contradiction (NN false J0)].
      exists false, out. pose proof J0 as J. unfold jstep in J. cbn [S j_frames j_heap j_log] in J. rewrite JE in J. cbn [bindO] in J.
      change (if m_sync (e_method E m') then if m_static (e_method E m') then Some (Some (m_jclass (e_method E m')))
              else match args with VRef o :: _ => Some (Some o) | _ => None end else Some None) with (monOf (e_method E m') args) in J.
      destruct (monOf (e_method E m') args) as [mo|] eqn:MO; cbn [bindO] in J; [|discriminate].
      unfold guard in J. destruct (m_pf (e_method E m') <=? m_maxLocals (e_method E m')) eqn:PL; [|discriminate].
      pose proof (runs_inv _ _ _ _ _ J) as (B & _ & NX & _). cbn [j_m j_pc j_stk] in B.
      apply takeArgs_spec in TA. destruct TA as [T1 T2].
      apply Rst_stk in R'. rewrite T1 in R'.
      destruct (pushFrame_ok E bot _ _ _ _ _ _ _ _ _ _ _ _ R' T2 L eq_refl SO ltac:(lia) MO B) as (s2 & P2 & R2).
      unfold loop. rewrite P2. cbn [bind]. do 2 eexists. split; [exact J0|]. split; [reflexivity|].
      eapply stepRun; [exact J|exact R2|exact HR].
  - (* EReturn *)
    destruct EF as (s1 & i & st & r & X & R' & RR). rewrite X.
    destruct (jstep false E S) as [out|] eqn:J0; [|contradiction (NN false J0)].
    exists false, out. pose proof J0 as J. unfold jstep in J. cbn [S j_frames j_heap j_log] in J. rewrite JE in J. cbn [bindO] in J.
    assert (LMw : lostMonitor E (wst f st) = false) by exact LMf.
    destruct rest as [|g rest].
    + injection J as <-.
      destruct (popFrame_bottom E bot _ _ _ _ _ _ R' LMw) as (s2 & P2 & FL & H2 & L2 & X2).
      unfold ret. replace (bot <? frm s1)%Z with false.
      2:{ destruct R' as (_ & _ & _ & _ & _ & _ & _ & _ & b1 & n1 & _ & C1). cbn [callers] in C1. lia. }
      cbn [bind]. do 2 eexists. split; [exact J0|]. split; [reflexivity|].
      cbn [stepRel]. exists r. rewrite (Rst_hp _ _ _ _ _ _ _ _ _ R').
      split; [reflexivity|]. split; [exact RR|]. split; [exact HR|]. exists s2. auto.
    + destruct (ret_ok _ _ _ _ _ _ _ _ _ _ _ R' LMw RR HR J) as (s2 & X2 & SR). rewrite X2. cbn [bind].
      do 2 eexists. split; [exact J0|]. split; [reflexivity|]. exact SR.
  - (* EMon *)
    destruct EF as (s' & l & X & L & R').
    destruct (jstep false E S) as [out|] eqn:J0; [|contradiction (NN false J0)].
    exists false, out. pose proof J0 as J. unfold jstep in J. cbn [S j_frames j_heap j_log] in J. rewrite JE in J. cbn [bindO] in J. fold c in J.
    change (codeOf f) with c in L. rewrite L in J. cbn [bindO] in J.
    pose proof (runs_inv _ _ _ _ _ J) as (B & D & NX & _). cbn [j_m j_pc j_stk] in B, D.
    rewrite X. cbn [bind]. do 2 eexists. split; [exact J0|]. split; [reflexivity|].
    eapply stepRun; [exact J| |exact HR]. cbn [j_pc]. apply Rst_pc with (p := j_pc f + l) in R'; [exact R'|exact B].
Qed.

Theorem run_ok : forall n s h f rest jh lg,
  Rs 0 s (j_pc f) h lg f rest -> hrel E h jh -> jnext jh < 2 ^ 63 ->
  sound E {| j_frames := f :: rest; j_heap := jh; j_log := lg |} ->
  exists out s' o, jsteps E n {| j_frames := f :: rest; j_heap := jh; j_log := lg |} out /\
    runN n E bot s = Ok (s', o) /\ stepRel out s' o.
Proof.
  induction n as [|n IH]; intros s h f rest jh lg R HR HJ SD.
  - exists (JRun {| j_frames := f :: rest; j_heap := jh; j_log := lg |}), s, SLoop. split; [constructor|]. split; [reflexivity|].
    cbn [stepRel j_heap j_frames j_log]. split; [reflexivity|]. split; [assumption|]. exists f, rest, h. auto.
  - destruct (SD _ (reach_here _ _)) as [DV NN].
    destruct (step_ok _ _ _ _ _ _ R HR HJ DV NN) as (ov & out & s1 & o & J & ST & SR).
    cbn [runN]. rewrite ST. cbn [bind].
    destruct out as [S'|v h' l'|e h' l']; cbn [stepRel] in SR.
    + destruct SR as (-> & NX & f' & rest' & h' & FR & R' & HR'). destruct S' as [fs' jh' lg']. cbn [j_frames j_heap j_log] in *. subst fs'.
      destruct (IH _ _ _ _ _ _ R' HR' NX) as (out & s2 & o & JS & RN & SR).
      { intros S'' RE. apply SD. clear - RE J. induction RE as [|S1 ov' S2 RE IH' J']; [eapply reach_step; [constructor|exact J]|].
        eapply reach_step; eassumption. }
      exists out, s2, o. split; [eapply js_more; eassumption|]. split; assumption.
    + destruct SR as (r & -> & SR). exists (JDone v h' l'), s1, (SRet r). split; [eapply js_end; [exact J|discriminate]|].
      split; [reflexivity|]. cbn [stepRel]. exists r. split; [reflexivity|exact SR].
    + destruct SR as (-> & SR). exists (JThrown e h' l'), s1, (SUncaught e). split; [eapply js_end; [exact J|discriminate]|].
      split; [reflexivity|]. cbn [stepRel]. split; [reflexivity|exact SR].
Qed.
End Step.
