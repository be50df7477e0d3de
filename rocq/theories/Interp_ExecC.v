(** Branches, switches, returns and wide. *)
From Verif Require Import Base Res Bits Interp_Types Interp_Model Jvm_Spec Interp_Obs Interp_Spec.
From Verif Require Import Interp_Rel Interp_Rel2 Interp_Rel3 Interp_Rel4 Interp_Heap Interp_Arith Interp_Exec.
Import ListNotations.
Local Open Scope N_scope.
Local Open Scope res_scope.

Section Exec.
Variables (E : env) (bot : Z).
Hypothesis WF : wfEnv E.
Variables (s : cst) (h : heap) (lg : list mev) (f : jframe) (rest : list jframe) (jh : jheap).
Notation codeOf := (codeOf E).
Notation pc := (j_pc f).
Notation Rs := (Rst E bot).
Notation okOp := (okOp E bot s h lg f rest jh).
Hypothesis H : Rs 0 s (pc + 1) h lg f rest.
Notation stk0 := (stk0 E bot s h lg f rest H).
Hypothesis HR : hrel E h jh.
Hypothesis HJ : jnext jh < 2 ^ 63.

Lemma target_u32 : forall off p, target pc off = Some p -> p < 2 ^ 16 -> u32 (Z.of_N pc + off) = p.
Proof.
  intros off p T P. unfold target in T. destruct (Z.ltb_spec (Z.of_N pc + off) 0); [discriminate|]. injection T as <-.
  unfold ubits. change (2 ^ 16) with 65536 in P. change (2 ^ 32)%Z with 4294967296%Z. lia.
Qed.

Lemma branch_ok : forall s1 k st off p,
  Rs 0 s1 (pc + k) h lg (wst f st) rest -> target pc off = Some p -> p < 2 ^ 16 ->
  Rs 0 (branch s1 (Z.of_N k) off) p h lg (wst f st) rest.
Proof.
  intros s1 k st off p R T P. unfold branch. rewrite (Rst_ip _ _ _ _ _ _ _ _ _ R).
  replace (Z.of_N (pc + k) - Z.of_N k + off)%Z with (Z.of_N pc + off)%Z by lia.
  rewrite (target_u32 _ _ T P). eapply Rst_setIp. eassumption.
Qed.

Lemma goto_ok : forall s1 i st off p,
  Rs 0 s1 i h lg (wst f st) rest -> target pc off = Some p -> p < 2 ^ 16 ->
  Rs 0 (setIp s1 (u32 (Z.of_N pc + off))) p h lg (wst f st) rest.
Proof. intros s1 i st off p R T P. rewrite (target_u32 _ _ T P). eapply Rst_setIp. eassumption. Qed.

Lemma jif_ok : forall o off b st e,
  jif pc 3 b off (j_loc f) st = Some e ->
  (depth st <= maxSt E f -> exists s1, exec E bot o s = Ok (if b then branch s1 3 off else s1, CLoop) /\
     Rs 0 s1 (pc + 3) h lg (wst f st) rest) -> effOk E bot s h lg f rest jh o e.
Proof.
  intros o off b st e J X. unfold jif in J. destruct b.
  - destruct (target pc off) as [p|] eqn:T; cbn [bindO] in J; [|discriminate]. fin J. intros D P.
    destruct (X D) as (s1 & EX & R). rewrite EX. eexists. split; [reflexivity|]. rewrite wloc_id.
    exact (branch_ok s1 3 st off p R T P).
  - fin J. intros D P. destruct (X D) as (s1 & EX & R). rewrite EX. eexists. split; [reflexivity|].
    rewrite wloc_id. exact R.
Qed.

Ltac begin' :=
  intros OP e J _; unfold jeval in J; change (m_code (e_method E (j_m f))) with (codeOf f) in J;
  rewrite OP in J; cbn [bindO] in J; unfold bindO, guard in J;
  pose proof (opAt_ilen _ _ _ OP) as IL; pose proof stk0 as HS.
Ltac endif := eexists; split; [reflexivity | eassumption].

Lemma ok_if : forall o, match o with OIf _ | OIfI _ | OIfA _ | OIfNull _ => True | _ => False end -> okOp o.
Proof.
  intros o K. destruct o; try contradiction; clear K; begin'.
  - do 3 split1 J. eapply jif_ok; [exact J|]. intros D. cbn [exec]. rd16. popI.
    rewrite sbits_ubits by (lia || assumption). rewrite test_jcond. endif.
  - do 5 split1 J. eapply jif_ok; [exact J|]. intros D. cbn [exec]. rd16. do 2 popI.
    rewrite !sbits_ubits by (lia || assumption). rewrite test_jcond. endif.
  - do 5 split1 J. eapply jif_ok; [exact J|]. intros D. cbn [exec]. rd16. do 2 popO.
    replace (if eq then o0 =? o else negb (o0 =? o)) with (Bool.eqb (o0 =? o) eq) by (destruct eq, (o0 =? o); reflexivity). endif.
  - do 3 split1 J. eapply jif_ok; [exact J|]. intros D. cbn [exec]. rd16. popO.
    replace (if isnull then o =? 0 else negb (o =? 0)) with (Bool.eqb (o =? 0) isnull) by (destruct isnull, (o =? 0); reflexivity). endif.
Qed.

Lemma opAt_lt : forall i o, opAt (codeOf f) i = Some o -> i < 65536.
Proof.
  intros i o O. unfold opAt, bindO in O. destruct (byteAt (codeOf f) i) eqn:B; [|discriminate].
  apply byteAt_lt in B. pose proof (codeLen E WF f). lia.
Qed.

Lemma ok_goto : forall o, match o with OGoto | OGotoW | OJsr | OJsrW | ORet => True | _ => False end -> okOp o.
Proof.
  intros o K. destruct o; try contradiction; clear K; begin'; pose proof (opAt_lt _ _ OP) as PL.
  - split1 J. eapply jif_ok; [exact J|]. intros D. cbn [exec]. rd16. endif.
  - split1 J. unfold jif, bindO in J. split1 J. fin J. intros D P. cbn [exec]. rd32. eexists. split; [reflexivity|].
    rewrite wloc_id. replace (pc + 1 + 4) with (pc + 5) in * by lia. eapply (branch_ok _ 5); eassumption.
  - split1 J. unfold jif, bindO in J. split1 J. fin J. intros D P. cbn [exec]. rd16.
    rewrite (Rst_ip _ _ _ _ _ _ _ _ _ R).
    pushI (VRet (pc + 3)); [change (2 ^ 32) with 4294967296; lia|]. eexists. split; [reflexivity|].
    rewrite wloc_id. eapply (branch_ok _ 3); eassumption.
  - split1 J. unfold jif, bindO in J. split1 J. fin J. intros D P. cbn [exec]. rd32.
    rewrite (Rst_ip _ _ _ _ _ _ _ _ _ R). replace (pc + 1 + 4) with (pc + 5) in * by lia.
    pushI (VRet (pc + 5)); [change (2 ^ 32) with 4294967296; lia|]. eexists. split; [reflexivity|].
    rewrite wloc_id. eapply (branch_ok _ 5); eassumption.
  - unfold jret in J. do 3 split1 J. fin J. intros D P. cbn [exec].
    rewrite (Rst_ip _ _ _ _ _ _ _ _ _ HS). rewrite (codeByte_ok _ _ _ _ _ _ _ _ _ _ _ HS Heqo). cbn [bind].
    destruct (localInt_ok _ _ _ _ _ _ _ _ _ n _ HS Heqo0 eq_refl eq_refl) as [LI VO]. rewrite LI. cbn [bind valBits].
    eexists. split; [reflexivity|]. rewrite wloc_id. eapply Rst_setIp. exact HS.
Qed.

Lemma pairsAt_nth : forall c n a ps, pairsAt c a n = Some ps -> length ps = n /\
  forall j m o, nth_error ps j = Some (m, o) -> s4At c (a + 8 * N.of_nat j) = Some m /\ s4At c (a + 8 * N.of_nat j + 4) = Some o.
Proof.
  intros c n. induction n as [|n IH]; intros a ps P; cbn [pairsAt] in P.
  - injection P as <-. split; [reflexivity|]. intros [|j] m o X; discriminate.
  - unfold bindO in P. destruct (s4At c a) as [m0|] eqn:A; [|discriminate]. destruct (s4At c (a + 4)) as [o0|] eqn:B; [|discriminate].
    destruct (pairsAt c (a + 8) n) as [r|] eqn:C; [|discriminate]. injection P as <-. apply IH in C. destruct C as [L C].
    split; [cbn [length]; lia|]. intros [|j] m o X; cbn [nth_error] in X.
    + injection X as <- <-. replace (a + 8 * N.of_nat 0) with a by lia. auto.
    + apply C in X. replace (a + 8 * N.of_nat (S j)) with (a + 8 + 8 * N.of_nat j) by lia. exact X.
Qed.

Lemma increasing_lt : forall ps, increasing ps = true -> forall i j p q, (i < j)%nat ->
  nth_error ps i = Some p -> nth_error ps j = Some q -> (fst p < fst q)%Z.
Proof.
  induction ps as [|[a x] ps IH]; intros I i j p q L P Q; [destruct i; discriminate|].
  assert (I' : increasing ps = true).
  { destruct ps as [|[b y] r]; [reflexivity|]. cbn [increasing] in I. apply andb_true_iff in I. exact (proj2 I). }
  destruct i as [|i], j as [|j]; try lia.
  - cbn [nth_error] in P, Q. injection P as <-. destruct ps as [|[b y] r]; [destruct j; discriminate|].
    cbn [increasing] in I. apply andb_true_iff in I. destruct I as [I _]. cbn [fst].
    destruct j as [|j]; [injection Q as <-; cbn [fst]; lia|].
    pose proof (IH I' 0%nat (S j) (b, y) q ltac:(lia) eq_refl Q). cbn [fst] in *. lia.
  - cbn [nth_error] in P, Q. apply (IH I' i j); [lia|assumption|assumption].
Qed.

Lemma find_none_all : forall (ps : list (Z * Z)) k, (forall j p, nth_error ps j = Some p -> fst p <> k) ->
  find (fun p => (fst p =? k)%Z) ps = None.
Proof.
  intros ps k A. destruct (find _ ps) as [p|] eqn:F; [|reflexivity]. apply find_some in F. destruct F as [I F].
  apply In_nth_error in I. destruct I as [j I]. apply A in I. lia.
Qed.
Lemma find_at : forall ps k j p, increasing ps = true -> nth_error ps j = Some p -> fst p = k ->
  find (fun p => (fst p =? k)%Z) ps = Some p.
Proof.
  intros ps k j p I N K. destruct (find _ ps) as [q|] eqn:F.
  - apply find_some in F. destruct F as [Q F]. apply In_nth_error in Q. destruct Q as [i Q].
    destruct (Nat.lt_trichotomy i j) as [L | [-> | L]].
    + pose proof (increasing_lt ps I i j q p L Q N). lia.
    + congruence.
    + pose proof (increasing_lt ps I j i p q L N Q). lia.
  - exfalso. pose proof (find_none _ _ F p (nth_error_In _ _ N)) as X. cbv beta in X. lia.
Qed.

Lemma lookup_ok : forall ps a s1 st key, Rs 0 s1 a h lg (wst f st) rest ->
  pairsAt (codeOf f) a (length ps) = Some ps -> increasing ps = true ->
  forall n lo hi, (0 <= lo <= hi)%Z -> (hi <= Z.of_nat (length ps))%Z -> (hi - lo < Z.of_nat n)%Z ->
  (forall j p, nth_error ps j = Some p -> (Z.of_nat j < lo)%Z -> (fst p < key)%Z) ->
  (forall j p, nth_error ps j = Some p -> (hi <= Z.of_nat j)%Z -> (key < fst p)%Z) ->
  lookup n E s1 key lo hi = Ok (option_map snd (find (fun p => (fst p =? key)%Z) ps)).
Proof.
  intros ps a s1 st key R PA INC. destruct (pairsAt_nth _ _ _ _ PA) as [_ NTH].
  pose proof (codeLen E WF f) as CL.
  induction n as [|n IH]; intros lo hi B1 B2 B3 LO HI; [lia|].
  cbn [lookup]. destruct (Z.eqb_spec (hi - lo) 0) as [Z0|NZ].
  - rewrite find_none_all; [reflexivity|]. intros j p P.
    destruct (Z.lt_ge_cases (Z.of_nat j) lo) as [L|G]; [specialize (LO j p P L)|specialize (HI j p P ltac:(lia))]; lia.
  - rewrite Z.quot_div_nonneg by lia. set (mid := (lo + (hi - lo) / 2)%Z). assert (M : (lo <= mid < hi)%Z) by (subst mid; lia).
    destruct (nth_error ps (Z.to_nat mid)) as [[m o]|] eqn:NE; [|apply nth_error_None in NE; lia].
    destruct (NTH _ _ _ NE) as [S1 S2].
    rewrite (Rst_ip _ _ _ _ _ _ _ _ _ R).
    assert (IX : u32 (Z.of_N a + mid * 8) = a + 8 * N.of_nat (Z.to_nat mid)).
    { apply s4At_lt in S1. unfold ubits. change (2 ^ 32)%Z with 4294967296%Z. lia. }
    rewrite IX. rewrite (int32At_ok _ _ _ WF _ _ _ _ _ _ _ _ R S1). cbn [bind].
    destruct (Z.ltb_spec key m).
    + apply IH; try lia; try assumption. intros j p P L.
      destruct (Nat.eq_dec j (Z.to_nat mid)) as [->|]; [rewrite NE in P; injection P as <-; cbn [fst]; lia|].
      pose proof (increasing_lt ps INC (Z.to_nat mid) j (m, o) p ltac:(lia) NE P). cbn [fst] in *. lia.
    + destruct (Z.ltb_spec m key).
      * apply IH; try lia; try assumption. intros j p P L.
        destruct (Nat.eq_dec j (Z.to_nat mid)) as [->|]; [rewrite NE in P; injection P as <-; cbn [fst]; lia|].
        pose proof (increasing_lt ps INC j (Z.to_nat mid) p (m, o) ltac:(lia) P NE). cbn [fst] in *. lia.
      * rewrite (int32At_ok _ _ _ WF _ _ _ _ _ _ _ _ R S2). cbn [bind].
        rewrite (find_at ps key _ _ INC NE); [reflexivity|]. cbn [fst]. lia.
Qed.

Lemma ok_switch : forall o, match o with OTableswitch | OLookupswitch => True | _ => False end -> okOp o.
Proof.
  intros o K. destruct o; try contradiction; clear K; begin'; pose proof (opAt_lt _ _ OP) as PL; pose proof (codeLen E WF f) as CL.
  - do 6 split1 J.
    destruct (ex_intro (fun r => r = exec E bot OTableswitch s) _ eq_refl) as [r X]. pose proof X as X0. cbn [exec] in X.
    rewrite (Rst_ip _ _ _ _ _ _ _ _ _ HS) in X.
    replace (pc + 1 + 3 - (pc + 1 + 3) mod 4) with (aligned pc) in X by (unfold aligned; lia).
    pose proof (Rst_setIp _ _ _ _ _ _ _ _ _ (aligned pc) HS) as R0.
    destruct (read32_ok _ _ _ WF _ _ _ _ _ _ _ R0 Heqo) as [P1 R1]. rewrite P1 in X. cbn [bind] in X.
    destruct (read32_ok _ _ _ WF _ _ _ _ _ _ _ R1 Heqo0) as [P2 R2]. rewrite P2 in X. cbn [bind] in X.
    replace (aligned pc + 4 + 4) with (aligned pc + 8) in * by lia.
    destruct (read32_ok _ _ _ WF _ _ _ _ _ _ _ R2 Heqo1) as [P3 R3]. rewrite P3 in X. cbn [bind] in X.
    replace (aligned pc + 8 + 4) with (aligned pc + 12) in * by lia.
    destruct (popInt_ok _ _ _ _ _ _ _ _ _ _ _ R3 eq_refl eq_refl) as (s4 & P4 & R4 & V). rewrite P4 in X. cbn [bind valBits valOk] in *.
    rewrite sbits_ubits in X by (lia || assumption).
    replace (Z.of_N (pc + 1) - 1)%Z with (Z.of_N pc) in X by lia.
    destruct ((z0 <=? z2)%Z && (z2 <=? z1)%Z) eqn:IN.
    + split1 J. rewrite (Rst_ip _ _ _ _ _ _ _ _ _ R4) in X.
      replace (u32 (Z.of_N (aligned pc + 12) + (z2 - z0) * 4)) with (aligned pc + 12 + 4 * Z.to_N (z2 - z0)) in X.
      2:{ pose proof (s4At_lt _ _ _ Heqo2). unfold ubits. change (2 ^ 32)%Z with 4294967296%Z. lia. }
      rewrite (int32At_ok _ _ _ WF _ _ _ _ _ _ _ _ R4 Heqo2) in X. cbn [bind] in X.
      unfold jif, bindO in J. split1 J. fin J. intros D P. rewrite <- X0, X. eexists. split; [reflexivity|]. rewrite wloc_id.
      eapply goto_ok; eassumption.
    + unfold jif, bindO in J. split1 J. fin J. intros D P. rewrite <- X0, X. eexists. split; [reflexivity|]. rewrite wloc_id.
      eapply goto_ok; eassumption.
  - do 7 split1 J.
    destruct (ex_intro (fun r => r = exec E bot OLookupswitch s) _ eq_refl) as [r X]. pose proof X as X0. cbn [exec] in X.
    rewrite (Rst_ip _ _ _ _ _ _ _ _ _ HS) in X.
    replace (pc + 1 + 3 - (pc + 1 + 3) mod 4) with (aligned pc) in X by (unfold aligned; lia).
    pose proof (Rst_setIp _ _ _ _ _ _ _ _ _ (aligned pc) HS) as R0.
    destruct (read32_ok _ _ _ WF _ _ _ _ _ _ _ R0 Heqo) as [P1 R1]. rewrite P1 in X. cbn [bind] in X.
    destruct (read32_ok _ _ _ WF _ _ _ _ _ _ _ R1 Heqo0) as [P2 R2]. rewrite P2 in X. cbn [bind] in X.
    replace (aligned pc + 4 + 4) with (aligned pc + 8) in * by lia.
    destruct (popInt_ok _ _ _ _ _ _ _ _ _ _ _ R2 eq_refl eq_refl) as (s4 & P4 & R4 & V). rewrite P4 in X. cbn [bind valBits valOk] in *.
    rewrite sbits_ubits in X by (lia || assumption).
    replace (Z.of_N (pc + 1) - 1)%Z with (Z.of_N pc) in X by lia.
    destruct (pairsAt_nth _ _ _ _ Heqo1) as [LP _]. rewrite <- LP in Heqo1.
    rewrite (lookup_ok l _ _ _ z1 R4 Heqo1 Heqb0 _ 0%Z z0) in X; try lia.
    2:{ intros j p N L. assert (nth_error l j <> None) by congruence. apply nth_error_Some in H0. lia. }
    cbn [bind] in X. destruct (find _ l) as [[m off]|] eqn:FD; cbn [option_map snd] in X;
      unfold jif, bindO in J; split1 J; fin J; intros D P; rewrite <- X0, X; eexists; (split; [reflexivity|]); rewrite wloc_id;
      eapply goto_ok; eassumption.
Qed.

Lemma ok_return : forall t, okOp (OReturn t).
Proof.
  intros t. begin'. destruct t as [t|].
  - destruct (j_stk f) as [|v st] eqn:ST; [discriminate|]. split1 J. fin J. cbn [effOk exec].
    destruct t, v; try discriminate; (popI || popL || popO); do 4 eexists; (split; [reflexivity|]); (split; [eassumption|]);
      cbn [retRel cat2 valTag valBits valOk]; repeat split; assumption.
  - fin J. cbn [effOk exec]. do 4 eexists. split; [reflexivity|]. split; [exact HS|]. exact I.
Qed.

Lemma ok_wide : okOp OWide.
Proof.
  intros OP e J DV. unfold jeval in J. change (m_code (e_method E (j_m f))) with (codeOf f) in J.
  rewrite OP in J. cbn [bindO] in J. unfold bindO in J.
  unfold diverges in DV. change (m_code (e_method E (j_m f))) with (codeOf f) in DV. rewrite OP in DV.
  pose proof (opAt_ilen _ _ _ OP) as IL. unfold bindO in IL. pose proof stk0 as HS.
  destruct (opAt (codeOf f) (pc + 1)) as [o2|] eqn:O2; [|discriminate].
  destruct (u2At (codeOf f) (pc + 2)) as [k|] eqn:U2; [|discriminate].
  assert (NX : exists b, byteAt (codeOf f) (pc + 1) = Some b /\ decode b = Some o2).
  { unfold opAt, bindO in O2. destruct (byteAt (codeOf f) (pc + 1)) as [b|] eqn:B; [|discriminate]. exists b. split; [reflexivity|].
    rewrite decode_jdecode; [assumption|]. eapply byteAt_byte; [apply bytesOk; exact WF|eassumption]. }
  destruct NX as (b & B & DC).
  destruct (next1_ok _ _ _ _ _ _ _ _ _ _ HS B) as [N1 R1]. replace (pc + 1 + 1) with (pc + 2) in * by lia.
  destruct (readIndex_ok _ _ _ WF _ _ _ _ _ _ _ R1 U2) as (s2 & P2 & R2). replace (pc + 2 + 2) with (pc + 4) in * by lia.
  assert (X : exec E bot OWide s = loop (execWide E s)) by reflexivity. unfold execWide in X. rewrite N1 in X. cbn [bind] in X.
  rewrite DC in X.
  destruct o2; try discriminate.
  - unfold jload, bindO, guard in J. do 2 split1 J. fin J. intros D NJ. rewrite X, wloc_id.
    destruct (loadLocal_ok _ _ _ _ _ _ _ _ _ k t v R2) as (s3 & P3 & R3); try assumption.
    destruct t; try discriminate; rewrite P2; cbn [bind]; cbn [loadLocal] in P3; unfold loop; rewrite P3; cbn [bind]; conclude.
  - unfold jstore, guard in J. destruct (j_stk f) as [|v st] eqn:ST; [discriminate|]. split1 J. fin J. intros D NJ. rewrite X.
    apply andb_true_iff in Heqb0. destruct Heqb0 as [T BD].
    destruct t; try discriminate; rewrite P2; cbn [bind].
    + destruct (storeLocal_ok _ _ _ _ _ _ _ _ _ k TI v st R2 T) as (s1 & P1 & RR1); [unfold maxLo; lia|].
      cbn [storeLocal] in P1. unfold loop. rewrite P1. cbn [bind]. conclude.
    + destruct (storeLocal_ok _ _ _ _ _ _ _ _ _ k TL v st R2 T) as (s1 & P1 & RR1); [unfold maxLo; lia|].
      cbn [storeLocal] in P1. unfold loop. rewrite P1. cbn [bind]. conclude.
    + destruct v; try discriminate. popO. unfold vsize in BD. cbn [cat2] in BD.
      destruct (setLocalObject_ok _ _ _ _ _ _ _ _ _ k o R V) as (s1 & P1 & RR1); [unfold maxLo; cbn [j_m wst]; lia|].
      unfold loop. rewrite P1. cbn [bind]. rewrite wloc_wst in RR1. cbn [j_loc wst] in RR1. conclude.
  - unfold jinc, guard in J. destruct (s2At (codeOf f) (pc + 4)) as [d|] eqn:S2; [|discriminate].
    do 3 split1 J. fin J. intros D NJ. rewrite X, P2. cbn [bind].
    destruct (read16_ok _ _ _ WF _ _ _ _ _ _ _ R2 S2) as (s3 & P3 & R3). rewrite P3. cbn [bind]. replace (pc + 4 + 2) with (pc + 6) in * by lia.
    destruct (localInt_ok _ _ _ _ _ _ _ _ _ k (VInt z) R3 ltac:(eassumption) eq_refl eq_refl) as [LI VO]. rewrite LI. cbn [bind valBits].
    rewrite inc_ok by lia.
    destruct (setLocalInt_ok _ _ _ _ _ _ _ _ _ k (VInt (wrap 32 (z + d))) R3 eq_refl eq_refl) as (s1 & P1 & RR1).
    { apply sgn_range. lia. } { unfold maxLo. cbn [j_m wst]. lia. }
    cbn [valBits] in P1. unfold loop. rewrite P1. cbn [bind]. rewrite wloc_wst in RR1. cbn [j_loc wst] in RR1. conclude.
  - unfold jret in J. do 2 split1 J. fin J. intros D P. rewrite X, P2. cbn [bind].
    destruct (localInt_ok _ _ _ _ _ _ _ _ _ k _ R2 Heqo eq_refl eq_refl) as [LI VO]. rewrite LI. cbn [bind valBits].
    eexists. split; [reflexivity|]. rewrite wloc_id. eapply Rst_setIp. exact R2.
Qed.
End Exec.
