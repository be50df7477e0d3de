(** Objects: fields, arrays, calls, casts and monitors. *)
From Verif Require Import Base Res Bits Interp_Types Interp_Model Jvm_Spec Interp_Obs Interp_Spec.
From Verif Require Import Interp_Rel Interp_Rel2 Interp_Rel3 Interp_Rel4 Interp_Heap Interp_Arith Interp_Exec.
Import ListNotations.
Local Open Scope N_scope.
Local Open Scope res_scope.

Section Exec.
Variables (E : env) (bot : Z).
Hypothesis WF : wfEnv E.
Variables (s : cst) (h : heap) (lg : list mev) (f : jframe) (rest : list jframe) (jh : jheap).
Notation codeOf := (codeOf E).
Notation pc := (j_pc f).
Notation Rs := (Rst E bot).
Notation okOp := (okOp E bot s h lg f rest jh).
Hypothesis H : Rs 0 s (pc + 1) h lg f rest.
Notation stk0 := (stk0 E bot s h lg f rest H).
Hypothesis HR : hrel E h jh.
Hypothesis HJ : jnext jh < 2 ^ 63.

Ltac beg :=
  intros OP e J DV; unfold jeval in J; change (m_code (e_method E (j_m f))) with (codeOf f) in J;
  rewrite OP in J; cbn [bindO] in J; unfold bindO, guard in J;
  unfold diverges in DV; change (m_code (e_method E (j_m f))) with (codeOf f) in DV; rewrite OP in DV;
  pose proof (opAt_ilen _ _ _ OP) as IL; cbv beta iota zeta in IL; pose proof stk0 as HS.
Ltac curIs R := rewrite ?(Rst_cur _ _ _ _ _ _ _ _ _ R); cbn [j_m wst].

Lemma wst_id : wst f (j_stk f) = f.
Proof. destruct f. reflexivity. Qed.

Lemma popKind_ok : forall s1 i k v w st, narrow k v = Some w -> Rs 0 s1 i h lg (wst f (v :: st)) rest ->
  exists s2, popKind s1 k = Ok (valBits v, s2) /\ Rs 0 s2 i h lg (wst f st) rest /\ valOk v.
Proof.
  intros s1 i k v w st NW R. destruct k, v; try discriminate NW; cbn [popKind];
    first [ exact (popInt_ok _ _ _ _ _ _ _ _ _ _ _ R eq_refl eq_refl)
          | exact (popLong_ok _ _ _ _ _ _ _ _ _ _ _ R eq_refl)
          | exact (popObject_ok _ _ _ _ _ _ _ _ _ _ _ R) ].
Qed.

Lemma pushField_ok : forall s1 i st o m idx v,
  Rs 0 s1 i h lg (wst f st) rest -> getF jh o (e_resolveField E m idx) = Some v ->
  (forall z, f_kind (e_resolveField E m idx) = KChar -> v = VInt z -> (z < 2 ^ 15)%Z) ->
  depth (v :: st) <= maxSt E f ->
  exists s2, pushField s1 o (e_resolveField E m idx) = Ok s2 /\ Rs 0 s2 i h lg (wst f (v :: st)) rest.
Proof.
  intros s1 i st o m idx v R G NC D. unfold getF in G. destruct (jobjs jh o) as [[c fl|]|] eqn:JO; try discriminate.
  destruct (hrel_at E h jh o _ HR JO) as (x & OX & RX). destruct x as [c' b|]; [|contradiction]. destruct RX as [-> IR].
  pose proof (instRel_field E WF m idx _ _ _ _ IR G) as (_ & FT & RD).
  unfold pushField, objAt. rewrite (Rst_hp _ _ _ _ _ _ _ _ _ R), OX. cbn [of_option bind]. rewrite RD. cbn [bind].
  destruct (pushFieldBits_ok _ _ _ _ _ _ _ _ _ _ _ _ R FT D NC) as (s2 & P & R2). exists s2. split; [exact P|exact R2].
Qed.

Lemma writeField_ok : forall s1 i st o m idx v jh',
  Rs 0 s1 i h lg (wst f st) rest -> putF jh o (e_resolveField E m idx) v = Some jh' -> valOk v ->
  (forall z, f_kind (e_resolveField E m idx) = KBool -> v = VInt z -> notBool z = false) ->
  exists s2 h', writeField s1 o (e_resolveField E m idx) (valBits v) = Ok s2 /\ Rs 0 s2 i h' lg (wst f st) rest /\
     hrel E h' jh'.
Proof.
  intros s1 i st o m idx v jh' R G VO NB. unfold putF, bindO in G. destruct (jobjs jh o) as [[c fl|]|] eqn:JO; try discriminate.
  destruct (fl (f_id (e_resolveField E m idx))) as [v0|] eqn:FL; [|discriminate].
  destruct (narrow (f_kind (e_resolveField E m idx)) v) as [w|] eqn:NW; [|discriminate]. fin G.
  destruct (hrel_at E h jh o _ HR JO) as (x & OX & RX). destruct x as [c' b|]; [|contradiction]. destruct RX as [-> IR].
  destruct (instRel_put E WF m idx _ _ _ _ _ _ IR FL VO NW NB) as (b' & WB & IR').
  unfold writeField, objAt. rewrite (Rst_hp _ _ _ _ _ _ _ _ _ R), OX. cbn [of_option bind]. rewrite WB. cbn [bind].
  do 2 eexists. split; [reflexivity|]. split; [eapply Rst_setHp; exact R|].
  apply hrel_set; [assumption|]. cbn [objRel]. auto.
Qed.

Lemma putF_narrow : forall o fd v jh', putF jh o fd v = Some jh' -> exists w, narrow (f_kind fd) v = Some w.
Proof.
  intros o fd v jh' G. unfold putF, bindO in G. destruct (jobjs jh o) as [[c fl|]|]; try discriminate.
  destruct (fl (f_id fd)); [|discriminate]. destruct (narrow (f_kind fd) v); [eauto|discriminate].
Qed.

Lemma ok_field : forall o, match o with OGetstatic | OPutstatic | OGetfield | OPutfield => True | _ => False end -> okOp o.
Proof.
  intros o K. destruct o; try contradiction; clear K; beg.
  - destruct (u2At (codeOf f) (pc + 1)) as [idx|] eqn:U; [|discriminate].
    destruct (getF jh (e_staticTable E (j_m f) idx) (e_resolveField E (j_m f) idx)) as [v|] eqn:G; [|discriminate].
    fin J. goNext. rewrite wloc_id. rdIdx. curIs R.
    destruct (pushField_ok _ _ _ _ _ _ _ R G) as (s2 & P2 & R2); [|assumption|].
    { intros z KC ->. rewrite KC in DV. lia. }
    unfold loop. rewrite P2. cbn [bind]. conclude.
  - destruct (u2At (codeOf f) (pc + 1)) as [idx|] eqn:U; [|discriminate].
    destruct (j_stk f) as [|v st] eqn:ST; [discriminate|].
    destruct (putF jh (e_staticTable E (j_m f) idx) (e_resolveField E (j_m f) idx) v) as [jh'|] eqn:G; [|discriminate].
    fin J. goNext. rewrite wloc_id. rdIdx. curIs R.
    assert (NW : exists w, narrow (f_kind (e_resolveField E (j_m f) idx)) v = Some w).
    { eapply putF_narrow. exact G. }
    destruct NW as [w NW]. destruct (popKind_ok _ _ _ _ _ _ NW R) as (s2 & P2 & R2 & VO). rewrite P2. cbn [bind].
    destruct (writeField_ok _ _ _ _ _ _ _ _ R2 G VO) as (s3 & h' & P3 & R3 & HR3).
    { intros z KC ->. rewrite KC in DV. exact DV. }
    unfold loop. rewrite P3. cbn [bind]. conclude.
  - destruct (u2At (codeOf f) (pc + 1)) as [idx|] eqn:U; [|discriminate].
    destruct (j_stk f) as [|[| | | |o|] st] eqn:ST; try discriminate.
    destruct (N.eqb_spec o 0) as [->|NZ].
    + fin J. thrStart. peekO. thr.
    + destruct (getF jh o (e_resolveField E (j_m f) idx)) as [v|] eqn:G; [|discriminate].
      fin J. goNext. rewrite wloc_id. peekO. replace (o =? 0) with false by lia. rdIdx. curIs R. popO.
      destruct (pushField_ok _ _ _ _ _ _ _ R0 G) as (s2 & P2 & R2); [|assumption|].
      { intros z KC ->. rewrite KC in DV. lia. }
      unfold loop. rewrite P2. cbn [bind]. conclude.
  - destruct (u2At (codeOf f) (pc + 1)) as [idx|] eqn:U; [|discriminate].
    destruct (j_stk f) as [|v [|[| | | |o|] st]] eqn:ST; try discriminate.
    destruct (N.eqb_spec o 0) as [->|NZ].
    + destruct (narrow (f_kind (e_resolveField E (j_m f) idx)) v) as [w|] eqn:NW; [|discriminate].
      fin J. thrStart. rdIdx. curIs R.
      destruct (popKind_ok _ _ _ _ _ _ NW R) as (s2 & P2 & R2 & VO). rewrite P2. cbn [bind]. popO. thr.
    + destruct (putF jh o (e_resolveField E (j_m f) idx) v) as [jh'|] eqn:G; [|discriminate].
      fin J. goNext. rewrite wloc_id. rdIdx. curIs R.
      assert (NW : exists w, narrow (f_kind (e_resolveField E (j_m f) idx)) v = Some w).
      { eapply putF_narrow. exact G. }
      destruct NW as [w NW]. destruct (popKind_ok _ _ _ _ _ _ NW R) as (s2 & P2 & R2 & VO). rewrite P2. cbn [bind].
      popO. replace (o =? 0) with false by lia.
      destruct (writeField_ok _ _ _ _ _ _ _ _ R0 G VO) as (s3 & h' & P3 & R3 & HR3).
      { intros z KC ->. rewrite KC in DV. exact DV. }
      unfold loop. rewrite P3. cbn [bind]. conclude.
Qed.

Lemma alloc_ok : forall s1 i st o y, Rs 0 s1 i h lg (wst f st) rest -> objRel E o y ->
  depth (VRef 0 :: st) <= maxSt E f ->
  exists s2 h', (let '(a, h1) := alloc (hp s1) o in loop (pushObject (setHp s1 h1) a)) = Ok (s2, CLoop) /\
     Rs 0 s2 i h' lg (wst f (VRef (jnext jh) :: st)) rest /\ hrel E h' (snd (jalloc jh y)).
Proof.
  intros s1 i st o y R OR D. destruct (hrel_alloc E h jh o y HR HJ OR) as [A1 A2].
  rewrite (Rst_hp _ _ _ _ _ _ _ _ _ R). destruct (alloc h o) as [a h1]. cbn [fst snd] in *. cbn [jalloc fst] in A1. subst a.
  destruct (pushObject_ok _ _ _ _ _ _ _ _ _ _ (jnext jh) (Rst_setHp _ _ _ _ _ _ _ _ _ h1 R)) as (s2 & P & R2).
  { change (2 ^ 63) with 9223372036854775808 in HJ. change (2 ^ 64) with 18446744073709551616. lia. }
  { rewrite depth_cons in *. exact D. }
  unfold loop. rewrite P. cbn [bind]. do 2 eexists. split; [reflexivity|]. split; [exact R2|exact A2].
Qed.

Lemma typeCode_typeKind : forall b, typeCode b = typeKind b.
Proof. destruct b as [|p]; [reflexivity|]. do 4 (destruct p as [p|p|]; try reflexivity). Qed.

Lemma ok_new : forall o, match o with ONew | ONewarray | OAnewarray => True | _ => False end -> okOp o.
Proof.
  intros o K. destruct o; try contradiction; clear K; beg.
  - destruct (u2At (codeOf f) (pc + 1)) as [idx|] eqn:U; [|discriminate].
    fin J. goNext. rewrite wloc_id. rdIdx. curIs R.
    destruct (alloc_ok _ _ _ _ _ R (newInst_rel E WF (e_resolveClass E (j_m f) idx)) ltac:(rewrite depth_cons in *; exact D)) as (s2 & h' & X & R2 & HR2).
    rewrite X. conclude.
  - destruct (j_stk f) as [|[n| | | | |] st] eqn:ST; try discriminate.
    destruct (Z.ltb_spec n 0).
    + fin J. thrStart. popI. rewrite sbits_ubits by (lia || assumption). replace (n <? 0)%Z with true by lia. thr.
    + destruct (byteAt (codeOf f) (pc + 1)) as [b|] eqn:B; [|discriminate].
      destruct (typeKind b) as [k|] eqn:TK; [|discriminate]. fin J. goNext. rewrite wloc_id. popI.
      rewrite sbits_ubits by (lia || assumption). replace (n <? 0)%Z with false by lia.
      nx. two. rewrite typeCode_typeKind, TK.
      assert (NR : objRel E (zeroArr (e_arrayClass E k) k (Z.to_N n)) (newArr (e_arrayClass E k) k (Z.to_N n))).
      { apply newArr_rel.
        - destruct (N.eqb_spec (e_arrayClass E k) (e_arrayClass E KBool)) as [Q|Q].
          + apply (we_arr E WF) in Q. subst k. reflexivity.
          + destruct k; try reflexivity. congruence.
        - apply inI32 in V. change (2 ^ 31) with 2147483648. lia. }
      destruct (alloc_ok _ _ _ _ _ R0 NR ltac:(rewrite depth_cons in *; exact D)) as (s2 & h' & X & R2 & HR2).
      rewrite X. conclude.
  - destruct (u2At (codeOf f) (pc + 1)) as [idx|] eqn:U; [|discriminate].
    destruct (j_stk f) as [|[n| | | | |] st] eqn:ST; try discriminate.
    destruct (Z.ltb_spec n 0).
    + fin J. thrStart. popI. rewrite sbits_ubits by (lia || assumption). replace (n <? 0)%Z with true by lia. thr.
    + fin J. goNext. rewrite wloc_id. popI.
      rewrite sbits_ubits by (lia || assumption). replace (n <? 0)%Z with false by lia.
      rdIdx. curIs R0.
      assert (NR : objRel E (zeroArr (e_objArrayClass E (e_resolveClass E (j_m f) idx)) KRef (Z.to_N n))
                     (newArr (e_objArrayClass E (e_resolveClass E (j_m f) idx)) KRef (Z.to_N n))).
      { apply newArr_rel.
        - pose proof (we_objarr E WF (e_resolveClass E (j_m f) idx)). cbn [keqb]. lia.
        - apply inI32 in V. change (2 ^ 31) with 2147483648. lia. }
      destruct (alloc_ok _ _ _ _ _ R0 NR ltac:(rewrite depth_cons in *; exact D)) as (s2 & h' & X & R2 & HR2).
      rewrite X. conclude.
Qed.

Lemma array_at : forall s1 i st a c k els, Rs 0 s1 i h lg (wst f st) rest -> jobjs jh a = Some (JArr c k els) ->
  exists b, arrayAt (hp s1) a = Ok (c, N.of_nat (length els), b) /\ arrRel E c (N.of_nat (length els)) b k els.
Proof.
  intros s1 i st a c k els R JO. destruct (hrel_at E h jh a _ HR JO) as (x & OX & RX).
  destruct x as [|c' n b]; [contradiction|]. destruct RX as [-> AR]. pose proof AR as (-> & _).
  exists b. unfold arrayAt, objAt. rewrite (Rst_hp _ _ _ _ _ _ _ _ _ R), OX. auto.
Qed.

Lemma setExc_ok : forall s1 i st x, Rs 0 s1 i h lg (wst f st) rest -> Rs x (setExc s1 x) i h lg (wst f st) rest.
Proof.
  intros s1 i st x (B1 & B2 & B3 & B4 & B5 & B6 & B7 & B8 & B9). unfold Rst.
  cbn [ip hp log cur exc ssz frm mem sp setExc].
  do 4 (split; [assumption|]). split; [reflexivity|]. do 3 (split; [assumption|]). exact B9.
Qed.

Lemma ok_object : forall o,
  match o with OArraylength | OAthrow | OCheckcast | OInstanceof | OMonitorenter | OMonitorexit => True | _ => False end -> okOp o.
Proof.
  intros o K. destruct o; try contradiction; clear K; beg.
  - destruct (j_stk f) as [|[| | | |a|] st] eqn:ST; try discriminate.
    destruct (N.eqb_spec a 0) as [->|NZ].
    + fin J. thrStart. popO. thr.
    + destruct (jobjs jh a) as [[|c k els]|] eqn:JO; try discriminate. fin J. goNext. rewrite wloc_id. popO.
      replace (a =? 0) with false by lia. destruct (array_at _ _ _ _ _ _ _ R JO) as (b & AA & AR). rewrite AA. cbn [bind].
      destruct AR as (_ & LT & _). change (2 ^ 31) with 2147483648 in LT.
      pushI (VInt (Z.of_nat (length els))); [| |conclude].
      * unfold ubits. change (2 ^ 32) with 4294967296. change (2 ^ 32)%Z with 4294967296%Z. lia.
      * apply inI32. lia.
  - destruct (j_stk f) as [|[| | | |o|] st] eqn:ST; try discriminate.
    destruct (N.eqb_spec o 0) as [->|NZ]; fin J.
    + thrStart. popO. thr.
    + cbn [effOk exec]. popO. replace (o =? 0) with false by lia. do 4 eexists. split; [reflexivity|]. split; [eassumption|].
      split; [|split; [apply setExc_ok; eassumption|assumption]]. lia.
  - destruct (u2At (codeOf f) (pc + 1)) as [idx|] eqn:U; [|discriminate].
    destruct (j_stk f) as [|[| | | |o|] st] eqn:ST; try discriminate.
    destruct (N.eqb_spec o 0) as [->|NZ].
    + fin J. goNext. rewrite wloc_id. rdIdx. peekO. cbn [N.eqb]. conclude.
    + destruct (jclass jh o) as [k|] eqn:JC; [|discriminate]. pose proof (hrel_class E h jh o k HR JC) as OC.
      destruct (e_instance E (e_resolveClass E (j_m f) idx) k) eqn:IN; fin J.
      * goNext. rewrite wloc_id. rdIdx. peekO. replace (o =? 0) with false by lia.
        rewrite (Rst_hp _ _ _ _ _ _ _ _ _ R), OC. cbn [bind]. curIs R. rewrite IN. conclude.
      * thrStart. rdIdx. peekO. replace (o =? 0) with false by lia.
        rewrite (Rst_hp _ _ _ _ _ _ _ _ _ R), OC. cbn [bind]. curIs R. rewrite IN. thr.
  - destruct (u2At (codeOf f) (pc + 1)) as [idx|] eqn:U; [|discriminate].
    destruct (j_stk f) as [|[| | | |o|] st] eqn:ST; try discriminate.
    destruct (N.eqb_spec o 0) as [->|NZ].
    + fin J. goNext. rewrite wloc_id. rdIdx. popO. cbn [N.eqb]. pushI (VInt 0); [reflexivity|conclude].
    + destruct (jclass jh o) as [k|] eqn:JC; [|discriminate]. pose proof (hrel_class E h jh o k HR JC) as OC. fin J.
      goNext. rewrite wloc_id. rdIdx. popO. replace (o =? 0) with false by lia.
      rewrite (Rst_hp _ _ _ _ _ _ _ _ _ R0), OC. cbn [bind]. curIs R0.
      destruct (e_instance E (e_resolveClass E (j_m f) idx) k).
      * pushI (VInt 1); [reflexivity|conclude].
      * pushI (VInt 0); [reflexivity|conclude].
  - destruct (j_stk f) as [|[| | | |o|] st] eqn:ST; try discriminate.
    destruct (N.eqb_spec o 0) as [->|NZ]; fin J.
    + thrStart. popO. thr.
    + cbn [effOk exec]. popO. replace (o =? 0) with false by lia. do 2 eexists. split; [reflexivity|]. split; [eassumption|].
      eapply Rst_addLog. eassumption.
  - destruct (j_stk f) as [|[| | | |o|] st] eqn:ST; try discriminate.
    destruct (N.eqb_spec o 0) as [->|NZ]; fin J.
    + thrStart. popO. thr.
    + cbn [effOk exec]. popO. replace (o =? 0) with false by lia. do 2 eexists. split; [reflexivity|]. split; [eassumption|].
      eapply Rst_addLog. eassumption.
Qed.

Lemma index_ok : forall i (els : list val), (0 <= i)%Z -> inI 32 i = true ->
  (u64 i <? N.of_nat (length els)) = (Z.to_nat i <? length els)%nat.
Proof.
  intros i els P V. apply inI32 in V. unfold ubits. change (2 ^ 64)%Z with 18446744073709551616%Z.
  rewrite Z.mod_small by lia. destruct (Nat.ltb_spec (Z.to_nat i) (length els)); lia.
Qed.

Lemma accepts_size : forall k k', accepts k k' = true -> ksize k = ksize k'.
Proof. destruct k, k'; intros A; try discriminate A; reflexivity. Qed.

Lemma ok_arrload : forall k, okOp (OArrLoad k).
Proof.
  intros k. beg. unfold loadArr, guard in J.
  destruct (j_stk f) as [|[i| | | | |] [|[| | | |a|] st]] eqn:ST; try discriminate.
  destruct (N.eqb_spec a 0) as [->|NZ].
  - fin J. thrStart. unfold arrLoad. popI. popO. cbn [N.eqb]. thr.
  - destruct (jobjs jh a) as [[|c k' els]|] eqn:JO; try discriminate.
    destruct (accepts k k') eqn:AC; [|discriminate].
    assert (X : exists s2 b, exec E bot (OArrLoad k) s =
       (if (0 <=? i)%Z && (u64 i <? N.of_nat (length els)) then
          do v <- rdBytes b (Z.to_N i * ksize k') (ksize k'); loop (arrPush s2 k' v)
        else throwNew E s2 (e_aioobe E)) /\ Rs 0 s2 (pc + 1) h lg (wst f st) rest /\ inI 32 i = true /\
        arrRel E c (N.of_nat (length els)) b k' els).
    { cbn [exec]. unfold arrLoad. popI. popO. rewrite sbits_ubits by (lia || assumption). replace (a =? 0) with false by lia.
      destruct (array_at _ _ _ _ _ _ _ R0 JO) as (b & AA & AR). rewrite AA. cbn [bind].
      replace (match k with KByte => if c =? e_arrayClass E KBool then KBool else KByte | _ => k end) with k'.
      2:{ destruct AR as (_ & _ & _ & CK & _). rewrite CK. destruct k, k'; try discriminate AC; reflexivity. }
      do 2 eexists. split; [reflexivity|]. auto. }
    destruct X as (s2 & b & X & R & V & AR).
    destruct (Z.ltb_spec i 0).
    { fin J. cbn [effOk]. split; [reflexivity|]. rewrite X. replace (0 <=? i)%Z with false by lia. cbn [andb]. thr. }
    rewrite index_ok in X by assumption. replace (0 <=? i)%Z with true in X by lia. cbn [andb] in X.
    destruct (nth_error els (Z.to_nat i)) as [v|] eqn:NE; fin J.
    + goNext. replace (Z.to_nat i <? length els)%nat with true in X.
      2:{ symmetry. apply Nat.ltb_lt, nth_error_Some. congruence. }
      change (arrLoad E k s) with (exec E bot (OArrLoad k) s). rewrite X, wloc_id.
      destruct AR as (_ & _ & _ & _ & AR). destruct (AR _ _ NE) as [FT RD].
      replace (Z.to_N i) with (N.of_nat (Z.to_nat i)) by lia. rewrite RD. cbn [bind].
      destruct (arrPush_ok _ _ _ _ _ _ _ _ _ _ _ _ R FT D) as (s3 & P3 & R3). unfold loop. rewrite P3. cbn [bind]. conclude.
    + cbn [effOk]. split; [reflexivity|]. rewrite X. apply nth_error_None in NE.
      replace (Z.to_nat i <? length els)%nat with false by (symmetry; apply Nat.ltb_ge; assumption). thr.
Qed.

Lemma ok_arrstore : forall k, okOp (OArrStore k).
Proof.
  intros k. beg. unfold storeArr, guard, bindO in J.
  destruct (j_stk f) as [|v [|[i| | | | |] [|[| | | |a|] st]]] eqn:ST; try discriminate.
  destruct (N.eqb_spec a 0) as [->|NZ].
  - destruct (narrow k v) as [w|] eqn:NW; [|discriminate]. fin J. thrStart. unfold arrStore.
    destruct (popKind_ok _ _ _ _ _ _ NW HS) as (s2 & P2 & R2 & VO). rewrite P2. cbn [bind]. popI. popO. cbn [N.eqb]. thr.
  - destruct (jobjs jh a) as [[|c k' els]|] eqn:JO; try discriminate.
    destruct (accepts k k') eqn:AC; [|discriminate].
    destruct (narrow k' v) as [w|] eqn:NW; [|discriminate].
    assert (X : exists s2 b, exec E bot (OArrStore k) s =
       (if (0 <=? i)%Z && (u64 i <? N.of_nat (length els)) then
          do b' <- wrBytes b (Z.to_N i * ksize k') (ksize k') (valBits v);
          Ok (setHp s2 (setObj h a (HArr c (N.of_nat (length els)) b')), CLoop)
        else throwNew E s2 (e_aioobe E)) /\ Rs 0 s2 (pc + 1) h lg (wst f st) rest /\ inI 32 i = true /\
        arrRel E c (N.of_nat (length els)) b k' els /\ valOk v).
    { cbn [exec]. unfold arrStore. rewrite <- (accepts_size _ _ AC).
      replace (popKind s k) with (popKind s k') by (destruct k, k'; try discriminate AC; reflexivity).
      destruct (popKind_ok _ _ _ _ _ _ NW HS) as (s2 & P2 & R2 & VO). rewrite P2. cbn [bind].
      popI. popO. rewrite sbits_ubits by (lia || assumption). replace (a =? 0) with false by lia.
      destruct (array_at _ _ _ _ _ _ _ R0 JO) as (b & AA & AR). rewrite AA. cbn [bind].
      rewrite (Rst_hp _ _ _ _ _ _ _ _ _ R0).
      do 2 eexists. split; [reflexivity|]. auto. }
    destruct X as (s2 & b & X & R & V & AR & VO).
    destruct (Z.ltb_spec i 0).
    { fin J. cbn [effOk]. split; [reflexivity|]. rewrite X. replace (0 <=? i)%Z with false by lia. cbn [andb]. thr. }
    rewrite index_ok in X by assumption. replace (0 <=? i)%Z with true in X by lia. cbn [andb] in X.
    destruct (Z.leb_spec (Z.of_nat (length els)) i).
    { fin J. cbn [effOk]. split; [reflexivity|]. rewrite X.
      replace (Z.to_nat i <? length els)%nat with false by (symmetry; apply Nat.ltb_ge; lia). thr. }
    replace (Z.to_nat i <? length els)%nat with true in X by (symmetry; apply Nat.ltb_lt; lia).
    assert (OKS : e = ENext (j_loc f) st (jset jh a (JArr c k' (replace els (Z.to_nat i) w)))).
    { destruct (storeOk E c k' v jh) as [[|]|] eqn:SO; [fin J; reflexivity| |discriminate].
      assert (k' = KRef) by (destruct k', v; try discriminate SO; reflexivity). subst k'.
      assert (k = KRef) by (destruct k; try discriminate AC; reflexivity). subst k.
      destruct v; try discriminate NW. rewrite SO in DV. replace (0 <=? i)%Z with true in DV by lia.
      replace (i <? Z.of_nat (length els))%Z with true in DV by lia. discriminate DV. }
    subst e. intros D NJ. rewrite X, wloc_id.
    destruct (arrRel_put E c _ b k' els (Z.to_nat i) v w AR ltac:(lia) VO NW) as (b' & WB & AR').
    { intros z -> ->. destruct k; try discriminate AC; [|exact DV].
      pose proof (opAt_small (codeOf f) pc (bytesOk E WF f)) as SM. rewrite OP in SM. discriminate SM. }
    replace (Z.to_N i) with (N.of_nat (Z.to_nat i)) by lia. rewrite WB. cbn [bind].
    do 3 eexists. split; [reflexivity|]. split; [eassumption|]. split; [eapply Rst_setHp; eassumption|].
    apply hrel_set; [assumption|]. cbn [objRel]. auto.
Qed.

Lemma receiver_ok : forall s1 i n o args st, Rs 0 s1 i h lg (wst f (j_stk f)) rest ->
  takeArgs n (j_stk f) = Some (VRef o :: args, st) ->
  below s1 n = Ok (sp s1 - n) /\ peekObject s1 (sp s1 - n) = Ok o /\ o < 2 ^ 64.
Proof.
  intros s1 i n o args st R T. apply takeArgs_spec in T. destruct T as [T1 T2]. rewrite T1 in R.
  destruct (Rst_top _ _ _ _ _ _ _ _ _ _ _ R) as (A & B & C). rewrite T2 in *.
  apply stkRel_rev_cons in B. destruct B as (B1 & B2 & _).
  pose proof (Rst_room _ _ _ _ _ _ _ _ _ _ R) as [RM _].
  assert (1 <= n).
  { rewrite <- T2, depth_rev, depth_cons. unfold vsize. cbn [cat2]. lia. }
  unfold below. replace (n <=? sp s1) with true by lia. split; [reflexivity|]. split; [|exact B2].
  unfold peekObject, peek, rdSlot. replace (sp s1 - n <? ssz s1) with true by lia. cbn [bind vrel] in *. rewrite B1. reflexivity.
Qed.

Lemma jcall_ok : forall o s1 i l m sel csel e,
  Rs 0 s1 i h lg (wst f (j_stk f)) rest -> ilen (codeOf f) pc = Some l -> i = pc + l ->
  exec E bot o s = invokeOn E s1 m csel ->
  (forall r m', sel r = Some m' -> csel r = Ok m') ->
  jcall E m sel (j_stk f) jh = Some e -> effOk E bot s h lg f rest jh o e.
Proof.
  intros o s1 i l m sel csel e R IL -> X S J. unfold jcall, bindO, guard in J.
  destruct (takeArgs (m_pf (e_method E m)) (j_stk f)) as [[args st]|] eqn:T; [|discriminate].
  destruct args as [|[| | | |r|] args]; try discriminate.
  destruct (receiver_ok _ _ _ _ _ _ R T) as (B & P & RL). unfold invokeOn in X. rewrite B in X. cbn [bind] in X. rewrite P in X. cbn [bind] in X.
  destruct (r =? 0) eqn:RZ.
  - fin J. cbn [effOk]. split; [reflexivity|]. rewrite X.
    pose proof (ilen_pos _ _ _ IL). thr.
  - destruct (sel r) as [m'|] eqn:SL; [|discriminate]. apply S in SL.
    destruct (m_pf (e_method E m') =? m_pf (e_method E m)) eqn:PF; [|discriminate]. fin J. cbn [effOk].
    rewrite SL in X. cbn [bind] in X. exists s1, l. split; [exact X|]. split; [assumption|].
    split; [rewrite <- wst_id; exact R|]. replace (m_pf (e_method E m')) with (m_pf (e_method E m)) by lia. exact T.
Qed.

Lemma ok_invoke : forall o,
  match o with OInvokevirtual | OInvokespecial | OInvokestatic | OInvokeinterface => True | _ => False end -> okOp o.
Proof.
  intros o K. destruct o; try contradiction; clear K; beg; (destruct (u2At (codeOf f) (pc + 1)) as [idx|] eqn:U; [|discriminate]);
    destruct (readIndex_ok E bot _ WF _ _ _ _ _ _ _ HS U) as (s1 & P & R); replace (pc + 1 + 2) with (pc + 3) in * by lia.
  - eapply jcall_ok; [exact R|exact IL|reflexivity| |intros r m' SL|exact J].
    + cbn [exec]. rewrite P. cbn [bind]. curIs R. reflexivity.
    + cbv beta in SL |- *. destruct (jclass jh r) as [k|] eqn:JC; [|discriminate]. fin SL.
      rewrite (Rst_hp _ _ _ _ _ _ _ _ _ R), (hrel_class E h jh r k HR JC). reflexivity.
  - eapply jcall_ok; [exact R|exact IL|reflexivity| |intros r m' SL|exact J].
    + cbn [exec]. rewrite P. cbn [bind]. curIs R. reflexivity.
    + cbv beta in SL |- *. fin SL. reflexivity.
  - split1 J. destruct p as [args st]. fin J. cbn [effOk exec]. rewrite P. cbn [bind]. curIs R.
    do 2 eexists. split; [reflexivity|]. split; [exact IL|]. split; [rewrite <- wst_id; exact R|assumption].
  - eapply (jcall_ok _ (setIp s1 (ip s1 + 2)) (pc + 5)); [ |exact IL|reflexivity| |intros r m' SL|exact J].
    + rewrite (Rst_ip _ _ _ _ _ _ _ _ _ R). replace (pc + 3 + 2) with (pc + 5) by lia. eapply Rst_setIp. exact R.
    + cbn [exec]. rewrite P. cbn [bind]. change (cur (setIp s1 (ip s1 + 2))) with (cur s1). curIs R. reflexivity.
    + cbv beta in SL |- *. destruct (jclass jh r) as [k|] eqn:JC; [|discriminate]. fin SL.
      change (hp (setIp s1 (ip s1 + 2))) with (hp s1).
      rewrite (Rst_hp _ _ _ _ _ _ _ _ _ R), (hrel_class E h jh r k HR JC). reflexivity.
Qed.
End Exec.
