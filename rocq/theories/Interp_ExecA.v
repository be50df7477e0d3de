(** Constants, locals, the operand stack and integer arithmetic. *)
From Verif Require Import Base Res Bits Interp_Types Interp_Model Jvm_Spec Interp_Obs Interp_Spec.
From Verif Require Import Interp_Rel Interp_Rel2 Interp_Rel3 Interp_Rel4 Interp_Heap Interp_Arith Interp_Exec.
Import ListNotations.
Local Open Scope N_scope.
Local Open Scope res_scope.

Section Exec.
Variables (E : env) (bot : Z).
Hypothesis WF : wfEnv E.
Variables (s : cst) (h : heap) (lg : list mev) (f : jframe) (rest : list jframe) (jh : jheap).
Notation codeOf := (codeOf E).
Notation pc := (j_pc f).
Notation Rs := (Rst E bot).
Notation okOp := (okOp E bot s h lg f rest jh).
Hypothesis H : Rs 0 s (pc + 1) h lg f rest.
Notation stk0 := (stk0 E bot s h lg f rest H).
Hypothesis HR : hrel E h jh.
Hypothesis HJ : jnext jh < 2 ^ 63.

Lemma ok_const : forall o, match o with ONop | OAconstNull | OIconst _ | OLconst _ | OFconst _ | ODconst _ => True | _ => False end -> okOp o.
Proof.
  intros o K. destruct o; try contradiction; clear K; begin; fin J; goNext; rewrite wloc_id;
    pose proof (opAt_small (codeOf f) pc (bytesOk E WF f)) as SM; rewrite OP in SM; cbn [smallConst] in SM.
  - conclude.
  - pushO; [reflexivity|]. conclude.
  - pushI (VInt z); [apply inI32; lia|]. conclude.
  - pushL (VLong z); [apply inI64; lia|]. conclude.
  - assert (n = 0 \/ n = 1 \/ n = 2) as [-> | [-> | ->]] by lia;
      match goal with |- context [VFlt ?b :: _] => pushI (VFlt b); [reflexivity|conclude] end.
  - assert (n = 0 \/ n = 1) as [-> | ->] by lia;
      match goal with |- context [VDbl ?b :: _] => pushL (VDbl b); [reflexivity|conclude] end.
Qed.

Lemma const_pushable : forall s1 i st m k,
  Rs 0 s1 i h lg (wst f st) rest ->
  match e_const E m k with VInt _ | VFlt _ | VRef _ => True | _ => False end ->
  depth (e_const E m k :: st) <= maxSt E f ->
  exists s', pushConst s1 (e_const E m k) = Ok s' /\ Rs 0 s' i h lg (wst f (e_const E m k :: st)) rest.
Proof.
  intros s1 i st m k R K D. pose proof (we_const E WF m k) as C.
  destruct (e_const E m k); try contradiction; cbn [pushConst].
  - eapply pushInt_ok; eauto.
  - eapply pushInt_ok; eauto.
  - eapply pushObject_ok; eauto.
Qed.

Lemma ok_push : forall o, match o with OBipush | OSipush | OLdc | OLdcW | OLdc2W => True | _ => False end -> okOp o.
Proof.
  intros o K. destruct o; try contradiction; clear K; begin.
  - split1 J. fin J. goNext. rewrite wloc_id. nx. two. pushI (VInt (sbits 8 n)); [|conclude].
    apply inI_8_32. apply sgn_range. lia.
  - split1 J. fin J. goNext. rewrite wloc_id. rd16. pushI (VInt z); [|conclude].
    apply inI_16_32. eapply s2At_range; eassumption.
  - split1 J. set (v := e_const E (j_m f) n) in *.
    assert (K : match v with VInt _ | VFlt _ | VRef _ => True | _ => False end /\ e = ENext (j_loc f) (v :: j_stk f) jh)
      by (destruct v; try discriminate; injection J as <-; auto).
    destruct K as [K ->]. goNext. rewrite wloc_id. nx. two.
    cbn [cur setIp]. rewrite (Rst_cur _ _ _ _ _ _ _ _ _ HS). cbn [j_m wst]. fold v.
    destruct (const_pushable _ _ _ _ _ R K D) as (s1 & P1 & R1). fold v in P1. unfold loop. rewrite P1. cbn [bind]. conclude.
  - split1 J. set (v := e_const E (j_m f) n) in *.
    assert (K : match v with VInt _ | VFlt _ | VRef _ => True | _ => False end /\ e = ENext (j_loc f) (v :: j_stk f) jh)
      by (destruct v; try discriminate; injection J as <-; auto).
    destruct K as [K ->]. goNext. rewrite wloc_id. rdIdx.
    rewrite (Rst_cur _ _ _ _ _ _ _ _ _ R). cbn [j_m wst]. fold v.
    destruct (const_pushable _ _ _ _ _ R K D) as (s1 & P1 & R1). fold v in P1. unfold loop. rewrite P1. cbn [bind]. conclude.
  - split1 J. pose proof (we_const E WF (j_m f) n) as C.
    destruct (e_const E (j_m f) n) as [z|z|b|b|r|r] eqn:CE; try discriminate; fin J; goNext; rewrite wloc_id; rdIdx;
      rewrite (Rst_cur _ _ _ _ _ _ _ _ _ R); cbn [j_m wst]; rewrite CE; cbn [constBits64 bind].
    + pushL (VLong z); [assumption|conclude].
    + pushL (VDbl b); [assumption|conclude].
Qed.

Lemma ok_local : forall o, match o with OLoad _ | OLoadN _ _ | OStore _ | OStoreN _ _ => True | _ => False end -> okOp o.
Proof.
  intros o K. destruct o; try contradiction; clear K; begin.
  - split1 J. split1 J. split1 J. fin J. goNext. rewrite wloc_id. nx. two.
    destruct (loadLocal_ok _ _ _ _ _ _ _ _ _ n t v R) as (s1 & P1 & R1); try assumption.
    unfold loop. rewrite P1. cbn [bind]. conclude.
  - split1 J. split1 J. fin J. goNext. rewrite wloc_id.
    destruct (loadLocal_ok _ _ _ _ _ _ _ _ _ n t v HS) as (s1 & P1 & R1); try assumption.
    unfold loop. rewrite P1. cbn [bind]. conclude.
  - split1 J. destruct (j_stk f) as [|v st] eqn:ST; [discriminate|]. split1 J. fin J. goNext. nx. two.
    apply andb_true_iff in Heqb. destruct Heqb as [T B].
    destruct (storeLocal_ok _ _ _ _ _ _ _ _ _ n t v st R T) as (s1 & P1 & R1); [unfold maxLo; lia|].
    unfold loop. rewrite P1. cbn [bind]. conclude.
  - destruct (j_stk f) as [|v st] eqn:ST; [discriminate|]. split1 J. fin J. goNext.
    apply andb_true_iff in Heqb. destruct Heqb as [T B].
    destruct (storeLocal_ok _ _ _ _ _ _ _ _ _ n t v st HS T) as (s1 & P1 & R1); [unfold maxLo; lia|].
    unfold loop. rewrite P1. cbn [bind]. conclude.
Qed.

Lemma ok_stack : forall o,
  match o with OPop | OPop2 | ODup | ODupX1 | ODupX2 | ODup2 | ODup2X1 | ODup2X2 | OSwap => True | _ => False end -> okOp o.
Proof.
  intros o K OP e J DV. pose proof (opAt_ilen _ _ _ OP) as IL. pose proof stk0 as HS.
  assert (G : exists st', jstack o (j_stk f) = Some st' /\ e = ENext (j_loc f) st' jh /\
              ilen (codeOf f) pc = Some 1 /\ exec E bot o s = loop (execStack o s)).
  { unfold jeval in J. change (m_code (e_method E (j_m f))) with (codeOf f) in J. rewrite OP in J. cbn [bindO] in J.
    destruct o; try contradiction; unfold bindO in J;
      match type of J with match ?y with _ => _ end = _ => destruct y as [st'|] eqn:JS; [|discriminate] end;
      injection J as <-; exists st'; auto. }
  destruct G as (st' & JS & -> & IL' & EX). intros D NJ. rewrite EX, wloc_id.
  destruct (execStack_ok _ _ _ _ _ _ _ _ _ _ _ _ HS JS D) as (s1 & P1 & R1).
  unfold loop. rewrite P1. cbn [bind]. conclude.
Qed.

Lemma ok_int : forall o,
  match o with OBinI _ | OBinL _ | OShI _ | OShL _ | ONegI | ONegL | OLcmp => True | _ => False end -> okOp o.
Proof.
  intros o K. destruct o; try contradiction; clear K; begin.
  - do 4 split1 J. subst. fin J. goNext. rewrite wloc_id. do 2 popI.
    rewrite !sbits_ubits by (lia || assumption).
    destruct (arith_ok E 32 o z0 z (we_wrapv E WF) ltac:(lia)) as (r & AR & AU). rewrite AR. cbn [bind]. rewrite AU.
    pushI (VInt (jbin 32 o z0 z)); [apply jbin_range; lia|conclude].
  - do 4 split1 J. subst. fin J. goNext. rewrite wloc_id. do 2 popL.
    rewrite !sbits_ubits by (lia || assumption).
    destruct (arith_ok E 64 o z0 z (we_wrapv E WF) ltac:(lia)) as (r & AR & AU). rewrite AR. cbn [bind]. rewrite AU.
    pushL (VLong (jbin 64 o z0 z)); [apply jbin_range; lia|conclude].
  - do 4 split1 J. subst. fin J. goNext. rewrite wloc_id. do 2 popI.
    rewrite !sbits_ubits by (lia || assumption).
    destruct (shift_ok E 32 o z0 z (Z.land z 31) (we_wrapv E WF) ltac:(lia)) as (r & AR & AU).
    { exact (land_ones_mod z 5 ltac:(lia)). }
    rewrite AR. cbn [bind]. rewrite AU.
    pushI (VInt (jshift 32 o z0 z)); [apply jshift_range; lia|conclude].
  - do 4 split1 J. subst. fin J. goNext. rewrite wloc_id. popI. popL.
    rewrite !sbits_ubits by (lia || assumption).
    destruct (shift_ok E 64 o z0 z (Z.land z 63) (we_wrapv E WF) ltac:(lia)) as (r & AR & AU).
    { exact (land_ones_mod z 6 ltac:(lia)). }
    rewrite AR. cbn [bind]. rewrite AU.
    pushL (VLong (jshift 64 o z0 z)); [apply jshift_range; lia|conclude].
  - do 2 split1 J. subst. fin J. goNext. rewrite wloc_id. popI. rewrite neg_ok by lia.
    pushI (VInt (wrap 32 (- z))); [apply sgn_range; lia|conclude].
  - do 2 split1 J. subst. fin J. goNext. rewrite wloc_id. popL. rewrite neg_ok by lia.
    pushL (VLong (wrap 64 (- z))); [apply sgn_range; lia|conclude].
  - do 4 split1 J. subst. fin J. goNext. rewrite wloc_id. do 2 popL.
    rewrite !sbits_ubits by (lia || assumption).
    match goal with |- context [VInt ?r :: _] => pushI (VInt r); [| |conclude] end.
    + destruct (Z.compare_spec z0 z);
        [replace (z <? z0)%Z with false by lia; replace (z0 =? z)%Z with true by lia
        |replace (z <? z0)%Z with false by lia; replace (z0 =? z)%Z with false by lia
        |replace (z <? z0)%Z with true by lia]; reflexivity.
    + destruct (z0 ?= z)%Z; reflexivity.
Qed.

Lemma ok_div : forall o, match o with ODivI | ODivL | ORemI | ORemL => True | _ => False end -> okOp o.
Proof.
  intros o K. destruct o; try contradiction; clear K; begin; do 4 split1 J; subst; split1 J; fin J.
  - thrStart. do 2 popI. rewrite !sbits_ubits by (lia || assumption). replace (z =? 0)%Z with true by lia. thr.
  - goNext. rewrite wloc_id. do 2 popI. rewrite !sbits_ubits by (lia || assumption). replace (z =? 0)%Z with false by lia.
    unfold cdiv. rewrite DV. cbn [bind]. pushI (VInt (wrap 32 (Z.quot z0 z))); [| |conclude].
    + apply ubits_sgn. lia.
    + apply sgn_range. lia.
  - thrStart. do 2 popL. rewrite !sbits_ubits by (lia || assumption). replace (z =? 0)%Z with true by lia. thr.
  - goNext. rewrite wloc_id. do 2 popL. rewrite !sbits_ubits by (lia || assumption). replace (z =? 0)%Z with false by lia.
    unfold cdiv. rewrite DV. cbn [bind]. pushL (VLong (wrap 64 (Z.quot z0 z))); [| |conclude].
    + apply ubits_sgn. lia.
    + apply sgn_range. lia.
  - thrStart. do 2 popI. rewrite !sbits_ubits by (lia || assumption). replace (z =? 0)%Z with true by lia. thr.
  - goNext. rewrite wloc_id. do 2 popI. rewrite !sbits_ubits by (lia || assumption). replace (z =? 0)%Z with false by lia.
    unfold crem. rewrite DV. cbn [bind]. pushI (VInt (Z.rem z0 z)); [|conclude]. apply rem_in; (lia || assumption).
  - thrStart. do 2 popL. rewrite !sbits_ubits by (lia || assumption). replace (z =? 0)%Z with true by lia. thr.
  - goNext. rewrite wloc_id. do 2 popL. rewrite !sbits_ubits by (lia || assumption). replace (z =? 0)%Z with false by lia.
    unfold crem. rewrite DV. cbn [bind]. pushL (VLong (Z.rem z0 z)); [|conclude]. apply rem_in; (lia || assumption).
Qed.
End Exec.
