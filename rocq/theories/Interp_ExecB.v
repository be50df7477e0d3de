(** Floating point, conversions and iinc. *)
From Verif Require Import Base Res Bits Interp_Types Interp_Model Jvm_Spec Interp_Obs Interp_Spec.
From Verif Require Import Interp_Rel Interp_Rel2 Interp_Rel3 Interp_Rel4 Interp_Heap Interp_Arith Interp_Exec.
Import ListNotations.
Local Open Scope N_scope.
Local Open Scope res_scope.

Section Exec.
Variables (E : env) (bot : Z).
Hypothesis WF : wfEnv E.
Variables (s : cst) (h : heap) (lg : list mev) (f : jframe) (rest : list jframe) (jh : jheap).
Notation codeOf := (codeOf E).
Notation pc := (j_pc f).
Notation Rs := (Rst E bot).
Notation okOp := (okOp E bot s h lg f rest jh).
Hypothesis H : Rs 0 s (pc + 1) h lg f rest.
Notation stk0 := (stk0 E bot s h lg f rest H).
Hypothesis HR : hrel E h jh.
Hypothesis HJ : jnext jh < 2 ^ 63.

Lemma ok_float : forall o,
  match o with OBinF _ | OBinD _ | ONegF | ONegD | OFcmp _ | ODcmp _ => True | _ => False end -> okOp o.
Proof.
  intros o K. destruct o; try contradiction; clear K; begin.
  - do 4 split1 J. subst. fin J. goNext. rewrite wloc_id. do 2 popI.
    pushI (VFlt (f_bin32 (e_fops E) o bits0 bits)); [apply (we_f32 E WF)|conclude].
  - do 4 split1 J. subst. fin J. goNext. rewrite wloc_id. do 2 popL.
    pushL (VDbl (f_bin64 (e_fops E) o bits0 bits)); [apply (we_f64 E WF)|conclude].
  - do 2 split1 J. subst. fin J. goNext. rewrite wloc_id. popI.
    pushI (VFlt (f_neg32 (e_fops E) bits)); [apply (we_fneg32 E WF)|conclude].
  - do 2 split1 J. subst. fin J. goNext. rewrite wloc_id. popL.
    pushL (VDbl (f_neg64 (e_fops E) bits)); [apply (we_fneg64 E WF)|conclude].
  - do 4 split1 J. subst. fin J. goNext. rewrite wloc_id. do 2 popI. unfold fcmpPush, jfcmp. unfold jfcmp in D. unfold unordered in DV.
    destruct (fcompare (fdec32 bits0) (fdec32 bits)) as [[]|]; try discriminate; cbn [bind];
      match goal with |- context [VInt ?r :: _] => pushI (VInt r); [reflexivity|conclude] end.
  - do 4 split1 J. subst. fin J. goNext. rewrite wloc_id. do 2 popL. unfold fcmpPush, jfcmp. unfold jfcmp in D. unfold unordered in DV.
    destruct (fcompare (fdec64 bits0) (fdec64 bits)) as [[]|]; try discriminate; cbn [bind];
      match goal with |- context [VInt ?r :: _] => pushI (VInt r); [reflexivity|conclude] end.
Qed.

Lemma f2lPlain_ok : forall z, match z with FFin z => negb (inI 64 (ftrunc scale32 z)) | _ => false end = false ->
  f2lPlain z = Ok (jtoint 64 scale32 z).
Proof.
  intros z D. destruct z as [|[]|z]; try reflexivity. unfold f2lPlain, castF.
  destruct (inI 64 (ftrunc scale32 z)) eqn:I; [|discriminate]. f_equal. unfold jtoint. unfold ftrunc in *.
  apply inI64 in I. change (2 ^ (64 - 1))%Z with 9223372036854775808%Z. lia.
Qed.

Lemma sbits_low : forall w w' z, (0 < w' <= w)%Z -> sbits w' (ubits w z) = sgn w' z.
Proof.
  intros w w' z B. unfold sbits. rewrite of_ubits by lia. apply sgn_congr; [lia|]. apply mod_mod_pow. lia.
Qed.

Lemma ok_conv : forall k, okOp (OConv k).
Proof.
  intros k. begin. destruct (j_stk f) as [|v st] eqn:ST; [discriminate|].
  destruct k, v; cbn [jconv] in J; try discriminate J; fin J; goNext. 
  all: rewrite wloc_id.
  all: unfold execConv.
  all: (popI || popL).
  all: rewrite ?sbits_ubits by (lia || assumption).
  - pushL (VLong z); [apply inI64; apply inI32 in V; lia|conclude].
  - pushI (VFlt (f_i2f (e_fops E) z)); [apply (we_i2f E WF)|conclude].
  - pushL (VDbl (f_i2d (e_fops E) z)); [apply (we_i2d E WF)|conclude].
  - rewrite sbits_low by lia. pushI (VInt (wrap 32 z)); [apply sgn_range; lia|conclude].
  - pushI (VFlt (f_l2f (e_fops E) z)); [apply (we_l2f E WF)|conclude].
  - pushL (VDbl (f_l2d (e_fops E) z)); [apply (we_l2d E WF)|conclude].
  - rewrite f2iSat_ok by (unfold scale32; lia). cbn [bind].
    pushI (VInt (jtoint 32 scale32 (fdec32 bits))); [apply jtoint_range; lia|conclude].
  - rewrite f2lPlain_ok by assumption. cbn [bind].
    pushL (VLong (jtoint 64 scale32 (fdec32 bits))); [apply jtoint_range; lia|conclude].
  - pushL (VDbl (f_f2d (e_fops E) bits)); [apply (we_f2d E WF)|conclude].
  - rewrite f2iSat_ok by (unfold scale64; lia). cbn [bind].
    pushI (VInt (jtoint 32 scale64 (fdec64 bits))); [apply jtoint_range; lia|conclude].
  - rewrite f2iSat_ok by (unfold scale64; lia). cbn [bind].
    pushL (VLong (jtoint 64 scale64 (fdec64 bits))); [apply jtoint_range; lia|conclude].
  - pushI (VFlt (f_d2f (e_fops E) bits)); [apply (we_d2f E WF)|conclude].
  - rewrite sbits_low by lia. pushI (VInt (wrap 8 z)); [apply inI_8_32, sgn_range; lia|conclude].
  - change (2 ^ 16) with (2 ^ Z.to_N 16). rewrite ubits_mod by lia.
    pushI (VInt (z mod 2 ^ 16)%Z); [| |conclude].
    + unfold ubits. change (2 ^ 16)%Z with 65536%Z. change (2 ^ 32)%Z with 4294967296%Z. lia.
    + apply inI32. change (2 ^ 16)%Z with 65536%Z. lia.
  - rewrite sbits_low by lia. pushI (VInt (wrap 16 z)); [apply inI_16_32, sgn_range; lia|conclude].
Qed.

Lemma ok_inc : okOp OIinc.
Proof.
  begin. split1 J. split1 J. split1 J. split1 J. split1 J. fin J. goNext. nx. two. nx. 
  replace (pc + 2 + 1) with (pc + 3) in * by lia.
  destruct (localInt_ok _ _ _ _ _ _ _ _ _ n _ R0 Heqo1 eq_refl eq_refl) as [LI VO]. rewrite LI. cbn [bind valBits].
  rewrite inc_ok by lia.
  destruct (setLocalInt_ok _ _ _ _ _ _ _ _ _ n (VInt (wrap 32 (z + s8 n0))) R0 eq_refl eq_refl) as (s1 & P1 & R1).
  { apply sgn_range. lia. } { unfold maxLo. cbn [j_m wst]. lia. }
  cbn [valBits] in P1. unfold loop. rewrite P1. cbn [bind]. conclude.
Qed.
End Exec.
