(** Whole-method theorems for floating comparison, stack manipulation and field access *)
From Verif Require Import Base Res Bits Interp_Types Interp_Model Jvm_Spec Interp_Obs Interp_Spec.
From Verif Require Import Interp_Entry Interp_Small Interp_Ops.
Import ListNotations.
Local Open Scope N_scope.

Definition cmpZ (c : comparison) : Z := match c with Lt => (-1)%Z | Eq => 0%Z | Gt => 1%Z end.

Lemma float_compare : forall E s jh m op a b c,
  callable E s jh m (plain [0x22; 0x23; op; 0xac] 2 2 2) -> op = 0x95 \/ op = 0x96 ->
  a < 2 ^ 32 -> b < 2 ^ 32 -> fcompare (fdec32 a) (fdec32 b) = Some c ->
  returns 4 E s m [VFlt a; VFlt b] (RInt (u32 (cmpZ c))).
Proof.
  intros E s jh m op a b c C O Ha Hb HC.
  assert (R : exists r, returns 4 E s m [VFlt a; VFlt b] r /\ retRel (Some (VInt (cmpZ c))) r).
  { destruct O; subst op.
    - eapply call_ret; [exact C|args|reflexivity|lia|reflexivity|]. start C HM. intros S0 EN. enter HM EN. nxt HM. nxt HM.
      eapply ends_next; [okc HM; unfold unordered; rewrite HC; reflexivity|jevalc HM|rewrite HM; vm_compute; reflexivity|rewrite HM; vm_compute; reflexivity
      |rewrite HM; reflexivity|assumption|match goal with |- context [?a + ?b] => evalIn (a + b) end]. retc HM.
      cbn [gives]. unfold jfcmp. rewrite HC. destruct c; reflexivity.
    - eapply call_ret; [exact C|args|reflexivity|lia|reflexivity|]. start C HM. intros S0 EN. enter HM EN. nxt HM. nxt HM.
      eapply ends_next; [okc HM; unfold unordered; rewrite HC; reflexivity|jevalc HM|rewrite HM; vm_compute; reflexivity|rewrite HM; vm_compute; reflexivity
      |rewrite HM; reflexivity|assumption|match goal with |- context [?a + ?b] => evalIn (a + b) end]. retc HM.
      cbn [gives]. unfold jfcmp. rewrite HC. destruct c; reflexivity. }
  destruct R as (r & R1 & R2). destruct r; try contradiction. destruct R2 as [-> _]. exact R1.
Qed.
Lemma double_compare : forall E s jh m op a b c,
  callable E s jh m (plain [0x26; 0x28; op; 0xac] 4 4 4) -> op = 0x97 \/ op = 0x98 ->
  a < 2 ^ 64 -> b < 2 ^ 64 -> fcompare (fdec64 a) (fdec64 b) = Some c ->
  returns 4 E s m [VDbl a; VDbl b] (RInt (u32 (cmpZ c))).
Proof.
  intros E s jh m op a b c C O Ha Hb HC.
  assert (R : exists r, returns 4 E s m [VDbl a; VDbl b] r /\ retRel (Some (VInt (cmpZ c))) r).
  { destruct O; subst op.
    - eapply call_ret; [exact C|args|reflexivity|lia|reflexivity|]. start C HM. intros S0 EN. enter HM EN. nxt HM. nxt HM.
      eapply ends_next; [okc HM; unfold unordered; rewrite HC; reflexivity|jevalc HM|rewrite HM; vm_compute; reflexivity|rewrite HM; vm_compute; reflexivity
      |rewrite HM; reflexivity|assumption|match goal with |- context [?a + ?b] => evalIn (a + b) end]. retc HM.
      cbn [gives]. unfold jfcmp. rewrite HC. destruct c; reflexivity.
    - eapply call_ret; [exact C|args|reflexivity|lia|reflexivity|]. start C HM. intros S0 EN. enter HM EN. nxt HM. nxt HM.
      eapply ends_next; [okc HM; unfold unordered; rewrite HC; reflexivity|jevalc HM|rewrite HM; vm_compute; reflexivity|rewrite HM; vm_compute; reflexivity
      |rewrite HM; reflexivity|assumption|match goal with |- context [?a + ?b] => evalIn (a + b) end]. retc HM.
      cbn [gives]. unfold jfcmp. rewrite HC. destruct c; reflexivity. }
  destruct R as (r & R1 & R2). destruct r; try contradiction. destruct R2 as [-> _]. exact R1.
Qed.

(** What storing an int in a field of each int kind keeps of it *)
Definition stored : list (kind * (Z -> Z)) := [ (KByte, signed 8); (KShort, signed 16); (KInt, fun z => z) ].
Definition writtenTo (jh : jheap) (o c : N) (fl : N -> option val) (id : N) (v : val) : jheap :=
  {| jobjs := fun a => if a =? o then Some (JInst c (fun i => if i =? id then Some v else fl i)) else jobjs jh a; jnext := jnext jh |}.

Lemma narrow_stored : forall k t z, In (k, t) stored -> inI 32 z = true -> narrow k (VInt z) = Some (VInt (t z)).
Proof.
  intros k t z IN Hz. unfold stored in IN. repeat (destruct IN as [IN|IN]; [injection IN as <- <-|]); try contradiction; cbn [narrow]; rewrite ?signed_sgn by lia; reflexivity.
Qed.

Lemma field_roundtrip : forall E s jh m k t o c fl v0 z,
  callable E s jh m (plain [0x2a; 0x1b; 0xb5; 0; 5; 0x2a; 0xb4; 0; 5; 0xac] 2 2 2) ->
  In (k, t) stored -> f_kind (e_resolveField E m 5) = k ->
  o <> 0 -> o < 2 ^ 64 -> jobjs jh o = Some (JInst c fl) -> fl (f_id (e_resolveField E m 5)) = Some v0 -> inI 32 z = true ->
  exists s', invokeN 6 E s m [VRef o; VInt z] = Ok (s', IReturned (RInt (u32 (t z)))) /\
    hrel E (hp s') (writtenTo jh o c fl (f_id (e_resolveField E m 5)) (VInt (t z))).
Proof.
  intros E s jh m k t o c fl v0 z C IN HK Ho Ho' HO HF Hz.
  pose proof (narrow_stored _ _ _ IN Hz) as NR. rewrite <- HK in NR.
  assert (PF : putF jh o (e_resolveField E m 5) (VInt z) = Some (writtenTo jh o c fl (f_id (e_resolveField E m 5)) (VInt (t z)))).
  { unfold putF. rewrite HO, HF. cbn [bindO]. rewrite NR. cbn [bindO]. reflexivity. }
  assert (GF : getF (writtenTo jh o c fl (f_id (e_resolveField E m 5)) (VInt (t z))) o (e_resolveField E m 5) = Some (VInt (t z))).
  { unfold getF, writtenTo. cbn [jobjs]. rewrite N.eqb_refl. rewrite N.eqb_refl. reflexivity. }
  assert (NC : f_kind (e_resolveField E m 5) <> KChar /\ f_kind (e_resolveField E m 5) <> KBool).
  { rewrite HK. unfold stored in IN. repeat (destruct IN as [IN|IN]; [injection IN as <- _; split; discriminate|]); contradiction. }
  destruct NC as [NC NB].
  set (h' := writtenTo jh o c fl (f_id (e_resolveField E m 5)) (VInt (t z))) in *.
  start C HM.
  set (Q := fun out => match out with JDone (Some w) h _ => w = VInt (t z) /\ h = h' | _ => False end).
  assert (O0 : (o =? 0) = false) by (apply N.eqb_neq; assumption).
  assert (K : forall S0, entered E m [VRef o; VInt z] jh (log s) = Some S0 -> ends (regular E) 6 E S0 Q).
  { intros S0 EN. enter HM EN. nxt HM. nxt HM.
    eapply ends_next; [| | | | | |].
    - okc HM. destruct (f_kind (e_resolveField E m 5)); first [reflexivity | congruence].
    - unfold jeval. rewrite HM. cbn [m_code plain bindO]. evalCode. cbn [bindO]. rewrite O0, PF. reflexivity.
    - rewrite HM; vm_compute; reflexivity.
    - rewrite HM; vm_compute; reflexivity.
    - rewrite HM; reflexivity.
    - exact HJ.
    - match goal with |- context [?a + ?b] => evalIn (a + b) end. nxt HM.
      eapply ends_next; [| | | | | |].
      + unfold regular, divergent, diverges, lostMonitor; cbn [j_frames j_m j_pc j_loc j_stk j_mon j_heap existsb].
        rewrite HM. cbn [m_code plain bindO]. evalCode. cbn [bindO].
        destruct (f_kind (e_resolveField E m 5)); first [reflexivity | congruence].
      + unfold jeval. rewrite HM. cbn [m_code plain bindO]. evalCode. cbn [bindO]. rewrite O0, GF. reflexivity.
      + rewrite HM; vm_compute; reflexivity.
      + rewrite HM; vm_compute; reflexivity.
      + rewrite HM; reflexivity.
      + exact HJ.
      + match goal with |- context [?a + ?b] => evalIn (a + b) end. retc HM. cbn [Q]. split; reflexivity. }
  destruct (entered E m [VRef o; VInt z] jh (log s)) as [S0|] eqn:EN; [|exfalso; unfold entered in EN; rewrite HM in EN; discriminate EN].
  destruct (call_ends 6 E s m [VRef o; VInt z] jh S0 Q WF RD HR HJ RM) as (s' & r & out & IV & P & AG);
    try assumption; try (rewrite HM; reflexivity).
  - args.
  - apply K. reflexivity.
  - destruct out as [S'|[w|] h l|x h l]; try contradiction. destruct P as [-> ->]. destruct r; try contradiction.
    destruct AG as (RR & HR' & _). destruct r; try contradiction. destruct RR as [-> _]. exists s'. split; assumption.
Qed.
