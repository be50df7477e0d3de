(** Locals, operands in the code, stack shuffles and frames, on the representation of
    Interp_Rel. *)
From Verif Require Import Base Res Bits Interp_Types Interp_Model Jvm_Spec Interp_Obs Interp_Spec Interp_Rel.
Import ListNotations.
Local Open Scope N_scope.

Ltac eqbs :=
  repeat match goal with
  | |- context [?a =? ?b] =>
      first [ replace (a =? b) with true by lia | replace (a =? b) with false by lia ]
  | |- context [?a <? ?b] =>
      first [ replace (a <? b) with true by lia | replace (a <? b) with false by lia ]
  | |- context [?a <=? ?b] =>
      first [ replace (a <=? b) with true by lia | replace (a <=? b) with false by lia ]
  end.

Lemma depth_app : forall a b, depth (a ++ b) = depth a + depth b.
Proof. induction a as [|v a IH]; intros b; simpl; [reflexivity|]. fold (depth (a ++ b)) (depth a). rewrite IH. lia. Qed.
Lemma depth_cons : forall v a, depth (v :: a) = vsize v + depth a.
Proof. reflexivity. Qed.

Lemma stkRel_app : forall mem lo a b sp,
  stkRel mem lo (a ++ b) sp -> lo + depth a <= sp /\ stkRel mem (sp - depth a) a sp /\ stkRel mem lo b (sp - depth a).
Proof.
  intros mem lo a b. induction a as [|v a IH]; intros sp H.
  - simpl in *. apply stkRel_depth in H as D. replace (sp - 0) with sp by lia. split; [lia|]. split; [reflexivity|]. assumption.
  - rewrite depth_cons. simpl in H. destruct H as (A & B & C & D).
    apply IH in D. destruct D as (D1 & D2 & D3).
    replace (sp - (vsize v + depth a)) with (sp - vsize v - depth a) by lia.
    split; [lia|]. split; [|assumption]. cbn [stkRel]. split; [lia|]. auto.
Qed.

Lemma stkRel_app_intro : forall mem lo a b sp,
  lo + depth a <= sp -> stkRel mem (sp - depth a) a sp -> stkRel mem lo b (sp - depth a) ->
  stkRel mem lo (a ++ b) sp.
Proof.
  intros mem lo a b. induction a as [|v a IH]; intros sp H A B.
  - simpl in *. replace sp with (sp - 0) by lia. assumption.
  - rewrite depth_cons in *. simpl in *. destruct A as (A1 & A2 & A3 & A4).
    split; [lia|]. split; [assumption|]. split; [assumption|].
    apply IH; [lia| |].
    + replace (sp - vsize v - depth a) with (sp - (vsize v + depth a)) by lia. assumption.
    + replace (sp - vsize v - depth a) with (sp - (vsize v + depth a)) by lia. assumption.
Qed.

Lemma vrel_copy : forall mem mem' i j v,
  vrel mem i v -> mem' j = mem i -> (cat2 v = true -> mem' (j + 1) = mem (i + 1)) -> vrel mem' j v.
Proof.
  intros mem mem' i j v H A B. destruct v; simpl in *; try (rewrite A; assumption);
    rewrite A, B by reflexivity; assumption.
Qed.

Section Prim2.
Variables (E : env) (bot : Z) (x : N).

Lemma Rst_setIp : forall s i h lg f rest k,
  Rst E bot x s i h lg f rest -> Rst E bot x (setIp s k) k h lg f rest.
Proof. intros s i h lg f rest k (A1 & A). unfold Rst. cbn. auto. Qed.

Lemma Rst_setHp : forall s i h lg f rest h',
  Rst E bot x s i h lg f rest -> Rst E bot x (setHp s h') i h' lg f rest.
Proof. intros s i h lg f rest k (A1 & A2 & A). unfold Rst. cbn. auto. Qed.

Lemma Rst_addLog : forall s i h lg f rest e,
  Rst E bot x s i h lg f rest -> Rst E bot x (addLog s e) i h (e :: lg) f rest.
Proof.
  intros s i h lg f rest k (A1 & A2 & A3 & A). unfold Rst. cbn.
  split; [assumption|]. split; [assumption|]. split; [congruence|]. assumption.
Qed.

Lemma Rst_ip : forall s i h lg f rest, Rst E bot x s i h lg f rest -> ip s = i.
Proof. intros s i h lg f rest H. apply H. Qed.
Lemma Rst_hp : forall s i h lg f rest, Rst E bot x s i h lg f rest -> hp s = h.
Proof. intros s i h lg f rest H. apply H. Qed.
Lemma Rst_cur : forall s i h lg f rest, Rst E bot x s i h lg f rest -> cur s = j_m f.
Proof. intros s i h lg f rest H. apply H. Qed.
Lemma Rst_stk : forall s i h lg f rest, Rst E bot x s i h lg f rest -> Rst E bot x s i h lg (wst f (j_stk f)) rest.
Proof. intros s i h lg f rest H. destruct f. exact H. Qed.

(** * Stack shuffles *)
Lemma Rst_retop : forall s i h lg f rest vs st vs' mem' s',
  Rst E bot x s i h lg (wst f (vs ++ st)) rest ->
  (forall j, j < sp s - depth vs -> mem' j = mem s j) ->
  stkRel mem' (sp s - depth vs) vs' (sp s') ->
  depth (vs' ++ st) <= maxSt E f ->
  mem s' = mem' -> ssz s' = ssz s -> frm s' = frm s -> ip s' = ip s -> cur s' = cur s ->
  exc s' = exc s -> hp s' = hp s -> log s' = log s ->
  Rst E bot x s' i h lg (wst f (vs' ++ st)) rest.
Proof.
  intros s i h lg f rest vs st vs' mem' s' (A1 & A2 & A3 & A4 & A5 & A6 & A7 & A8 & base & nxt & F & C)
         X S' D E1 E2 E3 E4 E5 E6 E7 E8.
  pose proof (frameAt_lim _ _ _ _ _ _ _ _ F) as (L1 & L2 & L3).
  unfold Rst. rewrite E1, E2, E3, E4, E5, E6, E7, E8.
  do 8 (split; [assumption|]). exists base, nxt.
  pose proof (fa_stk _ _ _ _ _ _ _ _ F) as SR. cbn [j_stk wst] in SR.
  apply stkRel_app in SR. destruct SR as (S1 & S2 & S3).
  pose proof (stkRel_depth _ _ _ _ S3) as DS. pose proof (stkRel_depth _ _ _ _ S') as DS'.
  split.
  - destruct F. constructor; cbn [j_m j_stk wst j_loc j_pc j_mon] in *; try assumption;
      try (rewrite X by lia; assumption).
    + intros k v Hv. destruct (fa_loc k v Hv) as (K1 & K2 & K3). split; [assumption|]. split; [|assumption].
      eapply vrel_ext; [eassumption|]. intros j Hj. apply X. lia.
    + apply stkRel_app_intro.
      * lia.
      * replace (sp s' - depth vs') with (sp s - depth vs) by lia. assumption.
      * replace (sp s' - depth vs') with (sp s - depth vs) by lia.
        eapply stkRel_ext; [eassumption|]. intros j Hj. apply X. lia.
  - eapply callers_ext; [eassumption|]. intros j Hj. apply X. lia.
Qed.

(** Slot addresses of the topmost operands *)
Lemma Rst_top : forall s i h lg f rest vs st,
  Rst E bot x s i h lg (wst f (vs ++ st)) rest ->
  depth vs <= sp s /\ stkRel (mem s) (sp s - depth vs) vs (sp s) /\
  sp s + (maxSt E f - depth (vs ++ st)) <= ssz s.
Proof.
  intros s i h lg f rest vs st H. pose proof (Rst_room _ _ _ _ _ _ _ _ _ _ H) as [Rm _].
  destruct H as (A1 & A2 & A3 & A4 & A5 & A6 & A7 & A8 & base & nxt & F & C).
  pose proof (fa_stk _ _ _ _ _ _ _ _ F) as SR. cbn [j_stk wst] in SR.
  apply stkRel_app in SR. destruct SR as (S1 & S2 & S3). split; [lia|]. auto.
Qed.

Ltac peel l k :=
  match l with
  | ?v :: ?t => peel t ltac:(fun xs r => k constr:(v :: xs) r)
  | _ => k constr:(@nil val) l
  end.
Ltac fin :=
  intros SR DD RM DM; cbn [app depth fold_right stkRel] in *; unfold vsize in *;
  repeat match goal with HH : cat2 _ = _ |- _ => rewrite HH in * end;
  repeat match goal with HH : _ /\ _ |- _ => destruct HH end;
  eexists; split;
  [ unfold execStack, cpSlot, rdSlot, wrSlot, below;
    repeat (cbn [bind]; cbn [sp ssz mem setMem setSp]; eqbs; cbn [bind]); reflexivity
  | cbn [sp ssz mem setMem setSp frm ip cur exc hp log];
    split; [ intros j Hj; eqbs; reflexivity |];
    split; [| repeat (split; [reflexivity|]); reflexivity ];
    repeat match goal with
    | |- _ /\ _ => split
    | |- valOk _ => assumption
    | |- vrel _ _ _ => idtac
    | |- _ => lia
    end;
    try match goal with
    | HV : vrel (mem ?s) ?i ?v |- vrel _ ?j ?v =>
        apply (vrel_copy (mem s) _ i j v HV);
        [ eqbs; f_equal; lia | first [ intros HC; congruence | intros _; eqbs; f_equal; lia ] ]
    end ].

Lemma execStack_ok : forall o s i h lg f rest st st',
  Rst E bot x s i h lg (wst f st) rest ->
  jstack o st = Some st' -> depth st' <= maxSt E f ->
  exists s', execStack o s = Ok s' /\ Rst E bot x s' i h lg (wst f st') rest.
Proof.
  intros o s i h lg f rest st st' H J D.
  assert (G : exists vs r vs', st = vs ++ r /\ st' = vs' ++ r /\
     (stkRel (mem s) (sp s - depth vs) vs (sp s) -> depth vs <= sp s ->
      sp s + (maxSt E f - depth (vs ++ r)) <= ssz s -> depth (vs' ++ r) <= maxSt E f ->
      exists s', execStack o s = Ok s' /\
        (forall j, j < sp s - depth vs -> mem s' j = mem s j) /\
        stkRel (mem s') (sp s - depth vs) vs' (sp s') /\
        ssz s' = ssz s /\ frm s' = frm s /\ ip s' = ip s /\ cur s' = cur s /\
        exc s' = exc s /\ hp s' = hp s /\ log s' = log s)).
  { destruct o; try discriminate; cbn [jstack] in J; unfold guard in J.
    all: repeat match type of J with
         | context [match ?x with _ => _ end] => destruct x eqn:?; try discriminate
         end; subst.
    all: match type of J with Some ?x = Some _ => injection J as <- end.
    all: repeat match goal with
         | HH : _ && _ = true |- _ => apply andb_true_iff in HH; destruct HH
         | HH : negb _ = true |- _ => apply negb_true_iff in HH
         end.
    all: match goal with
         | |- exists vs r vs', ?a = vs ++ r /\ ?b = vs' ++ r /\ _ =>
             peel a ltac:(fun xs r => peel b ltac:(fun ys r' => exists xs, r, ys))
         end; split; [reflexivity|]; split; [reflexivity|]; fin. }
  destruct G as (vs & r & vs' & -> & -> & G).
  pose proof (Rst_top _ _ _ _ _ _ _ _ H) as (T1 & T2 & T3).
  destruct (G T2 T1 T3 D) as (s' & X1 & X2 & X3 & X4 & X5 & X6 & X7 & X8 & X9 & X10).
  exists s'. split; [assumption|].
  eapply Rst_retop with (mem' := mem s'); eauto.
Qed.
End Prim2.
