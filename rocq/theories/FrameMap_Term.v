(** The passes over the event log end. *)
From Verif Require Import Base FrameMap_Model FrameMap_Spec FrameMap_Proofs FrameMap_Log FrameMap_Sound FrameMap_Fix FrameMap_Complete.
Local Open Scope nat_scope.

Definition ple (s s' : cst) : Prop :=
  (forall ip, sub (table s ip) (table s' ip)) /\ (forall e, sub (maps s e) (maps s' e)).
Lemma ple_trans : forall a b c, ple a b -> ple b c -> ple a c.
Proof. intros a b c [A1 A2] [B1 B2]. split; intros; eapply sub_trans; eauto. Qed.
Lemma sub_land_mono : forall a b c d, sub a c -> sub b d -> sub (N.land a b) (N.land c d).
Proof. intros a b c d H1 H2. apply land_sub; [eapply sub_trans; [apply sub_land_l|exact H1]|eapply sub_trans; [apply sub_land_r|exact H2]]. Qed.
Lemma sub_land_drop : forall a b d, sub b d -> sub (N.land a b) d.
Proof. intros. eapply sub_trans; [apply sub_land_r|assumption]. Qed.

Lemma ipStep_mono : forall vis vis' ip last last' r r' s s',
  (forall x, vis' x <= vis x) -> sub r r' -> ple s s' ->
  sub (fst (ipStep vis ip last r s)) (fst (ipStep vis' ip last' r' s'))
  /\ ple (snd (ipStep vis ip last r s)) (snd (ipStep vis' ip last' r' s')).
Proof.
  intros vis vis' ip last last' r r' s s' Hv Hr [P1 P2]. specialize (Hv ip). unfold ipStep.
  destruct (Nat.ltb_spec 1 (vis' ip)); destruct (Nat.ltb_spec 1 (vis ip)); try lia;
    cbn [fst snd]; rewrite ?land_absorb.
  - assert (X : sub (N.land (table s ip) r) (N.land (table s' ip) r')) by (apply sub_land_mono; auto).
    split; [exact X|]. split; [|exact P2]. intros x. cbn. unfold upd. destruct (x =? ip); auto.
  - assert (X : sub (N.land (table s ip) r) r') by (apply sub_land_drop; auto).
    split; [exact X|]. split; [|exact P2]. intros x. cbn. unfold upd. destruct (x =? ip); auto.
  - split; [exact Hr|]. split; [|exact P2]. intros x. cbn. unfold upd. destruct (x =? ip); auto.
Qed.

Lemma run_mono : forall vis vis', (forall x, vis' x <= vis x) -> forall l tail tail' r r' s s',
  sub r r' -> ple s s' ->
  sub (fst (run vis tail l r s)) (fst (run vis' tail' l r' s'))
  /\ ple (snd (run vis tail l r s)) (snd (run vis' tail' l r' s')).
Proof.
  intros vis vis' Hv l0. apply items_rec2 with
   (P := fun x => forall tail tail' r r' s s', sub r r' -> ple s s' ->
      sub (fst (run1 vis x tail r s)) (fst (run1 vis' x tail' r' s'))
      /\ ple (snd (run1 vis x tail r s)) (snd (run1 vis' x tail' r' s')))
   (Q := fun l => forall tail tail' r r' s s', sub r r' -> ple s s' ->
      sub (fst (run vis tail l r s)) (fst (run vis' tail' l r' s'))
      /\ ple (snd (run vis tail l r s)) (snd (run vis' tail' l r' s'))).
  - intros. apply ipStep_mono; assumption.
  - intros. apply ipStep_mono; assumption.
  - intros i tail tail' r r' s s' Hr P. cbn. split; [apply sub_setbit; exact Hr|exact P].
  - intros i tail tail' r r' s s' Hr P. cbn. split; [apply sub_clearbit; exact Hr|exact P].
  - intros e tail tail' r r' s s' Hr [P1 P2]. cbn [run1 fst snd]. split; [exact Hr|]. split; [exact P1|].
    intros x. cbn. unfold updT. destruct (te_eqb x e); auto.
  - intros l IH tail tail' r r' s s' Hr P. rewrite !run1_ctx. cbn [fst snd]. split; [exact Hr|].
    apply IH; assumption.
  - intros; split; assumption.
  - intros x l Hx Hl tail tail' r r' s s' Hr P. cbn [run].
    match goal with |- context [run1 vis x ?b r s] => match goal with |- context [run1 vis' x ?b' r' s'] =>
      destruct (Hx b b' r r' s s' Hr P) as [A B];
      destruct (run1 vis x b r s) as [r1 s1]; destruct (run1 vis' x b' r' s') as [r1' s1'] end end.
    apply Hl; assumption.
Qed.

Lemma runSec_mono : forall vis vis' all tl tl' x s s', (forall y, vis' y <= vis y) ->
  (forall e, In e tl' -> In e tl) -> ple s s' ->
  ple (runSec vis all tl x s) (runSec vis' all tl' x s').
Proof.
  intros vis vis' all tl tl' [[a b] l] s s' Hv Ht [P1 P2]. cbn [runSec].
  destruct (tryCatchRoots tl a b all s) as [r s1] eqn:T1.
  destruct (tryCatchRoots tl' a b all s') as [r' s1'] eqn:T2.
  destruct (tcr_spec _ _ _ _ _ _ _ T1) as (A1 & A2 & A3 & A4 & A5 & A6).
  destruct (tcr_spec _ _ _ _ _ _ _ T2) as (B1 & B2 & B3 & B4 & B5 & B6).
  apply run_mono; [exact Hv| |].
  - intros i Hi. apply B6; [apply A4; exact Hi|]. intros e He Hr. apply P2. apply (A5 e (Ht e He) Hr). exact Hi.
  - split; intros; rewrite ?A1, ?A2, ?B1, ?B2; auto.
Qed.

Lemma runSecs_mono : forall vis all tl secs s s', ple s s' ->
  ple (runSecs vis all tl secs s) (runSecs vis all tl secs s').
Proof.
  intros vis all tl. unfold runSecs. induction secs as [|x secs IH]; intros s s' P; [exact P|].
  cbn [fold_left]. apply IH. apply runSec_mono; auto.
Qed.

(** ** Maps stay within the frame *)
Fixpoint marks1 (x : item) : list N :=
  match x with
  | IMk i => [i]
  | ICtx l => (fix go l := match l with [] => [] | y :: l' => marks1 y ++ go l' end) l
  | _ => []
  end.
Fixpoint marks (l : list item) : list N :=
  match l with [] => [] | y :: l' => marks1 y ++ marks l' end.
Lemma marks1_ctx : forall l, marks1 (ICtx l) = marks l. Proof. reflexivity. Qed.
Lemma marks_app : forall a b, marks (a ++ b) = marks a ++ marks b.
Proof. induction a as [|x a IH]; intros; cbn [marks app]; [reflexivity|]. rewrite IH, app_assoc. reflexivity. Qed.

Section Bound.
Variable m : method.
Definition bnd (s : cst) : Prop := ple s (initialState m).

Lemma run_bnd : forall vis l tail r s, (forall i, In i (marks l) -> (i < mapBits m)%N) ->
  sub r (ones m) -> bnd s ->
  sub (fst (run vis tail l r s)) (ones m) /\ bnd (snd (run vis tail l r s)).
Proof.
  intros vis l0. apply items_rec2 with
   (P := fun x => forall tail r s, (forall i, In i (marks1 x) -> (i < mapBits m)%N) -> sub r (ones m) -> bnd s ->
      sub (fst (run1 vis x tail r s)) (ones m) /\ bnd (snd (run1 vis x tail r s)))
   (Q := fun l => forall tail r s, (forall i, In i (marks l) -> (i < mapBits m)%N) -> sub r (ones m) -> bnd s ->
      sub (fst (run vis tail l r s)) (ones m) /\ bnd (snd (run vis tail l r s))).
  - intros ip tail r s _ Hr [B1 B2]. cbn [run1]. unfold ipStep.
    destruct (1 <? vis ip); cbn [fst snd]; rewrite ?land_absorb.
    + assert (X : sub (N.land (table s ip) r) (ones m)) by (apply sub_land_drop; exact Hr).
      split; [exact X|]. split; [|exact B2]. intros x. cbn. unfold upd. destruct (x =? ip); [exact X|apply B1].
    + split; [exact Hr|]. split; [|exact B2]. intros x. cbn. unfold upd. destruct (x =? ip); [exact Hr|apply B1].
  - intros ip tail r s _ Hr [B1 B2]. cbn [run1]. unfold ipStep.
    destruct (1 <? vis ip); cbn [fst snd]; rewrite ?land_absorb.
    + assert (X : sub (N.land (table s ip) r) (ones m)) by (apply sub_land_drop; exact Hr).
      split; [exact X|]. split; [|exact B2]. intros x. cbn. unfold upd. destruct (x =? ip); [exact X|apply B1].
    + split; [exact Hr|]. split; [|exact B2]. intros x. cbn. unfold upd. destruct (x =? ip); [exact Hr|apply B1].
  - intros i tail r s Hm Hr B. cbn [run1 fst snd]. split; [|exact B].
    intros j Hj. rewrite testbit_setbit in Hj. destruct (N.eqb_spec j i) as [E|E]; [|apply Hr; exact Hj].
    rewrite E. unfold ones. apply N.ones_spec_low. apply Hm. left. reflexivity.
  - intros i tail r s Hm Hr B. cbn [run1 fst snd]. split; [|exact B].
    intros j Hj. rewrite testbit_clearbit in Hj. apply andb_prop in Hj. apply Hr. tauto.
  - intros e tail r s _ Hr [B1 B2]. cbn [run1 fst snd]. split; [exact Hr|]. split; [exact B1|].
    intros x. cbn. unfold updT. destruct (te_eqb x e); [exact Hr|apply B2].
  - intros l IH tail r s Hm Hr B. rewrite run1_ctx. cbn [fst snd]. split; [exact Hr|].
    apply IH; assumption.
  - intros; split; assumption.
  - intros x l Hx Hl tail r s Hm Hr B. cbn [run marks] in *.
    match goal with |- context [run1 vis x ?b r s] =>
      destruct (Hx b r s (fun i Hi => Hm i (in_or_app _ _ _ (or_introl Hi))) Hr B) as [A1 A2];
      destruct (run1 vis x b r s) as [r1 s1] end.
    apply Hl; [intros i Hi; apply Hm; apply in_or_app; auto|exact A1|exact A2].
Qed.

Hypothesis SO : slotsOk m.
Lemma fits : forall i, (i < localSize m + maxStack m)%N -> (i < mapBits m)%N.
Proof.
  intros i Li. unfold mapBits. pose proof (N.div_mod (localSize m + maxStack m + 63) 64 ltac:(discriminate)) as D.
  pose proof (N.mod_lt (localSize m + maxStack m + 63) 64 ltac:(discriminate)). lia.
Qed.
Lemma marks_eff : forall es ip k i, In i (marks (effItems ip k es)) -> In (EMark i) es.
Proof.
  induction es as [|[j|j|] es IH]; intros ip k i H; cbn [effItems marks marks1 app In] in *; auto.
  - destruct H as [->|H]; [auto|right; eapply IH; exact H].
  - right. eapply IH. exact H.
  - right. eapply IH. exact H.
Qed.
Lemma emits_marks :
  (forall ip hs v its v', emits m ip hs v its v' -> (hs = true -> handlers m <> []) ->
     forall i, In i (marks its) -> (i < mapBits m)%N)
  /\ (forall bs v its v', emitsB m bs v its v' -> forall i, In i (marks its) -> (i < mapBits m)%N)
  /\ (forall n v its v', emitsN m n v its v' -> forall i, In i (marks its) -> (i < mapBits m)%N).
Proof.
  destruct SO as [SO1 [SO2 SO3]]. apply emits_mut.
  - intros; cbn in *; tauto.
  - intros; cbn in *; tauto.
  - intros ip hs v ins bs v2 ns v3 E V B IHB N IHN Hh i Hi.
    cbn [marks marks1 app] in Hi. rewrite !marks_app, !in_app_iff in Hi. destruct Hi as [Hi|[Hi|Hi]]; auto.
    apply marks_eff in Hi. apply fits. unfold own in Hi. destruct hs.
    + destruct Hi as [Hi|[Hi|Hi]]; [injection Hi as <-|discriminate|].
      * specialize (SO3 (Hh eq_refl)). lia.
      * eapply SO1; [eapply nth_error_In; exact E|exact Hi|auto].
    + eapply SO1; [eapply nth_error_In; exact E|exact Hi|auto].
  - intros; cbn in *; tauto.
  - intros b bs v its v1 r v2 E IHE B IHB i Hi. cbn [marks] in Hi. rewrite marks1_ctx, in_app_iff in Hi.
    destruct Hi as [Hi|Hi]; [apply IHE; [discriminate|exact Hi]|auto].
  - intros; cbn in *; tauto.
  - intros n v its v1 E IHE. apply IHE. discriminate.
Qed.

Lemma built_bnd : forall main secs v s, built m main secs v s -> bnd s.
Proof.
  intros main secs v s B. induction B as [mi v E|main secs v s i h st its v' B IH Hh R E].
  - apply run_bnd.
    + intros i Hi. rewrite marks_app, in_app_iff in Hi. destruct Hi as [Hi|Hi].
      * destruct SO as [_ [SO2 _]]. apply fits. clear - SO2 Hi. induction (params m) as [|[j b] ps IH]; [destruct Hi|].
        destruct b; cbn [parItems map snd fst marks marks1 app In] in Hi.
        -- destruct Hi as [->|Hi]; [apply (SO2 (i, true)); left; reflexivity|].
           apply IH; [exact Hi|]. intros p Hp. apply SO2. right. exact Hp.
        -- apply IH; [exact Hi|]. intros p Hp. apply SO2. right. exact Hp.
      * eapply (proj1 emits_marks); [exact E|discriminate|exact Hi].
    + intros i Hi. rewrite N.bits_0 in Hi. discriminate.
    + split; intros x; apply sub_refl.
  - unfold mkSec. cbn [runSec].
    match goal with |- context [tryCatchRoots ?tl ?a ?b ?r ?s] =>
      destruct (tryCatchRoots tl a b r s) as [r1 s1] eqn:TC end.
    destruct (tcr_spec _ _ _ _ _ _ _ TC) as (A1 & A2 & A3 & A4 & _ & _).
    apply run_bnd.
    + intros j Hj. unfold secItems in Hj. rewrite marks_app, in_app_iff in Hj. cbn [marks] in Hj.
      rewrite marks1_ctx, app_nil_r in Hj. destruct Hj as [Hj|Hj].
      * exfalso. revert Hj. unfold clrItems. generalize (seq 1 (N.to_nat (maxStack m) - 1)).
        induction l as [|x l IHl]; cbn; auto.
      * eapply (proj1 emits_marks); [exact E| |exact Hj]. intros _ Hn. rewrite Hn in Hh. destruct i; discriminate.
    + exact A4.
    + destruct IH as [I1 I2]. split; intros; rewrite ?A1, ?A2; auto.
Qed.
End Bound.

Lemma built_deflates : forall m main secs v s, built m main secs v s -> forall vis tl t sx,
  (forall x, v x <= vis x) -> (forall e, In e (traceLog (logOf main (map snd secs))) -> In e tl) -> bnd m sx ->
  ple (runSecs vis (ones m) tl (map snd secs) (snd (run vis t main 0%N sx))) s.
Proof.
  intros m main secs v s B. induction B as [mi v E|main secs v s i h st its v' B IH Hh R E]; intros vis tl t sx Hv Ht Hb.
  - cbn [map]. unfold runSecs. cbn [fold_left]. apply run_mono; [exact Hv|apply sub_refl|exact Hb].
  - rewrite map_app in *. unfold runSecs in *. rewrite fold_left_app. cbn [map fold_left snd] in *.
    apply runSec_mono; [exact Hv| |].
    + intros e He. apply Ht. exact He.
    + apply IH; [| |exact Hb].
      * intros x. specialize (Hv x). pose proof (proj1 (emits_grow m) _ _ _ _ _ E x). lia.
      * intros e He. apply Ht. unfold logOf in *. rewrite flat_map_app, app_assoc, traceLog_app, in_app_iff. auto.
Qed.

(** ** A pass that leaves something dirty has lowered a map *)
Section Steps.
Variable vis : nat -> nat.
Definition chg (L : list item) (s s' : cst) : Prop :=
  (exists ip, In ip (starts L ++ agains L) /\ 1 < vis ip /\ table s' ip <> table s ip)
  \/ (exists e, In e (trs L) /\ maps s' e <> maps s e).
Definition Step (L : list item) (s s' : cst) : Prop :=
  (forall ip, 1 < vis ip -> sub (table s' ip) (table s ip))
  /\ (forall e, ~ In e (trs L) -> maps s' e = maps s e)
  /\ (dirty s' = true -> dirty s = true \/ chg L s s').

Lemma Step_comp : forall A B s s1 s2, Step A s s1 -> Step B s1 s2 ->
  (forall e, In e (trs A) -> ~ In e (trs B)) -> Step (A ++ B) s s2.
Proof.
  intros A B s s1 s2 (A1 & A2 & A3) (B1 & B2 & B3) D. split; [|split].
  - intros ip H. eapply sub_trans; [apply B1|apply A1]; exact H.
  - intros e He. rewrite trs_app, in_app_iff in He. rewrite B2, A2 by tauto. reflexivity.
  - intros H. destruct (B3 H) as [H1|[(ip & I1 & I2 & I3)|(e & I1 & I2)]].
    + destruct (A3 H1) as [H2|[(ip & I1 & I2 & I3)|(e & I1 & I2)]]; [auto| |].
      * right. left. exists ip. split; [rewrite starts_app, agains_app, !in_app_iff in *; tauto|]. split; [exact I2|].
        intros E. apply I3. apply sub_antisym; [apply A1; exact I2|]. rewrite <- E. apply B1. exact I2.
      * right. right. exists e. split; [rewrite trs_app, in_app_iff; auto|]. rewrite B2; [exact I2|]. apply D. exact I1.
    + right. left. exists ip. split; [rewrite starts_app, agains_app, !in_app_iff in *; tauto|]. split; [exact I2|].
      intros E. apply I3. apply sub_antisym; [apply B1; exact I2|]. rewrite E. apply A1. exact I2.
    + right. right. exists e. split; [rewrite trs_app, in_app_iff; auto|]. rewrite <- (A2 e); [exact I2|].
      intros H0. apply (D e H0 I1).
Qed.

Lemma ipStep_Step : forall ip last r s L, In ip (starts L ++ agains L) -> Step L s (snd (ipStep vis ip last r s)).
Proof.
  intros ip last r s L HL. unfold ipStep. destruct (Nat.ltb_spec 1 (vis ip)) as [V|V]; cbn [snd].
  - split; [|split; [reflexivity|]].
    + intros x _. cbn. unfold upd. destruct (Nat.eqb_spec x ip) as [->|]; [apply sub_land_l|apply sub_refl].
    + cbn. intros H. apply orb_prop in H. destruct H as [H|H]; [auto|]. right. left. exists ip.
      split; [exact HL|]. split; [exact V|]. cbn. rewrite upd_same. apply andb_prop in H. destruct H as [_ H].
      apply negb_true_iff in H. apply N.eqb_neq in H. exact H.
  - split; [|split; [reflexivity|]].
    + intros x Hx. cbn. unfold upd. destruct (Nat.eqb_spec x ip) as [->|]; [lia|apply sub_refl].
    + cbn. auto.
Qed.

Lemma run_Step : forall l tail r s, sep l -> Step l s (snd (run vis tail l r s)).
Proof.
  intros l0. apply items_rec2 with
   (P := fun x => forall tail r s, sep1 x -> Step [x] s (snd (run1 vis x tail r s)))
   (Q := fun l => forall tail r s, sep l -> Step l s (snd (run vis tail l r s))).
  - intros ip tail r s _. apply ipStep_Step. cbn. auto.
  - intros ip tail r s _. apply ipStep_Step. cbn. auto.
  - intros i tail r s _. cbn [run1 snd]. split; [intros; apply sub_refl|]. split; auto.
  - intros i tail r s _. cbn [run1 snd]. split; [intros; apply sub_refl|]. split; auto.
  - intros e tail r s _. cbn [run1 snd]. split; [intros; apply sub_refl|]. split.
    + intros x Hx. cbn. apply updT_other. cbn in Hx. intuition congruence.
    + cbn. intros H. apply orb_prop in H. destruct H as [H|H]; [auto|]. right. right. exists e.
      split; [left; reflexivity|]. cbn. rewrite updT_same. apply andb_prop in H. destruct H as [_ H].
      apply negb_true_iff in H. apply N.eqb_neq in H. congruence.
  - intros l IH tail r s Hs. rewrite run1_ctx. cbn [snd]. rewrite sep1_ctx in Hs.
    specialize (IH true r s Hs). destruct IH as (A & B & C). split; [exact A|].
    unfold chg. cbn [starts agains trs]. rewrite starts1_ctx, agains1_ctx, trs1_ctx, !app_nil_r. split; assumption.
  - intros tail r s _. split; [intros; apply sub_refl|]. split; auto.
  - intros x l Hx Hl tail r s [[S1 S2] [S3 S4]]. cbn [run].
    match goal with |- context [run1 vis x ?b r s] =>
      specialize (Hx b r s S3); destruct (run1 vis x b r s) as [r1 s1] end.
    cbn [snd] in Hx. change (x :: l) with ([x] ++ l). eapply Step_comp; [exact Hx|apply Hl; exact S4|].
    intros e He. apply S2. cbn [trs] in He. rewrite app_nil_r in He. exact He.
Qed.

Lemma runSec_Step : forall all tl x s, sep (snd x) -> Step (snd x) s (runSec vis all tl x s).
Proof.
  intros all tl [[a b] l] s Hs. cbn [runSec snd] in *.
  destruct (tryCatchRoots tl a b all s) as [r s1] eqn:TC.
  destruct (tcr_spec _ _ _ _ _ _ _ TC) as (A1 & A2 & A3 & _).
  destruct (run_Step l true r s1 Hs) as (B1 & B2 & B3). unfold Step, chg in *. rewrite A1, A2, A3 in *. auto.
Qed.

Lemma full_Step : forall all tl t main secs s, sep (main ++ secsItems secs) ->
  Step (main ++ secsItems secs) s (runSecs vis all tl (map snd secs) (snd (run vis t main 0%N s))).
Proof.
  intros all tl t main secs s. induction secs as [|[i x] secs IH] using rev_ind; intros Hs.
  - cbn [secsItems flat_map map] in *. rewrite app_nil_r in *. apply run_Step. exact Hs.
  - rewrite secsItems_app, app_assoc, secsItems1 in *. apply sep_app_inv in Hs. destruct Hs as (S1 & S2 & S3 & S4).
    rewrite map_app. unfold runSecs in *. rewrite fold_left_app. cbn [map fold_left snd].
    eapply Step_comp; [apply IH; exact S1|apply runSec_Step; exact S2|exact S4].
Qed.
End Steps.

(** ** The measure *)
Lemma sub_le : forall a b, sub a b -> (a <= b)%N.
Proof.
  intros a b H. assert (E : b = N.lxor a (N.ldiff b a)).
  { apply N.bits_inj. intros i. rewrite N.lxor_spec, N.ldiff_spec. specialize (H i).
    destruct (N.testbit a i), (N.testbit b i); cbn; auto. }
  rewrite E. rewrite <- N.add_nocarry_lxor; [lia|].
  apply N.bits_inj. intros i. rewrite N.land_spec, N.ldiff_spec, N.bits_0.
  destruct (N.testbit a i), (N.testbit b i); reflexivity.
Qed.

Definition nsum {A} (f : A -> N) (l : list A) : N := fold_right (fun x a => (f x + a)%N) 0%N l.
Lemma nsum_le : forall A (f g : A -> N) l, (forall x, (f x <= g x)%N) -> (nsum f l <= nsum g l)%N.
Proof. intros A f g l H. induction l as [|x l IH]; cbn; [lia|]. specialize (H x). unfold nsum in IH. lia. Qed.
Lemma nsum_lt : forall A (f g : A -> N) l x, (forall x, (f x <= g x)%N) -> In x l -> (f x < g x)%N ->
  (nsum f l < nsum g l)%N.
Proof.
  intros A f g l x H Hx L. induction l as [|y l IH]; [destruct Hx|]. cbn. fold (nsum f l) (nsum g l).
  destruct Hx as [->|Hx]; [pose proof (nsum_le A f g l H); lia|]. specialize (IH Hx). specialize (H y). lia.
Qed.
Definition mu (m : method) (tl : list te) (s : cst) : N :=
  (nsum (table s) (seq 0 (length (code m))) + nsum (maps s) tl)%N.

Lemma built_lt : forall m main secs v s, built m main secs v s ->
  forall ip, In ip (starts (main ++ secsItems secs) ++ agains (main ++ secsItems secs)) -> ip < length (code m).
Proof.
  intros m main secs v s B. induction B as [mi v E|main secs v s i h st its v' B IH Hh R E]; intros ip Hi.
  - cbn [secsItems flat_map] in Hi. rewrite app_nil_r, starts_app, agains_app in Hi.
    destruct (par_items (params m)) as (P1 & P2 & _). rewrite P1, P2 in Hi. cbn [app] in Hi.
    destruct (proj1 (emits_ips m) _ _ _ _ _ E) as (I1 & I2 & _).
    apply in_app_or in Hi. destruct Hi as [Hi|Hi]; [apply I1; exact Hi|apply I2; exact Hi].
  - rewrite secsItems_app, app_assoc, secsItems1 in Hi. rewrite starts_app, agains_app in Hi.
    change (snd (mkSec m st h its)) with (secItems m its) in Hi.
    destruct (sec_items m its) as (Q1 & Q2 & _). rewrite Q1, Q2 in Hi.
    destruct (proj1 (emits_ips m) _ _ _ _ _ E) as (I1 & I2 & _).
    rewrite !in_app_iff in Hi. specialize (IH ip). rewrite in_app_iff in IH.
    destruct Hi as [[Hi|Hi]|[Hi|Hi]]; auto; [apply I1; exact Hi|apply I2; exact Hi].
Qed.

Theorem frameMaps_terminates : forall m, slotsOk m -> exists fuel f, frameMaps fuel m = Some f.
Proof.
  intros m SO. destruct (compileCode_ok m) as (mi & secs & c & v0 & CC & EM & CX & Q & CO).
  destruct CX as [B [L _]]. unfold frameMaps. rewrite CC.
  set (main := parItems (params m) ++ mi) in *. set (tl := traceLog (log c)).
  set (t := match map snd secs with [] => true | _ => false end).
  pose (F := fun s => runSecs (visits c) (ones m) tl (map snd secs) (snd (run (visits c) t main 0%N s))).
  pose (reset := fun s => setMaps s (maps s) false).
  assert (PS : forall s, pass m tl (visits c) (log c) s = Some (F s)).
  { intros s. rewrite L at 1. apply pass_log. }
  assert (FM : forall s s', ple s s' -> ple (F s) (F s')).
  { intros s s' P. unfold F. apply runSecs_mono. apply run_mono; [auto|apply sub_refl|exact P]. }
  destruct (built_wf _ _ _ _ _ B) as (S0 & _ & _ & _).
  enough (G : forall n s, N.to_nat (mu m tl s) < n -> ple (F (reset s)) s ->
            exists fuel s', dirtyLoop fuel m tl (visits c) (log c) s = Some s').
  { destruct (G (S (N.to_nat (mu m tl (cs c)))) (cs c)) as (fuel & s' & E); [lia| |].
    - unfold F. eapply built_deflates; [exact B|auto| |].
      + intros e He. unfold tl. rewrite L. exact He.
      + pose proof (built_bnd m SO _ _ _ _ B) as [B1 B2]. split; assumption.
    - exists fuel. fold tl. rewrite E. eauto. }
  induction n as [|n IH]; intros s Ln D; [lia|].
  destruct (dirty s) eqn:Ds.
  2:{ exists 1, s. cbn. rewrite Ds. reflexivity. }
  destruct (dirty (F (reset s))) eqn:Df.
  2:{ exists 2, (F (reset s)). cbn [dirtyLoop]. rewrite Ds. fold (reset s). rewrite PS, Df. reflexivity. }
  destruct (IH (F (reset s))) as (fuel & s' & E).
  - assert (mu m tl (F (reset s)) < mu m tl s)%N; [|lia].
    destruct D as [D1 D2].
    assert (L1 : forall ip, (table (F (reset s)) ip <= table s ip)%N) by (intros; apply sub_le, D1).
    assert (L2 : forall e, (maps (F (reset s)) e <= maps s e)%N) by (intros; apply sub_le, D2).
    destruct (full_Step (visits c) (ones m) tl t main secs (reset s) S0) as (_ & _ & X).
    destruct (X Df) as [X1|[(ip & I1 & _ & I3)|(e & I1 & I3)]]; [discriminate| |]; unfold mu.
    + pose proof (nsum_le _ _ _ tl L2).
      assert (nsum (table (F (reset s))) (seq 0 (length (code m))) < nsum (table s) (seq 0 (length (code m))))%N; [|lia].
      apply nsum_lt with (x := ip); [exact L1| |].
      * apply in_seq. pose proof (built_lt _ _ _ _ _ B ip I1). lia.
      * specialize (L1 ip). change (table (F (reset s)) ip <> table s ip) in I3. lia.
    + pose proof (nsum_le _ _ _ (seq 0 (length (code m))) L1).
      assert (nsum (maps (F (reset s))) tl < nsum (maps s) tl)%N; [|lia].
      apply nsum_lt with (x := e); [exact L2| |].
      * unfold tl. rewrite L. apply In_traceLog, In_logOf. exact I1.
      * specialize (L2 e). change (maps (F (reset s)) e <> maps s e) in I3. lia.
  - apply FM. exact D.
  - exists (S fuel), s'. cbn [dirtyLoop]. rewrite Ds. fold (reset s). rewrite PS. exact E.
Qed.
