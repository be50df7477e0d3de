(** The fixed point of a whole method, and its soundness. *)
From Verif Require Import Base FrameMap_Model FrameMap_Spec FrameMap_Proofs FrameMap_Log FrameMap_Sound.
Local Open Scope nat_scope.

Lemma tcr_spec : forall tl a b r0 s r s1, tryCatchRoots tl a b r0 s = (r, s1) ->
  table s1 = table s /\ maps s1 = maps s /\ dirty s1 = dirty s
  /\ sub r r0
  /\ (forall e, In e tl -> a <= fst e < b -> sub r (maps s e))
  /\ (forall i, N.testbit r0 i = true ->
        (forall e, In e tl -> a <= fst e < b -> N.testbit (maps s e) i = true) -> N.testbit r i = true).
Proof.
  induction tl as [|e tl IH]; intros a b r0 s r s1 H; cbn [tryCatchRoots] in H.
  - injection H as <- <-. repeat split; auto; [apply sub_refl|intros ? []].
  - destruct ((a <=? fst e) && (fst e <? b)) eqn:C.
    + apply andb_prop in C. destruct C as [C1 C2]. apply Nat.leb_le in C1. apply Nat.ltb_lt in C2.
      destruct (IH _ _ _ _ _ _ H) as (A1 & A2 & A3 & A4 & A5 & A6). cbn [table maps dirty setWatch] in *.
      split; [exact A1|]. split; [exact A2|]. split; [exact A3|]. split; [|split].
      * eapply sub_trans; [exact A4|apply sub_land_l].
      * intros x [<-|Hx] Hr; [eapply sub_trans; [exact A4|apply sub_land_r]|apply A5; assumption].
      * intros i Hi Hx. apply A6; [|intros x Hx' Hr; apply Hx; [right; exact Hx'|exact Hr]].
        rewrite N.land_spec, Hi, (Hx e (or_introl eq_refl)) by lia. reflexivity.
    + destruct (IH _ _ _ _ _ _ H) as (A1 & A2 & A3 & A4 & A5 & A6).
      split; [exact A1|]. split; [exact A2|]. split; [exact A3|]. split; [exact A4|]. split.
      * intros x [<-|Hx] Hr; [|apply A5; assumption].
        exfalso. apply andb_false_iff in C. rewrite Nat.leb_gt, Nat.ltb_ge in C. lia.
      * intros i Hi Hx. apply A6; [exact Hi|]. intros x Hx' Hr. apply Hx; [right; exact Hx'|exact Hr].
Qed.

(** All items of a method. *)
Definition secsItems (secs : list (nat * sec)) : list item := flat_map (fun y => snd (snd y)) secs.
Lemma secsItems_app : forall a b, secsItems (a ++ b) = secsItems a ++ secsItems b.
Proof. intros. apply flat_map_app. Qed.

Lemma secsItems1 : forall i x, secsItems [(i, x)] = snd x.
Proof. intros. cbn. apply app_nil_r. Qed.

Lemma traceLog_app : forall a b, traceLog (a ++ b) = traceLog b ++ traceLog a.
Proof.
  induction a as [|[] a IH]; intros b; cbn [app traceLog]; rewrite ?app_nil_r; auto.
  rewrite IH, app_assoc. reflexivity.
Qed.
Lemma In_traceLog : forall e l, In e (traceLog l) <-> In (TraceEvent e) l.
Proof.
  intros e. induction l as [|x l IH]; [cbn; tauto|].
  destruct x; cbn [traceLog In]; rewrite ?IH; try (split; [auto|intros [H|H]; [discriminate|exact H]]).
  rewrite in_app_iff, IH. cbn. split; intros [H|H]; auto.
  - destruct H as [->|[]]. auto.
  - injection H as ->. auto.
Qed.
Lemma In_flat : forall l e, In (TraceEvent e) (flat l) <-> In e (trs l).
Proof.
  intros l0. apply items_rec2 with
   (P := fun x => forall e, In (TraceEvent e) (flat1 x) <-> In e (trs1 x))
   (Q := fun l => forall e, In (TraceEvent e) (flat l) <-> In e (trs l)).
  - intros ip e. cbn. split; [intros [H|[]]; discriminate|tauto].
  - intros ip e. cbn. split; [intros [H|[]]; discriminate|tauto].
  - intros ip e. cbn. split; [intros [H|[]]; discriminate|tauto].
  - intros ip e. cbn. split; [intros [H|[]]; discriminate|tauto].
  - intros x e. cbn. split; (intros [H|[]]; [left; congruence]).
  - intros l IH e. rewrite flat1_ctx, trs1_ctx. cbn [In]. rewrite in_app_iff, IH. cbn.
    split; [intros [H|[H|[H|[]]]]; try discriminate; exact H|auto].
  - intros e. cbn. tauto.
  - intros x l Hx Hl e. cbn [flat trs]. rewrite !in_app_iff, Hx, Hl. tauto.
Qed.
Lemma In_logOf : forall main secs e,
  In (TraceEvent e) (logOf main (map snd secs)) <-> In e (trs (main ++ secsItems secs)).
Proof.
  intros main secs e. unfold logOf. rewrite in_app_iff, trs_app, in_app_iff, In_flat.
  assert (H : In (TraceEvent e) (flat_map flatSec (map snd secs)) <-> In e (trs (secsItems secs))).
  { induction secs as [|[i [[a b] l]] secs IH]; [cbn; tauto|].
    cbn [map snd flat_map flatSec secsItems] in *. rewrite trs_app, !in_app_iff. cbn [In].
    rewrite in_app_iff, In_flat, IH. unfold secsItems. cbn [In]. split.
    - intros [[H|[H|[H|[]]]]|H]; try discriminate; auto.
    - tauto. }
  rewrite H. tauto.
Qed.

Lemma sep_app_inv : forall a b, sep (a ++ b) ->
  sep a /\ sep b /\ (forall ip, In ip (starts a ++ agains a) -> ~ In ip (starts b))
  /\ (forall e, In e (trs a) -> ~ In e (trs b)).
Proof.
  induction a as [|x a IH]; intros b H; cbn [app sep] in *.
  - split; [exact I|]. split; [exact H|]. split; intros ? [].
  - destruct H as [[H1 H2] [H3 H4]]. destruct (IH b H4) as (A & B & C & D).
    split; [split; [split|split; assumption]|].
    + intros ip Hi Hc. apply (H1 ip Hi). rewrite starts_app, in_app_iff. auto.
    + intros e He Hc. apply (H2 e He). rewrite trs_app, in_app_iff. auto.
    + split; [exact B|]. cbn [starts agains trs]. split.
      * intros ip Hi Hc. rewrite !in_app_iff in Hi.
        destruct Hi as [[Hi|Hi]|[Hi|Hi]].
        -- apply (H1 ip); [rewrite in_app_iff; auto|rewrite starts_app, in_app_iff; auto].
        -- apply (C ip); [rewrite in_app_iff; auto|exact Hc].
        -- apply (H1 ip); [rewrite in_app_iff; auto|rewrite starts_app, in_app_iff; auto].
        -- apply (C ip); [rewrite in_app_iff; auto|exact Hc].
      * intros e He Hc. rewrite in_app_iff in He. destruct He as [He|He].
        -- apply (H2 e He). rewrite trs_app, in_app_iff. auto.
        -- apply (D e He Hc).
Qed.

Definition inRange (x : sec) (e : te) : Prop := fst (fst x) <= fst e < snd (fst x).

Definition GI (main : list item) (secs : list (nat * sec)) (s : cst) : Prop :=
  ok (table s) (maps s) main 0%N
  /\ forall A i x B, secs = A ++ (i, x) :: B ->
       exists r, ok (table s) (maps s) (snd x) r
         /\ forall e, In e (trs (main ++ secsItems A)) -> inRange x e -> sub r (maps s e).

Lemma chain_step : forall vis all tl main secs i x s,
  GI main secs s ->
  sep (main ++ secsItems (secs ++ [(i, x)])) ->
  lastOk true (snd x) -> (forall ip, In ip (agains (snd x)) -> 1 < vis ip) ->
  (forall e, In e (trs (main ++ secsItems secs)) -> In e tl) ->
  dirty (runSec vis all tl x s) = false ->
  GI main (secs ++ [(i, x)]) (runSec vis all tl x s).
Proof.
  intros vis all tl main secs i [[a b] l] s [G1 G2] Hsep Hlast Hag Htl D.
  rewrite secsItems_app, app_assoc, secsItems1 in Hsep. cbn [snd] in Hsep. apply sep_app_inv in Hsep. destruct Hsep as (S1 & S2 & S3 & S4).
  cbn [runSec] in *. destruct (tryCatchRoots tl a b all s) as [r s1] eqn:TC.
  destruct (tcr_spec _ _ _ _ _ _ _ TC) as (A1 & A2 & A3 & A4 & A5 & A6).
  cbn [snd] in *.
  destruct (clean_ok vis l true r s1 Hlast S2 Hag D) as (D1 & F1 & F2 & O).
  set (s' := snd (run vis true l r s1)) in *.
  assert (X1 : forall ip, In ip (starts (main ++ secsItems secs) ++ agains (main ++ secsItems secs)) ->
               table s' ip = table s ip).
  { intros ip Hi. rewrite F1, A1; [reflexivity|]. apply S3. exact Hi. }
  assert (X2 : forall e, In e (trs (main ++ secsItems secs)) -> maps s' e = maps s e).
  { intros e He. rewrite F2, A2; [reflexivity|]. apply S4. exact He. }
  split.
  - eapply ok_ext; [| |exact G1].
    + intros ip Hi. apply X1. rewrite starts_app, agains_app, !in_app_iff in *. tauto.
    + intros e He. apply X2. rewrite trs_app, in_app_iff. auto.
  - intros A j x B E. destruct (exists_last (l := (j, x) :: B)) as [B' [y E']]; [discriminate|].
    rewrite E' in E. rewrite app_assoc in E. apply app_inj_tail in E. destruct E as [E <-].
    destruct B' as [|z B'].
    + cbn in E'. injection E' as -> -> ->. rewrite app_nil_r in E. subst A.
      exists r. split; [exact O|]. intros e He Hr. rewrite (X2 e He). apply A5; [|exact Hr].
      apply Htl. exact He.
    + cbn in E'. injection E' as <- ->. destruct (G2 A j x B' E) as [r' [O' R']].
      assert (Hx : forall ip, In ip (starts (snd x) ++ agains (snd x)) ->
                  In ip (starts (main ++ secsItems secs) ++ agains (main ++ secsItems secs))).
      { intros ip Hi. rewrite E, secsItems_app. change ((j, x) :: B') with ([(j, x)] ++ B').
        rewrite secsItems_app, secsItems1.
        rewrite !starts_app, !agains_app, !in_app_iff in *. tauto. }
      assert (Ht : forall e, In e (trs (snd x)) -> In e (trs (main ++ secsItems secs))).
      { intros e Hi. rewrite E, secsItems_app. change ((j, x) :: B') with ([(j, x)] ++ B').
        rewrite secsItems_app, secsItems1.
        rewrite !trs_app, !in_app_iff. tauto. }
      exists r'. split.
      * eapply ok_ext; [| |exact O']; [intros ip Hi; apply X1, Hx; exact Hi|intros e He; apply X2, Ht; exact He].
      * intros e He Hr. rewrite X2; [apply R'; assumption|].
        rewrite E, secsItems_app, !trs_app, !in_app_iff in *. tauto.
Qed.

Lemma runSec_dirty : forall vis all tl x s, lastOk true (snd x) -> sep (snd x) ->
  (forall ip, In ip (agains (snd x)) -> 1 < vis ip) ->
  dirty (runSec vis all tl x s) = false -> dirty s = false.
Proof.
  intros vis all tl [[a b] l] s L S0 V D. cbn [runSec snd] in *.
  destruct (tryCatchRoots tl a b all s) as [r s1] eqn:TC.
  destruct (tcr_spec _ _ _ _ _ _ _ TC) as (A1 & A2 & A3 & _). rewrite <- A3.
  exact (proj1 (clean_ok vis l true r s1 L S0 V D)).
Qed.

Lemma par_items : forall ps, starts (parItems ps) = [] /\ agains (parItems ps) = [] /\ trs (parItems ps) = []
  /\ sep (parItems ps) /\ lastOk false (parItems ps).
Proof.
  induction ps as [|[i []] ps IH]; cbn; [auto| |]; destruct IH as (A & B & C & D & E);
    repeat split; auto; intros ? [].
Qed.
Lemma clr_items : forall m, starts (clrItems m) = [] /\ agains (clrItems m) = [] /\ trs (clrItems m) = []
  /\ sep (clrItems m) /\ lastOk false (clrItems m).
Proof.
  intros m. unfold clrItems. generalize (seq 1 (N.to_nat (maxStack m) - 1)).
  induction l as [|x l IH]; cbn; [auto|]; destruct IH as (A & B & C & D & E);
    repeat split; auto; intros ? [].
Qed.

Lemma sec_items : forall m its, starts (secItems m its) = starts its /\ agains (secItems m its) = agains its
  /\ trs (secItems m its) = trs its /\ (sep its -> sep (secItems m its))
  /\ (lastOk true its -> lastOk true (secItems m its)).
Proof.
  intros m its. destruct (clr_items m) as (A & B & C & D & E). unfold secItems.
  rewrite starts_app, agains_app, trs_app, A, B, C. cbn [starts agains trs app].
  rewrite starts1_ctx, agains1_ctx, trs1_ctx, !app_nil_r. split; [reflexivity|]. split; [reflexivity|].
  split; [reflexivity|]. split.
  - intros H. apply sep_app; [exact D| |rewrite A, B; intros ? []|rewrite C; intros ? []].
    cbn [sep starts trs]. rewrite sep1_ctx. repeat split; auto.
  - intros H. apply lastOk_app_t; [exact E|]. cbn [lastOk]. rewrite lastOk1_ctx. auto.
Qed.

Definition visitedBy (v : nat -> nat) (l : list item) : Prop :=
  (forall ip, In ip (starts l) -> 0 < v ip) /\ (forall ip, In ip (agains l) -> 1 < v ip)
  /\ (forall e, In e (trs l) -> 0 < v (fst e)).

Lemma built_wf : forall m main secs v s, built m main secs v s ->
  sep (main ++ secsItems secs) /\ visitedBy v (main ++ secsItems secs)
  /\ lastOk true main /\ (forall y, In y secs -> lastOk true (snd (snd y))).
Proof.
  induction 1 as [mi v E|main secs v s i h st its v' B IH Hh R E].
  - destruct (par_items (params m)) as (P1 & P2 & P3 & P4 & P5).
    destruct (proj1 (emits_ips m) _ _ _ _ _ E) as (I1 & I2 & I3).
    cbn [secsItems flat_map]. rewrite app_nil_r.
    unfold visitedBy. rewrite starts_app, agains_app, trs_app, P1, P2, P3. cbn [app].
    split; [|split; [|split; [|intros ? []]]].
    + apply sep_app; [exact P4|exact (proj1 (emits_sep m) _ _ _ _ _ E)|rewrite P1, P2; intros ? []|rewrite P3; intros ? []].
    + split; [|split]; intros x Hx; [apply (I1 x Hx)|apply (I2 x Hx)|apply (I3 x Hx)].
    + apply lastOk_app_t; [exact P5|exact (proj1 (emits_last m) _ _ _ _ _ E)].
  - destruct IH as (S0 & (V1 & V2 & V3) & L1 & L2).
    destruct (sec_items m its) as (Q1 & Q2 & Q3 & Q4 & Q5).
    destruct (proj1 (emits_ips m) _ _ _ _ _ E) as (I1 & I2 & I3).
    pose proof (proj1 (emits_grow m) _ _ _ _ _ E) as G.
    rewrite secsItems_app, app_assoc. set (L := main ++ secsItems secs) in *.
    rewrite secsItems1. change (snd (mkSec m st h its)) with (secItems m its).
    unfold visitedBy. rewrite starts_app, agains_app, trs_app, Q1, Q2, Q3.
    split; [|split; [|split; [exact L1|]]].
    + apply sep_app; [exact S0|apply Q4; exact (proj1 (emits_sep m) _ _ _ _ _ E)| |].
      * rewrite Q1. intros ip Hi Hc. destruct (I1 ip Hc) as [X _]. apply in_app_or in Hi.
        destruct Hi as [Hi|Hi]; [specialize (V1 ip Hi)|specialize (V2 ip Hi)]; lia.
      * rewrite Q3. intros e He Hc. destruct (I3 e Hc) as [X _]. specialize (V3 e He). lia.
    + split; [|split]; intros x Hx; apply in_app_or in Hx; destruct Hx as [Hx|Hx].
      * specialize (V1 x Hx). specialize (G x). lia.
      * apply (I1 x Hx).
      * specialize (V2 x Hx). specialize (G x). lia.
      * apply (I2 x Hx).
      * specialize (V3 x Hx). specialize (G (fst x)). lia.
      * apply (I3 x Hx).
    + intros y Hy. apply in_app_or in Hy. destruct Hy as [Hy|[<-|[]]]; [apply L2; exact Hy|].
      cbn [snd mkSec]. apply Q5. exact (proj1 (emits_last m) _ _ _ _ _ E).
Qed.

Lemma partial_GI : forall m main secs v s, built m main secs v s -> dirty s = false -> GI main secs s.
Proof.
  intros m main secs v s B. induction B as [mi v E|main secs v s i h st its v' B IH Hh R E]; intros D.
  - destruct (built_wf _ _ _ _ _ (built_main m mi v E)) as (S0 & (V1 & V2 & V3) & L1 & _).
    cbn [secsItems flat_map] in *. rewrite app_nil_r in *.
    split; [|intros [|? ?] ? ? ?; discriminate].
    apply (clean_ok v (parItems (params m) ++ mi) true 0%N (initialState m) L1 S0 V2 D).
  - pose proof (built_sec m main secs v s i h st its v' B Hh R E) as B'.
    destruct (built_wf _ _ _ _ _ B') as (S0 & (V1 & V2 & V3) & L1 & L2).
    assert (LX : lastOk true (snd (mkSec m st h its))).
    { apply (L2 (i, mkSec m st h its)). apply in_or_app. right. left. reflexivity. }
    assert (AX : forall ip, In ip (agains (snd (mkSec m st h its))) -> 1 < v' ip).
    { intros ip Hi. apply V2. rewrite secsItems_app, !agains_app, !in_app_iff, secsItems1. auto. }
    apply chain_step; try assumption.
    + apply IH. apply runSec_dirty in D; try assumption.
      rewrite secsItems_app, app_assoc in S0. apply sep_app_inv in S0. destruct S0 as (_ & S0 & _).
      rewrite secsItems1 in S0. exact S0.
    + intros e He. apply In_traceLog, In_logOf. rewrite secsItems_app, app_assoc, trs_app, in_app_iff. auto.
Qed.

Lemma full_GI : forall m main v tl t0 s0 secs0 sc, built m main secs0 v sc ->
  (forall e, In e (trs (main ++ secsItems secs0)) -> In e tl) -> lastOk t0 main ->
  dirty (runSecs v (ones m) tl (map snd secs0) (snd (run v t0 main 0%N s0))) = false ->
  GI main secs0 (runSecs v (ones m) tl (map snd secs0) (snd (run v t0 main 0%N s0))).
Proof.
  intros m main v tl t0 s0 secs0 sc B Htl Lm.
  destruct (built_wf _ _ _ _ _ B) as (S0 & (V1 & V2 & V3) & _ & L2). clear B.
  revert S0 V2 L2 Htl. clear V1 V3.
  induction secs0 as [|[i x] secs IH] using rev_ind; intros S0 V2 L2 Htl D.
  - cbn [secsItems flat_map map] in *. rewrite app_nil_r in *. unfold runSecs in *. cbn [fold_left] in *.
    split; [|intros [|? ?] ? ? ?; discriminate].
    apply (clean_ok v main t0 0%N s0 Lm S0 V2 D).
  - unfold runSecs in *. rewrite map_app in *. cbn [map snd] in *. rewrite fold_left_app in *. cbn [fold_left] in *.
    assert (LX : lastOk true (snd x)).
    { apply (L2 (i, x)). apply in_or_app. right. left. reflexivity. }
    assert (AX : forall ip, In ip (agains (snd x)) -> 1 < v ip).
    { intros ip Hi. apply V2. rewrite secsItems_app, !agains_app, !in_app_iff, secsItems1. auto. }
    assert (SX := S0). rewrite secsItems_app, app_assoc in SX. apply sep_app_inv in SX.
    destruct SX as (SX1 & SX2 & _). rewrite secsItems1 in SX2.
    apply chain_step; try assumption.
    + apply IH; try assumption.
      * intros ip Hi. apply V2. rewrite secsItems_app, app_assoc, agains_app, in_app_iff. auto.
      * intros y Hy. apply L2. apply in_or_app. auto.
      * intros e He. apply Htl. rewrite secsItems_app, app_assoc, trs_app, in_app_iff. auto.
      * apply runSec_dirty in D; assumption.
    + intros e He. apply Htl. rewrite secsItems_app, app_assoc, trs_app, in_app_iff. auto.
Qed.

(** ** The hypotheses on the compilation of a method with handlers *)

(** When the code outside the handlers has been compiled, the last thing logged is
    not the return to an instruction compiled before. *)
Definition lastPathLeaves (m : method) : Prop :=
  handlers m = [] \/
  forall es v, comp (S (S (length (code m)))) m 0 false (fun _ => 0) = Some (es, v) ->
    forall es' ip, es = es' ++ [IpEvent ip] -> v ip = 1.

(** When a handler is compiled all calls of its range (up to the handler, should it
    lie inside) have been. *)
Definition rangeStable (m : method) : Prop :=
  forall c h l1 st l2 ip k, compileCode m = Some c -> In h (handlers m) ->
    log c = l1 ++ PushExceptionHandlerEvent st (handlerEnd st h) :: l2 ->
    hstart h <= st < hend h ->
    In (TraceEvent (ip, k)) l2 -> ~ (hstart h <= ip < handlerEnd st h).

Lemma lastOk_false : forall l, lastOk true l -> (forall l' ip, l <> l' ++ [IAgain ip]) -> lastOk false l.
Proof.
  induction l as [|x l IH]; [auto|]. cbn [lastOk]. intros [A B] H. split.
  - destruct l; [|exact A]. destruct x; cbn in *; auto. exfalso. apply (H [] ip). reflexivity.
  - apply IH; [exact B|]. intros l' ip E. apply (H (x :: l') ip). rewrite E. reflexivity.
Qed.

(** ** From the fixed point to the paths *)
Definition le_slots (r : N) (s : slots) : Prop := forall i, N.testbit r i = true -> s i = true.

Lemma after_le : forall es r s, le_slots r s -> le_slots (napply r es) (after s es).
Proof.
  unfold napply, after. induction es as [|e es IH]; intros r s H; [exact H|].
  cbn [fold_left]. apply IH. intros j Hj. destruct e; cbn [napply1 after1] in *; [| |auto].
  - rewrite testbit_setbit in Hj. unfold put. destruct (j =? i)%N; [reflexivity|]. apply H. exact Hj.
  - rewrite testbit_clearbit in Hj. unfold put. destruct (j =? i)%N; [discriminate|]. apply H. exact Hj.
Qed.

Lemma par_nxts : forall T ps r s, le_slots r s ->
  le_slots (nxts T (parItems ps) r) (fold_left (fun s (p : N * bool) => put s (fst p) (snd p)) ps s).
Proof.
  unfold nxts. induction ps as [|[i b] ps IH]; intros r s H; [exact H|].
  cbn [parItems map fold_left fst snd]. apply IH. intros j Hj. unfold put. destruct b; cbn [nxt] in Hj.
  - rewrite testbit_setbit in Hj. destruct (j =? i)%N; auto.
  - rewrite testbit_clearbit in Hj. destruct (j =? i)%N; [discriminate|auto].
Qed.

Lemma clr_nxts : forall T m r j, N.testbit (nxts T (clrItems m) r) j
  = negb ((localSize m <? j) && (j <? localSize m + maxStack m))%N && N.testbit r j.
Proof.
  intros T m r j. unfold clrItems.
  assert (G : forall n a r, N.testbit (nxts T (map (fun i => ICl (localSize m + N.of_nat i)%N) (seq a n)) r) j
     = negb ((localSize m + N.of_nat a <=? j) && (j <? localSize m + N.of_nat (a + n)))%N && N.testbit r j).
  { induction n as [|n IH]; intros a r0.
    - cbn. rewrite Nat.add_0_r.
      destruct (N.leb_spec (localSize m + N.of_nat a) j), (N.ltb_spec j (localSize m + N.of_nat a)); cbn; auto; lia.
    - cbn [seq map]. unfold nxts in *. cbn [fold_left nxt]. rewrite IH, testbit_clearbit.
      rewrite andb_assoc. f_equal.
      destruct (N.eqb_spec j (localSize m + N.of_nat a)),
        (N.leb_spec (localSize m + N.of_nat a) j), (N.ltb_spec j (localSize m + N.of_nat (a + S n))),
        (N.leb_spec (localSize m + N.of_nat (S a)) j), (N.ltb_spec j (localSize m + N.of_nat (S a + n))); cbn; auto; lia. }
  rewrite G. apply (f_equal (fun b => negb b && N.testbit r j)).
  destruct (N.leb_spec (localSize m + N.of_nat 1) j), (N.ltb_spec (localSize m) j); cbn; try reflexivity; try (exfalso; lia).
  destruct (N.ltb_spec j (localSize m + N.of_nat (1 + (N.to_nat (maxStack m) - 1)))),
     (N.ltb_spec j (localSize m + maxStack m)); auto; lia.
Qed.

Lemma own_doing : forall m ip ins,
  own m (isHandler m ip) ins = if isHandler m ip then EMark (localSize m) :: doing m ip ins else doing m ip ins.
Proof. intros. unfold own, doing. destruct (isHandler m ip); reflexivity. Qed.

(** What every visited instruction satisfies. *)
Lemma built_LF : forall m T M main secs v s, handlersByException m -> built m main secs v s ->
  ok T M main 0%N -> (forall y, In y secs -> exists r, ok T M (snd (snd y)) r) ->
  forall x, 0 < v x -> LF m T M x
    /\ forall ins pre post, nth_error (code m) x = Some ins ->
         own m (isHandler m x) ins = pre ++ ETrace :: post -> In (x, calls pre) (trs (main ++ secsItems secs)).
Proof.
  intros m T M main secs v s HB B. induction B as [mi v E|main secs v s i h st its v' B IH Hh R E]; intros O1 O2 x Hx.
  - apply ok_app in O1. destruct O1 as [_ O1].
    split.
    + apply (proj2 (proj1 (emits_LF m T M HB) _ _ _ _ _ E (eq_sym (proj1 HB)) _ O1)); [reflexivity|exact Hx].
    + intros ins pre post Ei Eo. cbn [secsItems flat_map]. rewrite app_nil_r, trs_app, in_app_iff. right.
      apply (proj1 (emits_trs m) _ _ _ _ _ E HB (eq_sym (proj1 HB)) x ins pre post eq_refl Hx Ei Eo).
  - assert (Ih : true = isHandler m (hip h)).
    { symmetry. unfold isHandler. apply existsb_exists. exists h. split; [eapply nth_error_In; exact Hh|apply Nat.eqb_refl]. }
    destruct (Nat.eq_dec (v x) 0) as [Z|Z].
    + destruct (O2 (i, mkSec m st h its)) as [r Or]; [apply in_or_app; right; left; reflexivity|].
      cbn [snd mkSec] in Or. unfold mkSec, secItems in Or. cbn [snd] in Or. apply ok_app in Or. destruct Or as [_ [Or _]].
      rewrite ok1_ctx in Or. split.
      * apply (proj2 (proj1 (emits_LF m T M HB) _ _ _ _ _ E Ih _ Or)); [exact Z|exact Hx].
      * intros ins pre post Ei Eo. rewrite secsItems_app, app_assoc, trs_app, in_app_iff. right.
        rewrite secsItems1. change (snd (mkSec m st h its)) with (secItems m its).
        destruct (sec_items m its) as (_ & _ & -> & _).
        apply (proj1 (emits_trs m) _ _ _ _ _ E HB Ih x ins pre post Z Hx Ei Eo).
    + destruct (IH O1 (fun y Hy => O2 y (in_or_app _ _ _ (or_introl Hy))) x) as [A1 A2]; [lia|].
      split; [exact A1|]. intros ins pre post Ei Eo.
      rewrite secsItems_app, app_assoc, trs_app, in_app_iff. left. eapply A2; eassumption.
Qed.

Lemma emits_closed : forall m,
  (forall ip hs v its v', emits m ip hs v its v' ->
     (nth_error (code m) ip <> None -> 0 < v' ip)
     /\ forall x ins n, v x = 0 -> 0 < v' x -> nth_error (code m) x = Some ins -> In n (succs ins) ->
          nth_error (code m) n <> None -> 0 < v' n)
  /\ (forall bs v its v', emitsB m bs v its v' ->
     (forall b, In b bs -> nth_error (code m) b <> None -> 0 < v' b)
     /\ forall x ins n, v x = 0 -> 0 < v' x -> nth_error (code m) x = Some ins -> In n (succs ins) ->
          nth_error (code m) n <> None -> 0 < v' n)
  /\ (forall o v its v', emitsN m o v its v' ->
     (forall b, o = Some b -> nth_error (code m) b <> None -> 0 < v' b)
     /\ forall x ins n, v x = 0 -> 0 < v' x -> nth_error (code m) x = Some ins -> In n (succs ins) ->
          nth_error (code m) n <> None -> 0 < v' n).
Proof.
  intros m. destruct (emits_grow m) as [GE [GB GN]]. apply emits_mut.
  - intros ip hs v E. split; [congruence|]. intros; lia.
  - intros ip hs v ins E V. split; [intros _; rewrite upd_same; lia|].
    intros x ins' n X1 X2. unfold upd in X2. destruct (Nat.eqb_spec x ip); subst; lia.
  - intros ip hs v ins bs v2 ns v3 E V B [B1 B2] N [N1 N2].
    pose proof (GB _ _ _ _ B) as G1. pose proof (GN _ _ _ _ N) as G2.
    split; [intros _; specialize (G1 ip); specialize (G2 ip); rewrite upd_same in G1; lia|].
    intros x ins' n X1 X2 E' Hn Hc. destruct (Nat.eq_dec x ip) as [->|Hne].
    + rewrite E in E'. injection E' as <-. unfold succs in Hn. apply in_app_or in Hn. destruct Hn as [Hn|Hn].
      * specialize (B1 n Hn Hc). specialize (G2 n). lia.
      * apply N1; [|exact Hc]. destruct (next ins); [destruct Hn as [->|[]]; reflexivity|destruct Hn].
    + destruct (Nat.eq_dec (v2 x) 0) as [Z|Z].
      * eapply N2; eassumption.
      * specialize (G2 n). enough (0 < v2 n) by lia. eapply B2; try eassumption; [|lia].
        rewrite upd_other by exact Hne. exact X1.
  - intros. split; [intros ? []|]. intros; lia.
  - intros b bs v its v1 r v2 E [E1 E2] B [B1 B2].
    pose proof (GB _ _ _ _ B) as G1. split.
    + intros c [<-|Hc] Hn; [|apply B1; assumption]. specialize (E1 Hn). specialize (G1 b). lia.
    + intros x ins n X1 X2 E' Hn Hc. destruct (Nat.eq_dec (v1 x) 0) as [Z|Z]; [eapply B2; eassumption|].
      specialize (G1 n). enough (0 < v1 n) by lia. eapply E2; try eassumption. lia.
  - intros. split; [discriminate|]. intros; lia.
  - intros n v its v1 E [E1 E2]. split; [|exact E2]. intros b Eb. injection Eb as <-. exact E1.
Qed.

Lemma built_closed : forall m main secs v s, built m main secs v s ->
  forall x ins n, 0 < v x -> nth_error (code m) x = Some ins -> In n (succs ins) ->
          nth_error (code m) n <> None -> 0 < v n.
Proof.
  intros m main secs v s B. induction B as [mi v E|main secs v s i h st its v' B IH Hh R E]; intros x ins n Hx Ex Hn Hc.
  - eapply (proj2 (proj1 (emits_closed m) _ _ _ _ _ E)); try eassumption. reflexivity.
  - destruct (Nat.eq_dec (v x) 0) as [Z|Z].
    + eapply (proj2 (proj1 (emits_closed m) _ _ _ _ _ E)); eassumption.
    + pose proof (proj1 (emits_grow m) _ _ _ _ _ E n). enough (0 < v n) by lia. eapply IH; try eassumption. lia.
Qed.

Lemma built_main_inv : forall m main secs v s, built m main secs v s ->
  exists mi v1, main = parItems (params m) ++ mi /\ emits m 0 false (fun _ => 0) mi v1 /\ forall x, v1 x <= v x.
Proof.
  intros m main secs v s B. induction B as [mi v E|main secs v s i h st its v' B IH Hh R E].
  - exists mi, v. auto.
  - destruct IH as (mi & v1 & -> & E1 & H). exists mi, v1. split; [reflexivity|]. split; [exact E1|].
    intros x. specialize (H x). pose proof (proj1 (emits_grow m) _ _ _ _ _ E x). lia.
Qed.

Lemma built_sec_inv : forall m main secs v s, built m main secs v s ->
  forall A i x B, secs = A ++ (i, x) :: B ->
  exists h st its v1 v2 s1, built m main A v1 s1 /\ nth_error (handlers m) i = Some h /\ resolve v1 h = Some st
    /\ emits m (hip h) true v1 its v2 /\ x = mkSec m st h its /\ forall y, v2 y <= v y.
Proof.
  intros m main secs v s B. induction B as [mi v E|main secs v s i h st its v' B IH Hh R E]; intros A j x C EQ.
  - destruct A; discriminate.
  - destruct (exists_last (l := (j, x) :: C)) as [C' [y E']]; [discriminate|].
    rewrite E' in EQ. rewrite app_assoc in EQ. apply app_inj_tail in EQ. destruct EQ as [EQ <-].
    destruct C' as [|z C'].
    + cbn in E'. injection E' as -> -> ->. rewrite app_nil_r in EQ. subst A.
      exists h, st, its, v, v', s. repeat (split; [assumption || reflexivity|]). auto.
    + cbn in E'. injection E' as <- ->. destruct (IH A j x C' EQ) as (h' & st' & its' & v1 & v2 & s1 & X1 & X2 & X3 & X4 & X5 & X6).
      exists h', st', its', v1, v2, s1. repeat (split; [assumption|]).
      intros y. specialize (X6 y). pose proof (proj1 (emits_grow m) _ _ _ _ _ E y). lia.
Qed.

Definition T' (m : method) (T : nat -> N) (ip : nat) : N :=
  if isHandler m ip then N.setbit (T ip) (localSize m) else T ip.

Scheme reach_ind2 := Minimality for reach Sort Prop
with at_ind2 := Minimality for at_ Sort Prop.
Combined Scheme reach_mut from reach_ind2, at_ind2.

Lemma isHandler_in : forall m h, In h (handlers m) -> isHandler m (hip h) = true.
Proof. intros m h H. unfold isHandler. apply existsb_exists. exists h. split; [exact H|apply Nat.eqb_refl]. Qed.

Lemma resolve_ok : forall v h,
  match resolve v h with
  | Some st => hstart h <= st < hend h /\ 0 < v st /\ forall x, hstart h <= x < st -> v x = 0
  | None => forall x, hstart h <= x < hend h -> v x = 0
  end.
Proof. intros. unfold resolve. apply resolve_spec. lia. Qed.

Lemma log_split : forall main (A : list (nat * sec)) i (x : sec) (B : list (nat * sec)),
  logOf main (map snd (A ++ (i, x) :: B))
  = logOf main (map snd A) ++ PushExceptionHandlerEvent (fst (fst x)) (snd (fst x))
      :: flat (snd x) ++ PopContextEvent :: flat_map flatSec (map snd B).
Proof.
  intros main A i [[a b] l] B. unfold logOf. rewrite map_app, flat_map_app. cbn [map snd fst flat_map flatSec].
  rewrite <- !app_assoc. cbn [app]. rewrite <- !app_assoc. reflexivity.
Qed.

Theorem fixpoint_sound : forall m c main secs s,
  handlersByException m -> notInOwnRange m -> rangeStable m ->
  compileCode m = Some c -> Ctx m main secs c ->
  (forall i h, nth_error (handlers m) i = Some h -> resolve (visits c) h = None \/ In i (map fst secs)) ->
  GI main secs s ->
  (forall ip st, reach m ip st -> ip < length (code m) -> 0 < visits c ip /\ le_slots (T' m (table s) ip) st)
  /\ (forall e st, at_ m e st -> fst e < length (code m) /\ 0 < visits c (fst e) /\ le_slots (maps s e) st
        /\ In e (trs (main ++ secsItems secs))).
Proof.
  intros m c main secs s HB NR RS CC [B [L _]] Hdone [G1 G2].
  assert (O2 : forall y, In y secs -> exists r, ok (table s) (maps s) (snd (snd y)) r).
  { intros [i x] Hy. apply in_split in Hy. destruct Hy as [A [C E]]. destruct (G2 A i x C E) as [r [O _]]. eauto. }
  pose proof (built_LF m _ _ main secs _ _ HB B G1 O2) as LFall.
  destruct (built_wf _ _ _ _ _ B) as (S0 & (V1 & V2 & V3) & _ & _).
  destruct (built_main_inv _ _ _ _ _ B) as (mi & v1 & -> & E1 & Gv1).
  set (main := parItems (params m) ++ mi) in *.
  assert (Hlt : forall ip, nth_error (code m) ip <> None <-> ip < length (code m)) by (intros; apply nth_error_Some).
  apply reach_mut.
  - intros H0. apply Hlt in H0. split.
    + destruct (proj1 (emits_closed m) _ _ _ _ _ E1) as [X _]. specialize (X H0). specialize (Gv1 0). lia.
    + unfold T'. rewrite (proj1 HB). unfold main in G1. apply ok_app in G1. destruct G1 as [_ G1].
      destruct (proj1 (emits_LF m _ _ HB) _ _ _ _ _ E1 (eq_sym (proj1 HB)) _ G1) as [X _].
      intros i Hi. eapply (par_nxts (table s) (params m) 0%N (fun _ => false)).
      * intros j Hj. rewrite N.bits_0 in Hj. discriminate.
      * apply (X H0). exact Hi.
  - intros ip ins st n Hr IH Ei Hn Ln. apply Hlt in Ln.
    destruct IH as [Vi Li]; [apply Hlt; congruence|].
    split; [eapply built_closed; eassumption|].
    unfold T' at 1. rewrite (proj2 HB ip ins n Ei Hn).
    destruct (LFall ip Vi) as [LFi _]. destruct (LFi ins Ei) as [_ LS]. specialize (LS n Hn Ln).
    intros j Hj. apply LS in Hj. rewrite own_doing in Hj. unfold T' in Li. destruct (isHandler m ip).
    + apply (after_le _ _ _ Li). exact Hj.
    + apply (after_le _ _ _ Li). exact Hj.
  - intros ip k st h Ha (Lip & Vip & Lm & Inm) Hh Hr Lh. cbn [fst] in *.
    apply In_nth_error in Hh. destruct Hh as [i Hi].
    destruct (Hdone i h Hi) as [Hn|Hn].
    { exfalso. pose proof (resolve_ok (visits c) h) as R. rewrite Hn in R. specialize (R ip Hr). lia. }
    apply in_map_iff in Hn. destruct Hn as [[i' x] [Ei Hx]]. cbn in Ei. subst i'.
    apply in_split in Hx. destruct Hx as [A [C ES]].
    destruct (built_sec_inv _ _ _ _ _ B A i x C ES) as (h' & st' & its & w1 & w2 & s1 & X1 & X2 & X3 & X4 & X5 & X6).
    rewrite Hi in X2. injection X2 as <-.
    pose proof (resolve_ok w1 h) as R. rewrite X3 in R. destruct R as (R1 & R2 & R3).
    assert (HhI : In h (handlers m)) by (eapply nth_error_In; exact Hi).
    assert (HE : handlerEnd st' h = hend h).
    { unfold handlerEnd. destruct ((st' <=? hip h) && (hip h <? hend h)) eqn:Q; [|reflexivity].
      apply andb_prop in Q. destruct Q as [Q1 Q2]. apply Nat.leb_le in Q1. apply Nat.ltb_lt in Q2.
      exfalso. apply (NR h HhI). lia. }
    assert (InA : In (ip, k) (trs (main ++ secsItems A))).
    { assert (LE : log c = logOf main (map snd A) ++ PushExceptionHandlerEvent st' (handlerEnd st' h)
         :: flat (snd x) ++ PopContextEvent :: flat_map flatSec (map snd C)).
      { rewrite L, ES, log_split, X5. reflexivity. }
      apply In_logOf in Inm. rewrite <- L, LE in Inm. apply in_app_or in Inm.
      destruct Inm as [Inm|Inm]; [apply In_logOf; exact Inm|].
      exfalso. destruct Inm as [Inm|Inm]; [discriminate|].
      apply (RS c h _ _ _ ip k CC HhI LE R1 Inm). rewrite HE. exact Hr. }
    destruct (G2 A i x C ES) as [r [Or Rr]].
    assert (Wip : 0 < w1 ip).
    { destruct (built_wf _ _ _ _ _ X1) as (_ & (_ & _ & W3) & _ & _). apply (W3 (ip, k) InA). }
    assert (Sr : sub r (maps s (ip, k))).
    { apply Rr; [exact InA|]. rewrite X5. unfold inRange, mkSec. cbn [fst snd]. rewrite HE.
      split; [|lia]. destruct (Nat.le_gt_cases st' ip) as [|Q]; [assumption|]. exfalso.
      specialize (R3 ip). lia. }
    rewrite X5 in Or. unfold mkSec, secItems in Or. cbn [snd] in Or. apply ok_app in Or. destruct Or as [_ [Or _]].
    rewrite ok1_ctx in Or.
    assert (Ih := isHandler_in m h HhI).
    destruct (proj1 (emits_LF m _ _ HB) _ _ _ _ _ X4 (eq_sym Ih) _ Or) as [Y _].
    apply Hlt in Lh. specialize (Y Lh). split.
    + pose proof (proj1 (proj1 (emits_closed m) _ _ _ _ _ X4) Lh). specialize (X6 (hip h)). lia.
    + unfold T'. rewrite Ih. intros j Hj. rewrite testbit_setbit in Hj. unfold handlerSlots.
      destruct (j =? localSize m)%N; [reflexivity|]. apply Y in Hj. rewrite clr_nxts in Hj.
      apply andb_prop in Hj. destruct Hj as [Hj1 Hj2]. apply negb_true_iff in Hj1. rewrite Hj1.
      apply Lm. apply Sr. exact Hj2.
  - intros ip ins st pre post Hr IH Ei Ed. cbn [fst].
    assert (Lip : ip < length (code m)) by (apply Hlt; congruence).
    destruct (IH Lip) as [Vi Li]. split; [exact Lip|]. split; [exact Vi|].
    destruct (LFall ip Vi) as [LFi Tr]. destruct (LFi ins Ei) as [LT _].
    unfold T' in Li. rewrite own_doing in LT. specialize (Tr ins). rewrite own_doing in Tr.
    destruct (isHandler m ip).
    + specialize (LT (EMark (localSize m) :: pre) post). specialize (Tr (EMark (localSize m) :: pre) post Ei).
      rewrite Ed in LT, Tr. specialize (LT eq_refl). specialize (Tr eq_refl). split; [|exact Tr].
      change (calls (EMark (localSize m) :: pre)) with (calls pre) in LT. rewrite LT.
      change (napply (table s ip) (EMark (localSize m) :: pre)) with (napply (N.setbit (table s ip) (localSize m)) pre).
      apply after_le. exact Li.
    + specialize (LT pre post Ed). specialize (Tr pre post Ei Ed). split; [|exact Tr].
      rewrite LT. apply after_le. exact Li.
Qed.

Lemma pass_log : forall m tl vis main secs s,
  pass m tl vis (logOf main secs) s
  = Some (runSecs vis (ones m) tl secs (snd (run vis (match secs with [] => true | _ => false end) main 0%N s))).
Proof. intros. unfold pass, logOf. rewrite calc_log. reflexivity. Qed.

Lemma dirtyLoop_inv : forall m tl vis evs fuel s s', dirtyLoop fuel m tl vis evs s = Some s' ->
  dirty s' = false /\ (s' = s \/ exists s0, pass m tl vis evs s0 = Some s').
Proof.
  induction fuel as [|f IH]; intros s s' H; [discriminate|]. cbn [dirtyLoop] in H.
  destruct (dirty s) eqn:D; [|injection H as <-; auto].
  destruct (pass m tl vis evs (setMaps s (maps s) false)) as [s1|] eqn:P; [|discriminate].
  destruct (IH _ _ H) as [A [->|A2]]; split; auto. right. eexists. exact P.
Qed.

Theorem frameMaps_GI : forall m fuel f, lastPathLeaves m -> frameMaps fuel m = Some f ->
  exists c main secs s, compileCode m = Some c /\ Ctx m main secs c
    /\ (forall i h, nth_error (handlers m) i = Some h -> resolve (visits c) h = None \/ In i (map fst secs))
    /\ GI main secs s /\ f = maps s.
Proof.
  intros m fuel f LP H. destruct (compileCode_ok m) as (mi & secs & c & v0 & CC & EM & CX & Q & CO).
  unfold frameMaps in H. rewrite CC in H.
  destruct (dirtyLoop fuel m (traceLog (log c)) (visits c) (log c) (cs c)) as [s|] eqn:DL; [|discriminate].
  injection H as <-. exists c, (parItems (params m) ++ mi), secs, s.
  split; [exact CC|]. split; [exact CX|]. split; [exact Q|]. split; [|reflexivity].
  destruct CX as [B [L _]].
  destruct (dirtyLoop_inv _ _ _ _ _ _ _ DL) as [D [->|[s0 P]]]; [eapply partial_GI; eassumption|].
  rewrite L, pass_log in P. injection P as <-.
  eapply full_GI; [exact B| | |exact D].
  - intros e He. apply In_traceLog, In_logOf. exact He.
  - destruct (built_wf _ _ _ _ _ B) as (_ & _ & L1 & _).
    destruct secs as [|[i x] secs]; [exact L1|]. cbn [map].
    apply lastOk_false; [exact L1|]. intros l' ip E.
    destruct LP as [LP|LP].
    + destruct (built_sec_inv _ _ _ _ _ B [] i x secs eq_refl) as (h & st & its & w1 & w2 & s1 & _ & X2 & _).
      rewrite LP in X2. destruct i; discriminate.
    + specialize (LP _ _ CO).
      assert (E2 : exists l2, mi = l2 ++ [IAgain ip]).
      { destruct mi as [|y mi'] using rev_ind.
        - exfalso. rewrite app_nil_r in E. assert (Hin : In ip (agains (parItems (params m)))).
          { rewrite E, agains_app. apply in_or_app. right. left. reflexivity. }
          destruct (par_items (params m)) as (_ & X & _). rewrite X in Hin. destruct Hin.
        - rewrite app_assoc in E. apply app_inj_tail in E. destruct E as [_ ->]. eauto. }
      destruct E2 as [l2 ->].
      specialize (LP (flat l2) ip). rewrite flat_app in LP. specialize (LP eq_refl).
      destruct (proj1 (emits_ips m) _ _ _ _ _ EM) as (_ & I2 & _).
      destruct (I2 ip); [rewrite agains_app; apply in_or_app; right; left; reflexivity|]. lia.
Qed.

Theorem frameMaps_sound : forall m fuel f,
  handlersByException m -> notInOwnRange m -> rangeStable m -> lastPathLeaves m ->
  frameMaps fuel m = Some f -> sound m f.
Proof.
  intros m fuel f HB NR RS LP H. destruct (frameMaps_GI m fuel f LP H) as (c & main & secs & s & CC & CX & Q & G & ->).
  intros e st i Ha Hi.
  destruct (fixpoint_sound m c main secs s HB NR RS CC CX Q G) as [_ F].
  destruct (F e st Ha) as (_ & _ & X & _). apply X. exact Hi.
Qed.
