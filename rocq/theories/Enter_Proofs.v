From Coq Require Import ZArith List Bool Arith Lia.
From Verif Require Import Conc Enter_Model Enter_Spec.
Import ListNotations.

Definition baseA (k : ak) : nat := match k with AKRet => 0 | AKX => 1 end.
Definition baseI (k : ik) : nat := match k with IKRet => 0 | IKX => 1 | IKA k => baseA k end.
(** How deep the lock must be held at each place *)
Definition need (p : pc) : nat :=
  match p with
  | Out | X0 | Z0 _ | E0 | W _ _ _ | R _ _ => 0
  | X1 | X2 _ | X3 _ | X4 | X4b | X5 | X6 | Z1 _ | Z2 _ | Z3 _ | Z4 _ | E1 | E2 | E3 | E4 | E5 => 1
  | I0 k | I1 k | I2 k | I3 k => baseI k
  | I4 k => S (baseI k)
  | A0 k | A1 k | A2 k | A3 k | A4 k => baseA k
  | A5 k | A6 k | A7 k | A8 k | A9 k => S (baseA k)
  end.
Definition mayWait (e : option nat) (t : nat) (s : tstate) (k : wk) : Prop :=
  match k with
  | WX _ => s = Idle
  | WX5 => s = Exclusive /\ e = Some t
  | WA k => s = Idle \/ (k = AKRet /\ s = NoState)
  | WE => s = Exit /\ e = Some t
  | WOut => s = Exclusive \/ s = Exit -> e = Some t
  end.
Definition loc (e : option nat) (t : nat) (x : thr) : Prop :=
  let s := st x in
  match at_ x with
  | Out => s = Exclusive \/ s = Exit -> e = Some t
  | X0 | X1 => s = Active \/ s = Idle
  | X2 _ => s = Idle /\ e <> None
  | X3 _ => s = Idle
  | X4 | X4b => (s = Active \/ s = Idle) /\ e = None
  | X5 | X6 => s = Exclusive /\ e = Some t
  | I0 k | I1 k => s = Active /\ (k = IKX -> e <> None)
  | I2 k | I3 k | I4 k => s = Idle /\ (k = IKX -> e <> None)
  | Z0 x | Z1 x => (x = Zombie /\ s = Active) \/ ((x = Zombie \/ x = Idle) /\ s = Exclusive /\ e = Some t)
  | Z2 x | Z3 x => ((x = Zombie /\ s = Active) \/ s = Exclusive) /\ (x = Zombie \/ x = Idle) /\ e <> Some t
  | Z4 x => s = x /\ (x = Zombie \/ x = Idle) /\ e <> Some t
  | A0 k | A4 k | A5 k => s = Idle \/ (k = AKRet /\ (s = NoState \/ (s = Exclusive /\ e = Some t)))
  | A1 _ | A2 _ => s = Idle
  | A3 _ => s = Active
  | A6 k | A7 k => (s = Idle \/ (k = AKRet /\ s = NoState)) /\ e = None
  | A8 _ | A9 _ => s = Active
  | E0 | E1 | E2 | E3 => s = Exclusive /\ e = Some t
  | E4 | E5 => s = Exit /\ e = Some t
  | W k _ _ | R k _ => mayWait e t s k
  end.
Definition waitOk (p : pc) : Prop :=
  match p with W k d _ | R k d => need (afterWait k) <= d /\ 0 < d | _ => True end.
Definition contrib (x : thr) : Z :=
  match at_ x with
  | I1 _ | Z3 _ | Z4 _ | E3 => 0
  | A2 _ | A7 _ | X4b => 1
  | _ => match st x with Active | Exclusive => 1 | _ => 0 end
  end.
Definition lives (x : thr) : Z := match st x with NoState | Zombie | Joined => 0 | _ => 1 end.
Definition transient (p : pc) : bool := match p with A2 _ | A3 _ | I0 (IKA _) => true | _ => false end.
Definition settled (x : thr) : Prop := contrib x = 1%Z /\ transient (at_ x) = false.
Definition arriving (p : pc) : bool := match p with X5 | W WX5 _ _ | R WX5 _ => true | _ => false end.

Record inv (tids : list nat) (g : glob) : Prop := {
  i_lock : forall t, 0 < need (at_ (th g t)) -> own g = Some t /\ need (at_ (th g t)) <= dep g;
  i_dep : match own g with None => dep g = 0 | Some _ => 0 < dep g end;
  i_wait : forall t, waitOk (at_ (th g t));
  i_loc : forall t, loc (excl g) t (th g t);
  i_excl : forall t, excl g = Some t -> (st (th g t) = Exclusive \/ st (th g t) = Exit);
  i_out : forall t, ~ In t tids -> th g t = T NoState Out;
  i_act : act g = sumZ (fun t => contrib (th g t)) tids;
  i_live : live g = sumZ (fun t => lives (th g t)) tids;
  i_settled : forall t u, excl g = Some t -> arriving (at_ (th g t)) = false -> u <> t -> ~ settled (th g u);
  i_wakeO : forall t, waitsForOthers (th g t) -> (1 < act g)%Z \/ exists u, retires (th g u);
  i_wakeE : forall t, waitsForExclusive (th g t) -> excl g <> None \/ exists u, handsOver (th g u)
}.

Definition bump (x : thr) : thr := match x with T s (W k d _) => T s (W k d true) | x => x end.
Lemma th_wakeAll : forall g u, th (wakeAll g) u = bump (th g u).
Proof. intros g u. unfold wakeAll, bump. cbn [th]. destruct (th g u) as [s []]; reflexivity. Qed.
Lemma th_unlock : forall g, th (unlock g) = th g.
Proof. intros g. unfold unlock. destruct (dep g) as [|[|d]]; reflexivity. Qed.
Lemma excl_unlock : forall g, excl (unlock g) = excl g.
Proof. intros g. unfold unlock. destruct (dep g) as [|[|d]]; reflexivity. Qed.
Lemma act_unlock : forall g, act (unlock g) = act g.
Proof. intros g. unfold unlock. destruct (dep g) as [|[|d]]; reflexivity. Qed.
Lemma live_unlock : forall g, live (unlock g) = live g.
Proof. intros g. unfold unlock. destruct (dep g) as [|[|d]]; reflexivity. Qed.

(** ** Pieces of steps that keep the invariant *)

Lemma unlock_own : forall g t d, own g = Some t -> dep g = S d ->
  dep (unlock g) = d /\ (own (unlock g) = Some t \/ (d = 0 /\ own (unlock g) = None)).
Proof. intros g t d O D. unfold unlock. rewrite D. destruct d; cbn; auto. Qed.

Lemma need_bump : forall x, need (at_ (bump x)) = need (at_ x).
Proof. intros [s []]; reflexivity. Qed.
Lemma loc_bump : forall e t x, loc e t (bump x) = loc e t x.
Proof. intros e t [s []]; reflexivity. Qed.
Lemma st_bump : forall x, st (bump x) = st x.
Proof. intros [s []]; reflexivity. Qed.
Lemma waitOk_bump : forall x, waitOk (at_ (bump x)) = waitOk (at_ x).
Proof. intros [s []]; reflexivity. Qed.
Lemma contrib_bump : forall x, contrib (bump x) = contrib x.
Proof. intros [s []]; reflexivity. Qed.
Lemma lives_bump : forall x, lives (bump x) = lives x.
Proof. intros [s []]; reflexivity. Qed.
Lemma settled_bump : forall x, settled (bump x) = settled x.
Proof. intros [s []]; reflexivity. Qed.
Lemma arriving_bump : forall x, arriving (at_ (bump x)) = arriving (at_ x).
Proof. intros [s []]; reflexivity. Qed.
Lemma bump_waits : forall x, ~ waitsForOthers (bump x) /\ ~ waitsForExclusive (bump x).
Proof. intros [s []]; cbn; try tauto. destruct k; cbn; tauto. Qed.

(** * Preservation, one clause at a time *)
Ltac norm := cbn [th excl act live own dep go setExcl addAct addLive setOwn lock] in *.
Ltac split_upd u t := unfold upd; destruct (Nat.eqb_spec u t) as [->|].

(** Everything about the step's own thread *)
Lemma need_after : forall k, need (afterWait k) = match k with WX _ | WX5 | WE => 1 | WA k => S (baseA k) | WOut => 0 end.
Proof. destruct k; reflexivity. Qed.
Lemma need_afterIdle : forall k, need (afterIdle k) = match k with IKRet => 0 | IKX => 1 | IKA k => baseA k end.
Proof. destruct k; reflexivity. Qed.
Lemma need_afterActive : forall k, need (afterActive k) = baseA k.
Proof. destruct k; reflexivity. Qed.

Lemma lock_other : forall tids g t u, inv tids g -> own g = Some t -> u <> t -> need (at_ (th g u)) = 0.
Proof.
  intros tids g t u H O N. destruct (need (at_ (th g u))) as [|n] eqn:E; [reflexivity|].
  destruct (i_lock _ _ H u) as [K _]; [rewrite E; apply Nat.lt_0_succ|]. congruence.
Qed.
Lemma lock_none : forall tids g u, inv tids g -> own g = None -> need (at_ (th g u)) = 0.
Proof.
  intros tids g u H O. destruct (need (at_ (th g u))) as [|n] eqn:E; [reflexivity|].
  destruct (i_lock _ _ H u) as [K _]; [rewrite E; apply Nat.lt_0_succ|]. congruence.
Qed.
Lemma lock_free : forall tids g t u, inv tids g -> free g t -> u <> t -> need (at_ (th g u)) = 0.
Proof. intros tids g t u H [F|F] N; [eapply lock_none|eapply lock_other]; eassumption. Qed.

Lemma held : forall tids g t s p, inv tids g -> th g t = T s p -> 0 < need p -> own g = Some t /\ need p <= dep g.
Proof. intros tids g t s p H E N. pose proof (i_lock _ _ H t) as K. rewrite E in K. exact (K N). Qed.

Definition lockInv (g : glob) : Prop :=
  (forall t, 0 < need (at_ (th g t)) -> own g = Some t /\ need (at_ (th g t)) <= dep g) /\
  match own g with None => dep g = 0 | Some _ => 0 < dep g end /\
  (forall t, waitOk (at_ (th g t))).

(** a thread moves while the lock stays as it is *)
Lemma lk_go : forall g t x, lockInv g -> need (at_ x) <= need (at_ (th g t)) -> waitOk (at_ x) -> lockInv (go g t x).
Proof.
  intros g t x (A & B & C) N W. split; [|split]; [|exact B|].
  - intros u. cbn [th go own dep]. split_upd u t; [|apply A]. intros P. destruct (A t) as [K1 K2]; [lia|]. split; [assumption|lia].
  - intros u. cbn [th go]. split_upd u t; [assumption|apply C].
Qed.
Lemma lk_same : forall g g', lockInv g -> th g' = th g -> own g' = own g -> dep g' = dep g -> lockInv g'.
Proof. intros g g' (A & B & C) E1 E2 E3. unfold lockInv. rewrite E1, E2, E3. auto. Qed.
Lemma lk_wake : forall g, lockInv g -> lockInv (wakeAll g).
Proof.
  intros g (A & B & C). split; [|split]; [|exact B|]; intros u; rewrite th_wakeAll, ?need_bump, ?waitOk_bump; [apply A|apply C].
Qed.
Lemma lk_lock : forall g t x, lockInv g -> free g t -> need (at_ x) <= S (need (at_ (th g t))) -> waitOk (at_ x) -> lockInv (lock (go g t x) t).
Proof.
  intros g t x (A & B & C) F N W. split; [|split].
  - intros u. cbn [th go own dep lock setOwn]. split_upd u t.
    + intros P. split; [reflexivity|]. destruct (need (at_ (th g t))) as [|n] eqn:E; [lia|]. destruct (A t) as [_ K]; [lia|]. lia.
    + intros P. exfalso. destruct (A u P) as [K _]. destruct F; congruence.
  - cbn. lia.
  - intros u. cbn [th go lock setOwn]. split_upd u t; [assumption|apply C].
Qed.
Lemma lk_unlock : forall g t, lockInv g -> own g = Some t -> need (at_ (th g t)) < dep g -> lockInv (unlock g).
Proof.
  intros g t (A & B & C) O N. rewrite O in B. destruct (dep g) as [|d] eqn:D; [lia|].
  assert (NT : forall u, u <> t -> need (at_ (th g u)) = 0).
  { intros u Hu. destruct (need (at_ (th g u))) as [|n] eqn:E; [reflexivity|]. destruct (A u) as [K _]; [lia|]. congruence. }
  split; [|split].
  - intros u. rewrite th_unlock. unfold unlock. rewrite D. intros P. destruct (Nat.eq_dec u t) as [->|Q]; [|rewrite NT in P by assumption; lia].
    destruct d as [|d]; cbn [own dep setOwn]; [lia|]. split; [assumption|lia].
  - unfold unlock. rewrite D. destruct d; cbn [own dep setOwn]; [reflexivity|]. rewrite O. lia.
  - intros u. rewrite th_unlock. apply C.
Qed.
Lemma lk_sleep : forall g t s k, lockInv g -> own g = Some t -> need (afterWait k) <= dep g ->
  lockInv (setOwn (go g t (T s (W k (dep g) false))) None 0).
Proof.
  intros g t s k (A & B & C) O N. rewrite O in B. split; [|split].
  - intros u. cbn [th go own dep setOwn]. split_upd u t; [cbn; lia|]. intros P. destruct (A u P). congruence.
  - reflexivity.
  - intros u. cbn [th go setOwn]. split_upd u t; [split; assumption|apply C].
Qed.
Lemma lk_relock : forall g t s k d, lockInv g -> th g t = T s (R k d) -> own g = None ->
  lockInv (setOwn (go g t (T s (afterWait k))) (Some t) d).
Proof.
  intros g t s k d (A & B & C) E O. pose proof (C t) as K. rewrite E in K. cbn in K. split; [|split].
  - intros u. cbn [th go own dep setOwn]. split_upd u t; [cbn; intros; split; [reflexivity|lia]|]. intros P. destruct (A u P). congruence.
  - cbn. lia.
  - intros u. cbn [th go setOwn]. split_upd u t; [destruct k; exact I|apply C].
Qed.
Lemma lk_goOut : forall g p x, lockInv g -> need (at_ x) = 0 -> waitOk (at_ x) -> lockInv (go g p x).
Proof.
  intros g p x (A & B & C) N W. split; [|split]; [|exact B|].
  - intros u. cbn [th go own dep]. split_upd u p; [lia|apply A].
  - intros u. cbn [th go]. split_upd u p; [assumption|apply C].
Qed.

Lemma lock_step : forall tids g t g', inv tids g -> step tids g t g' -> lockInv g'.
Proof.
  intros tids g t g' H S.
  assert (L : lockInv g) by (split; [apply (i_lock _ _ H)|split; [apply (i_dep _ _ H)|apply (i_wait _ _ H)]]).
  assert (NT : forall s p, th g t = T s p -> need (at_ (th g t)) = need p) by (intros s p E; rewrite E; reflexivity).
  assert (HD : forall s p, th g t = T s p -> 0 < need p -> own g = Some t /\ need p <= dep g) by (intros; eapply held; eassumption).
  pose proof (i_dep _ _ H) as D.
  assert (GO : forall s p x, th g t = T s p -> need (at_ x) <= need p -> waitOk (at_ x) -> lockInv (go g t x)).
  { intros s p x E N W. apply lk_go; [exact L|rewrite E; exact N|exact W]. }
  assert (LO : forall s p x, th g t = T s p -> free g t -> need (at_ x) <= 1 + need p -> waitOk (at_ x) -> lockInv (lock (go g t x) t)).
  { intros s p x E F N W. apply lk_lock; [exact L|exact F|rewrite E; exact N|exact W]. }
  assert (UN : forall s p x, th g t = T s p -> 1 + need (at_ x) <= need p -> waitOk (at_ x) -> lockInv (unlock (go g t x))).
  { intros s p x E N W. destruct (HD s p E) as [O DD]; [lia|]. apply lk_unlock with t; [eapply GO; [exact E|lia|exact W]|exact O|].
    cbn [th go dep]. unfold upd. rewrite Nat.eqb_refl. lia. }
  assert (UW : forall s p x, th g t = T s p -> 1 + need (at_ x) <= need p -> waitOk (at_ x) -> lockInv (unlock (wakeAll (go g t x)))).
  { intros s p x E N W. destruct (HD s p E) as [O DD]; [lia|]. apply lk_unlock with t; [apply lk_wake; eapply GO; [exact E|lia|exact W]|exact O|].
    rewrite th_wakeAll, need_bump. cbn [th go dep wakeAll]. unfold upd. rewrite Nat.eqb_refl. lia. }
  assert (SL : forall s p k, th g t = T s p -> 0 < need p -> need (afterWait k) <= need p -> lockInv (setOwn (go g t (T s (W k (dep g) false))) None 0)).
  { intros s p k E N N2. destruct (HD s p E N) as [O DD]. apply lk_sleep; [exact L|exact O|lia]. }
  inversion S; subst.
  all: try (eapply GO; [eassumption|try destruct k; cbn; lia|try destruct k; exact I]).
  all: try (eapply lk_same; [eapply GO with (x := ltac:(match goal with |- lockInv (_ (go _ _ ?x) _) => exact x end)); [eassumption|try destruct k; cbn; lia|try destruct k; exact I]|reflexivity|reflexivity|reflexivity]).
  all: try (eapply LO; [eassumption|assumption|try destruct k; cbn; lia|try destruct k; exact I]).
  all: try (eapply UN; [eassumption|try destruct k; cbn; lia|try destruct k; exact I]).
  all: try (eapply UW; [eassumption|try destruct k; cbn; lia|try destruct k; exact I]).
  all: try (eapply SL; [eassumption|try destruct k; cbn; lia|try destruct k; cbn; lia]).
  all: try (apply lk_wake; eapply GO; [eassumption|try destruct k; cbn; lia|try destruct k; exact I]).
  all: try (apply lk_wake; exact L).
  all: try (apply lk_goOut; [exact L|reflexivity|exact I]).
  - (* lock *) destruct L as (A & B & C). split; [|split; [cbn; lia|exact C]]. intros u P. cbn [th lock setOwn own dep] in *.
    destruct (A u P) as [O DD]. split; [match goal with F : free g t |- _ => destruct F; congruence end|lia].
  - (* unlock *) apply lk_unlock with t; [exact L|assumption|]. match goal with E : th g t = _, O : own g = _ |- _ => rewrite E; rewrite O in D end. cbn. lia.
  - (* wait *) apply lk_sleep; [exact L|assumption|cbn; lia].
  - (* remove *) apply lk_same with (go (wakeAll g) p (T Joined Out)); [|reflexivity|reflexivity|reflexivity].
    apply lk_goOut; [apply lk_wake; exact L|reflexivity|exact I].
  - (* wake *) apply lk_go; [exact L|cbn; lia|]. destruct L as (_ & _ & C). specialize (C t). match goal with E : th g t = _ |- _ => rewrite E in C end. exact C.
  - (* relock *) apply lk_relock; assumption.
Qed.

(** ** The local facts *)
Definition locInv (g : glob) : Prop :=
  (forall t, loc (excl g) t (th g t)) /\ (forall t, excl g = Some t -> (st (th g t) = Exclusive \/ st (th g t) = Exit)).

Lemma lc_same : forall g g', locInv g -> th g' = th g -> excl g' = excl g -> locInv g'.
Proof. intros g g' (A & B) E1 E2. unfold locInv. rewrite E1, E2. auto. Qed.
Lemma lc_go : forall g t x, locInv g -> loc (excl g) t x -> (excl g = Some t -> st x = Exclusive \/ st x = Exit) -> locInv (go g t x).
Proof. intros g t x (A & B) L E. split; intros u; cbn [th excl go]; split_upd u t; auto. Qed.
Lemma lc_wake : forall g, locInv g -> locInv (wakeAll g).
Proof. intros g (A & B). split; intros u; rewrite th_wakeAll, ?loc_bump, ?st_bump; [apply A|apply B]. Qed.
(** the exclusive thread changes: everybody else is outside the places that look at it *)
Lemma loc_claim : forall t u x, t <> u -> need (at_ x) = 0 -> loc None u x -> loc (Some t) u x.
Proof.
  intros t u [s p] N Z L. destruct p; cbn in *; try lia; try tauto; try (destruct k; cbn in *; intuition congruence); intuition congruence.
Qed.
Lemma loc_clear : forall t u x, t <> u -> need (at_ x) = 0 -> loc (Some t) u x -> loc None u x.
Proof.
  intros t u [s p] N Z L. destruct p; cbn in *; try lia; try tauto; try (destruct k; cbn in *; intuition congruence); intuition congruence.
Qed.
Lemma lc_claim : forall tids g t s x, inv tids g -> th g t = T s X4b -> loc (Some t) t x -> st x = Exclusive -> locInv (setExcl (go g t x) (Some t)).
Proof.
  intros tids g t s x H E L S. destruct (held _ _ _ _ _ H E) as [O _]; [cbn; lia|]. pose proof (i_loc _ _ H t) as LT. rewrite E in LT. cbn in LT.
  split; intros u; cbn [th excl go setExcl]; split_upd u t; auto.
  - apply loc_claim; [congruence|eapply lock_other; eassumption|]. destruct LT as [_ <-]. apply (i_loc _ _ H).
  - intros K. congruence.
Qed.
Lemma lc_clear : forall tids g t s p x, inv tids g -> th g t = T s p -> 0 < need p -> excl g = Some t -> loc None t x -> locInv (setExcl (go g t x) None).
Proof.
  intros tids g t s p x H E NP X L. destruct (held _ _ _ _ _ H E NP) as [O _].
  split; intros u; cbn [th excl go setExcl]; [|congruence]. split_upd u t; [assumption|].
  apply loc_clear with t; [congruence|eapply lock_other; eassumption|]. rewrite <- X. apply (i_loc _ _ H).
Qed.

Lemma loc_step : forall tids g t g', inv tids g -> step tids g t g' -> locInv g'.
Proof.
  intros tids g t g' H S.
  assert (L : locInv g) by (split; [apply (i_loc _ _ H)|apply (i_excl _ _ H)]).
  pose proof (i_loc _ _ H t) as LT. pose proof (i_excl _ _ H t) as XT.
  assert (UL : forall g, locInv g -> locInv (unlock g)).
  { intros g0 L0. eapply lc_same; [exact L0|apply th_unlock|apply excl_unlock]. }
  inversion S; subst; try match goal with E : th g t = _ |- _ => rewrite E in LT, XT; cbn in LT, XT end.
  all: try (apply UL); try (apply lc_wake); try (apply UL).
  all: try (exact L).
  all: try (apply lc_go; [exact L|try destruct k; cbn; intuition congruence|cbn; intuition congruence]; fail).
  all: try (eapply lc_same; [apply lc_go with (x := ltac:(match goal with |- context [go _ _ ?x] => exact x end)); [exact L|try destruct k; cbn; intuition congruence|cbn; intuition congruence]|reflexivity|reflexivity]; fail).
  all: try (eapply lc_claim; [exact H|eassumption|cbn; auto|reflexivity]; fail).
  all: try (eapply lc_clear; [exact H|eassumption|cbn; lia|intuition congruence|cbn; intuition congruence]; fail).
  - (* add *) apply lc_same with (go g p (T Idle Out)); [|reflexivity|reflexivity].
    apply lc_go; [exact L|cbn; intuition congruence|]. intros X. apply L in X. match goal with E : th g p = _ |- _ => rewrite E in X end. cbn in X. intuition congruence.
  - (* remove *) apply lc_same with (go (wakeAll g) p (T Joined Out)); [|reflexivity|reflexivity].
    apply lc_go; [apply lc_wake; exact L|cbn; intuition congruence|]. intros X. apply L in X. match goal with E : th g p = _ |- _ => rewrite E in X end. cbn in X. intuition congruence.
  - (* join *) apply lc_go; [exact L|cbn; intuition congruence|]. intros X. apply L in X. match goal with E : th g p = _ |- _ => rewrite E in X end. cbn in X. intuition congruence.
  - (* wake *) apply lc_go; [exact L|exact LT|exact XT].
  - (* relock *) apply lc_same with (go g t (T s (afterWait k))); [|reflexivity|reflexivity].
    apply lc_go; [exact L| |exact XT]. destruct k; cbn in *; intuition congruence.
Qed.

(** ** The counters *)
Definition sumInv (tids : list nat) (g : glob) : Prop :=
  (forall t, ~ In t tids -> th g t = T NoState Out) /\
  act g = sumZ (fun t => contrib (th g t)) tids /\ live g = sumZ (fun t => lives (th g t)) tids.
Lemma sm_same : forall tids g g', sumInv tids g -> th g' = th g -> act g' = act g -> live g' = live g -> sumInv tids g'.
Proof. intros tids g g' (A & B & C) E1 E2 E3. unfold sumInv. rewrite E1, E2, E3. auto. Qed.
Lemma sm_wake : forall tids g, sumInv tids g -> sumInv tids (wakeAll g).
Proof.
  intros tids g (A & B & C). split; [|split].
  - intros u Hu. rewrite th_wakeAll, (A u Hu). reflexivity.
  - cbn [act wakeAll]. rewrite B. apply sumZ_ext. intros u _. rewrite th_wakeAll, contrib_bump. reflexivity.
  - cbn [live wakeAll]. rewrite C. apply sumZ_ext. intros u _. rewrite th_wakeAll, lives_bump. reflexivity.
Qed.
Lemma sm_go : forall tids g g' p x, NoDup tids -> In p tids -> sumInv tids g -> th g' = upd (th g) p x ->
  (act g' - act g = contrib x - contrib (th g p))%Z -> (live g' - live g = lives x - lives (th g p))%Z -> sumInv tids g'.
Proof.
  intros tids g g' p x ND HI (A & B & C) E1 E2 E3. unfold sumInv. rewrite E1. split; [|split].
  - intros u Hu. split_upd u p; [contradiction|auto].
  - rewrite (sumZ_upd2 (fun t => contrib (th g t)) _ tids p (act g' - act g) ND HI).
    + rewrite <- B. ring.
    + intros u Hu. unfold upd. destruct (Nat.eqb_spec u p); [congruence|reflexivity].
    + unfold upd. rewrite Nat.eqb_refl, E2. ring.
  - rewrite (sumZ_upd2 (fun t => lives (th g t)) _ tids p (live g' - live g) ND HI).
    + rewrite <- C. ring.
    + intros u Hu. unfold upd. destruct (Nat.eqb_spec u p); [congruence|reflexivity].
    + unfold upd. rewrite Nat.eqb_refl, E3. ring.
Qed.

Lemma sum_step : forall tids g t g', NoDup tids -> In t tids -> inv tids g -> step tids g t g' -> sumInv tids g'.
Proof.
  intros tids g t g' ND HI H S.
  assert (L : sumInv tids g) by (split; [apply (i_out _ _ H)|split; [apply (i_act _ _ H)|apply (i_live _ _ H)]]).
  pose proof (i_loc _ _ H t) as LT.
  assert (UL : forall g, sumInv tids g -> sumInv tids (unlock g)).
  { intros g0 L0. eapply sm_same; [exact L0|apply th_unlock|apply act_unlock|apply live_unlock]. }
  inversion S; subst; try match goal with E : th g t = _ |- _ => rewrite E in LT; cbn in LT end.
  all: try (apply UL); try (apply sm_wake); try (apply UL).
  all: try (exact L).
  all: try (match goal with |- context [go ?g0 ?p ?x] => apply sm_go with g0 p x;
    [exact ND|assumption|exact L|reflexivity| | ];
    cbn [act live go setExcl addAct addLive setOwn lock];
    match goal with E : th g0 p = _ |- _ => rewrite E end end).
  all: try (repeat match goal with k : ik |- _ => destruct k | k : ak |- _ => destruct k | k : wk |- _ => destruct k end; destruct s; cbn in *; intuition (try discriminate); lia).
  all: try (repeat match goal with k : ik |- _ => destruct k | k : ak |- _ => destruct k | k : wk |- _ => destruct k end; cbn in *; intuition (try discriminate); lia).
  - (* remove *) apply sm_go with (wakeAll g) p (T Joined Out); [exact ND|assumption|apply sm_wake; exact L|reflexivity| |];
      rewrite th_wakeAll; match goal with E : th g p = _ |- _ => rewrite E end; cbn; lia.
  - destruct LT as (-> & [->| ->] & _); cbn; lia.
Qed.

(** ** Nobody else runs beside the exclusive thread *)
Definition setInv (g : glob) : Prop :=
  forall t u, excl g = Some t -> arriving (at_ (th g t)) = false -> u <> t -> ~ settled (th g u).
Lemma st_same : forall g g', setInv g -> th g' = th g -> excl g' = excl g -> setInv g'.
Proof. intros g g' A E1 E2. unfold setInv. rewrite E1, E2. exact A. Qed.
Lemma st_wake : forall g, setInv g -> setInv (wakeAll g).
Proof. intros g A t u X AR N. rewrite th_wakeAll, settled_bump. rewrite th_wakeAll, arriving_bump in AR. eapply A; eassumption. Qed.
Lemma st_none : forall g, excl g = None -> setInv g.
Proof. intros g E t u X. congruence. Qed.
Lemma st_go : forall g r x, setInv g ->
  (excl g <> None -> excl g <> Some r -> settled x -> settled (th g r)) ->
  (excl g = Some r -> arriving (at_ x) = false -> arriving (at_ (th g r)) = false \/ forall u, u <> r -> ~ settled (th g u)) ->
  setInv (go g r x).
Proof.
  intros g r x A H1 H2 t u X. cbn [th excl go] in *. unfold upd.
  destruct (Nat.eqb_spec t r) as [->|T1]; destruct (Nat.eqb_spec u r) as [->|U1]; try congruence; intros AR N.
  - destruct (H2 X AR) as [K|K]; [|auto]. apply (A r u X K N).
  - intros K. refine (A t r X AR N _). apply H1; congruence || assumption.
  - apply (A t u X AR N).
Qed.
Lemma contrib_nonneg : forall x, (0 <= contrib x)%Z.
Proof. intros [[] []]; cbn; lia. Qed.

Ltac cases := repeat match goal with k : ik |- _ => destruct k | k : ak |- _ => destruct k | k : wk |- _ => destruct k end.

Lemma settled_step : forall tids g t g', NoDup tids -> In t tids -> inv tids g -> step tids g t g' -> setInv g'.
Proof.
  intros tids g t g' ND HI H S.
  assert (L : setInv g) by exact (i_settled _ _ H).
  pose proof (i_loc _ _ H t) as LT.
  assert (UL : forall g, setInv g -> setInv (unlock g)).
  { intros g0 L0. eapply st_same; [exact L0|apply th_unlock|apply excl_unlock]. }
  inversion S; subst; try match goal with E : th g t = _ |- _ => rewrite E in LT; cbn in LT end.
  all: try (apply UL); try (apply st_wake); try (apply UL).
  all: try (exact L).
  all: try (apply st_none; reflexivity).
  all: try (match goal with |- setInv (setExcl _ (Some _)) => intros a b X; cbn in X; injection X as <-; cbn; unfold upd; rewrite Nat.eqb_refl; cbn; discriminate end).
  all: try (match goal with |- context [go ?g0 ?p ?x] => apply st_same with (go g0 p x); [|reflexivity|reflexivity]; apply st_go;
    [exact L| |];
    match goal with E : th g0 p = _ |- _ => rewrite E end end).
  all: unfold settled; cbn [at_ st]; try (cases; destruct s; cbn in *; intuition (try discriminate); fail).
  all: try (cases; cbn in *; intuition (try discriminate); fail).
  - (* remove *) apply st_same with (go (wakeAll g) p (T Joined Out)); [|reflexivity|reflexivity].
    apply st_go; [apply st_wake; exact L|intros _ _ [K _]; discriminate K|].
    intros X _. left. rewrite th_wakeAll, arriving_bump. match goal with E : th g p = _ |- _ => rewrite E end. reflexivity.
  - (* the last other thread has stopped *) intros X _. right. intros u N [C _].
    destruct (in_dec Nat.eq_dec u tids) as [IU|NU]; [|rewrite (i_out _ _ H u NU) in C; cbn in C; discriminate].
    pose proof (sumZ_two (fun v => contrib (th g v)) tids t u ND HI IU ltac:(congruence) (fun v => contrib_nonneg _)) as K. cbn beta in K.
    rewrite <- (i_act _ _ H), C in K. match goal with E : th g t = _ |- _ => rewrite E in K end.
    destruct LT as [-> _]. cbn in K. lia.
  - destruct LT as (-> & [->| ->] & _); intros _ _ [K _]; discriminate K.
Qed.

(** ** No wake-up is lost *)
Definition wakeInv (g : glob) : Prop :=
  (forall t, waitsForOthers (th g t) -> (1 < act g)%Z \/ exists u, retires (th g u)) /\
  (forall t, waitsForExclusive (th g t) -> excl g <> None \/ exists u, handsOver (th g u)).
Lemma wk_same : forall g g', wakeInv g -> th g' = th g -> excl g' = excl g -> act g' = act g -> wakeInv g'.
Proof. intros g g' A E1 E2 E3. unfold wakeInv. rewrite E1, E2, E3. exact A. Qed.
Lemma wk_wake : forall g, wakeInv (wakeAll g).
Proof. intros g. split; intros t W; exfalso; rewrite th_wakeAll in W; destruct (bump_waits (th g t)); contradiction. Qed.
Lemma wk_go : forall tids g g' r x, inv tids g -> th g' = upd (th g) r x ->
  (waitsForOthers x -> (1 < act g')%Z) ->
  (retires x \/ (~ retires (th g r) /\ (act g <= act g')%Z) \/ excl g = None \/ (excl g = Some r /\ ~ waitsForOthers (th g r))) ->
  (waitsForExclusive x -> excl g' <> None) ->
  (handsOver x \/ (~ handsOver (th g r) /\ (excl g <> None -> excl g' <> None))) ->
  wakeInv g'.
Proof.
  intros tids g g' r x H E H1 H2 H3 H4. unfold wakeInv. rewrite E.
  assert (KEEP : forall P : thr -> Prop, (exists u, P (th g u)) -> ~ P (th g r) -> exists u, P (upd (th g) r x u)).
  { intros P [u Pu] N. exists u. unfold upd. destruct (Nat.eqb_spec u r) as [->|]; [contradiction|assumption]. }
  assert (SELF : forall P : thr -> Prop, P x -> exists u, P (upd (th g) r x u)).
  { intros P Px. exists r. unfold upd. rewrite Nat.eqb_refl. exact Px. }
  assert (XW : forall u, waitsForOthers (th g u) -> excl g = Some u).
  { intros u W. pose proof (i_loc _ _ H u) as LU. destruct (th g u) as [s p]. unfold waitsForOthers in W. cbn in W. destruct p; try contradiction.
    destruct k; try contradiction. destruct notified; try contradiction. cbn in LU. apply LU. }
  split; intros t.
  - split_upd t r; [intros W; left; auto|]. intros W. specialize (XW _ W).
    destruct H2 as [K|[(K1 & K2)|[K|[K1 K2]]]]; [right; apply SELF; exact K| |congruence|exfalso; congruence].
    destruct (i_wakeO _ _ H t W) as [A|A]; [left; lia|right; apply KEEP; assumption].
  - split_upd t r; [intros W; left; auto|]. intros W.
    destruct H4 as [K|(K1 & K2)]; [right; apply SELF; exact K|].
    destruct (i_wakeE _ _ H t W) as [A|A]; [left; auto|right; apply KEEP; assumption].
Qed.

Lemma wake_step : forall tids g t g', NoDup tids -> In t tids -> inv tids g -> step tids g t g' -> wakeInv g'.
Proof.
  intros tids g t g' ND HI H S.
  assert (L : wakeInv g) by (split; [apply (i_wakeO _ _ H)|apply (i_wakeE _ _ H)]).
  pose proof (i_loc _ _ H t) as LT.
  assert (UL : forall g, wakeInv g -> wakeInv (unlock g)).
  { intros g0 L0. eapply wk_same; [exact L0|apply th_unlock|apply excl_unlock|apply act_unlock]. }
  inversion S; subst; try match goal with E : th g t = _ |- _ => rewrite E in LT; cbn in LT end.
  all: try (apply UL); try (apply wk_wake); try (apply UL).
  all: try (exact L).
  all: try (match goal with |- context [go ?g0 ?p ?x] => refine (wk_go tids g0 _ p x H _ _ _ _ _);
    [reflexivity| | | | ];
    cbn [act live excl go setExcl addAct addLive setOwn lock];
    match goal with E : th g0 p = _ |- _ => rewrite ?E end end).
  all: unfold waitsForOthers, retires, waitsForExclusive, handsOver; cbn [at_ st].
  all: try (cases; cbn in *; intuition (try discriminate; try lia; try congruence); fail).
  (* remove *) split; intros u W; exfalso; revert W; cbn [th addLive go]; split_upd u p; try (cbn; tauto); rewrite th_wakeAll; apply bump_waits.
Qed.

(** * The invariant holds in every reachable state *)
Theorem inv_reachable : forall tids g, NoDup tids -> reachable tids g -> inv tids g.
Proof.
  intros tids g ND R. induction R as [|g t g' R IH HI S].
  - constructor; cbn; try tauto; try lia; try discriminate; intuition (try lia; try discriminate);
      symmetry; apply sumZ_zero.
  - destruct (lock_step _ _ _ _ IH S) as (A1 & A2 & A3). destruct (loc_step _ _ _ _ IH S) as (B1 & B2).
    destruct (sum_step _ _ _ _ ND HI IH S) as (C1 & C2 & C3). destruct (wake_step _ _ _ _ ND HI IH S) as (D1 & D2).
    pose proof (settled_step _ _ _ _ ND HI IH S) as E1. constructor; assumption.
Qed.

Lemma exclusive_is : forall tids g t, inv tids g -> isExclusive (th g t) -> excl g = Some t /\ arriving (at_ (th g t)) = false.
Proof.
  intros tids g t H [S O]. pose proof (i_loc _ _ H t) as L. unfold outside in O. destruct (th g t) as [s p].
  destruct p; try contradiction; cbn in *; try (split; [auto|reflexivity]); destruct k; try contradiction; cbn in L; split; auto.
Qed.
Theorem exclusion : forall tids g t u, NoDup tids -> reachable tids g -> isExclusive (th g t) -> u <> t ->
  ~ isActive (th g u) /\ ~ isExclusive (th g u).
Proof.
  intros tids g t u ND R X N. pose proof (inv_reachable _ _ ND R) as H. destruct (exclusive_is _ _ _ H X) as [E A]. split.
  - intros [S O]. apply (i_settled _ _ H t u E A N). unfold settled, contrib. unfold outside in O. destruct (th g u) as [s p].
    destruct p; try contradiction; cbn in *; destruct S as [-> | ->]; auto.
  - intros X'. destruct (exclusive_is _ _ _ H X') as [E' _]. congruence.
Qed.
Theorem counts : forall tids g, NoDup tids -> reachable tids g -> (forall t, In t tids -> outside (th g t)) ->
  act g = countActive g tids /\ live g = countLive g tids.
Proof.
  intros tids g ND R O. pose proof (inv_reachable _ _ ND R) as H. split.
  - rewrite (i_act _ _ H). apply sumZ_ext. intros t Ht. specialize (O t Ht). unfold outside in O. unfold contrib. destruct (th g t) as [s p].
    destruct p; try contradiction; reflexivity.
  - rewrite (i_live _ _ H). reflexivity.
Qed.
