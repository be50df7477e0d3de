From Coq Require Import List Bool Arith Lia.
From Verif Require Import Chain PMonitor_Model PMonitor_Spec.
Import ListNotations.

Definition holdsMx (p : pc) (h : nat) : bool :=
  match p with
  | Out => match h with 0 => false | _ => true end
  | A2 | A3 | R1 | R2 | W1 _ | W2 _ | W3 _ _ | W4 _ _ | W5 _ _ _ | W6 _ _ _ | W10 _ _ _ | RM _ _ _ _ | W14 _ _ | N1 _ | NA _ => true
  | _ => false
  end.
Definition od (p : pc) (t h : nat) (o : option nat) (d : nat) : Prop :=
  match p with
  | Out | W1 _ | W2 _ | W3 _ _ | W4 _ _ | N1 _ | NA _ => o = Some t /\ d = h /\ 0 < h
  | A2 | R2 => o = None /\ d = 0 /\ h = 0
  | A3 => o = Some t /\ d = h
  | R1 => o = Some t /\ d = 0 /\ h = 0
  | W5 _ _ _ => o = Some t /\ d = 0
  | W6 _ _ _ | W10 _ _ _ | RM _ _ _ _ | W14 _ _ => o = None /\ d = 0
  | _ => False
  end.
Definition hOk (p : pc) (h : nat) : Prop :=
  match p with
  | A1 => h = 0
  | W5 _ _ d | W6 _ _ d | W7 _ d _ | W8 _ d | W8' _ d | W9 _ _ d | W10 _ _ d | RM _ d _ _ | W14 _ d => d = h /\ 0 < h
  | Bad => False
  | _ => True
  end.
Definition inL (p : pc) : Prop :=
  match p with W4 _ _ | W5 _ _ _ | W6 _ _ _ | W7 _ _ _ | W8 _ _ | W8' _ _ | W9 _ _ _ | W10 _ _ _ | RM _ _ _ _ => True | _ => False end.
Definition must (p : pc) : Prop :=
  match p with W4 _ _ | W5 _ _ _ | W6 _ _ _ | W7 _ _ _ | W8 _ _ | W8' _ _ => True | _ => False end.
Definition mayFlag (p : pc) : Prop :=
  match p with W7 _ _ _ | W8 _ _ | W8' _ _ | W9 _ _ _ | W10 _ _ _ => True | _ => False end.
Definition stale (p : pc) : Prop := inL p \/ exists i d, p = W14 i d.
Definition noInt (p : pc) : Prop :=
  match p with W7 _ _ false | W6 false false _ | W6 true false _ | W5 _ false _ | W4 _ false | W3 _ false => True | _ => False end.

Record inv (g : glob) : Prop := {
  v_mx : forall t, holdsMx (at_ g t) (held g t) = true <-> mx g = Some t;
  v_od : match mx g with Some t => od (at_ g t) t (held g t) (owner g) (depth g) | None => owner g = None /\ depth g = 0 end;
  v_h : forall t, hOk (at_ g t) (held g t);
  v_chain : chain (next g) (first g) (q g);
  v_last : last g = lastOf (q g);
  v_nd : NoDup (q g);
  v_in : forall t, In t (q g) -> inL (at_ g t);
  v_flag : forall t, flag g t = true -> mayFlag (at_ g t);
  v_fq : forall t, flag g t = true -> In t (q g) -> exists v c, at_ g v = NA c;
  v_n : forall t i d, at_ g t = W9 i true d \/ at_ g t = W10 i true d -> flag g t = true;
  v_wait : forall t, must (at_ g t) -> In t (q g) \/ flag g t = true \/ exists v, at_ g v = N1 t;
  v_sleep : forall t c d, at_ g t = W7 c d false -> flag g t = false;
  v_int : forall t, noInt (at_ g t) -> intr g t = false;
  v_N1 : forall v u, at_ g v = N1 u -> ~ In u (q g) /\ waiting (at_ g u);
  v_NA : forall v c, at_ g v = NA c -> exists l1 l2, q g = l1 ++ l2 /\ chain (next g) c l2 /\ (forall x, In x l1 -> flag g x = true);
  v_RM : forall t i d p c, at_ g t = RM i d p c -> exists l1 l2, q g = l1 ++ l2 /\ chain (next g) c l2 /\ p = lastOf l1 /\ ~ In t l1;
  v_nx : forall t, ~ stale (at_ g t) -> next g t = None
}.

Lemma v_init : inv start.
Proof.
  split; cbn; intros; try discriminate; try tauto; auto.
  - split; discriminate.
  - constructor.
  - destruct H; discriminate.
Qed.

Section Step.
Variables (g : glob) (t : nat) (g' : glob).
Hypothesis I : inv g.
Hypothesis S : step g t g'.

Lemma own_out : at_ g t = Out -> owner g = Some t -> mx g = Some t /\ depth g = held g t /\ 0 < held g t.
Proof.
  intros E O. pose proof (v_od g I) as D. destruct (mx g) as [w|] eqn:M; [|destruct D; congruence].
  assert (w = t).
  { destruct (at_ g w) eqn:Ew; cbn in D; try tauto; decompose [and] D; congruence. }
  subst. rewrite E in D. cbn in D. intuition.
Qed.
Lemma hold : forall p, at_ g t = p -> holdsMx p (held g t) = true -> mx g = Some t.
Proof. intros p <- H. apply (v_mx g I); auto. Qed.
Lemma hold1 : forall a b, holdsMx (at_ g a) (held g a) = true -> holdsMx (at_ g b) (held g b) = true -> a = b.
Proof. intros a b A B. apply (v_mx g I) in A. apply (v_mx g I) in B. congruence. Qed.
Lemma wakeMx : forall p h, holdsMx (wakeUp p) h = holdsMx p h.
Proof. destruct p; auto. Qed.
Lemma parked_mx : forall u, waiting (at_ g u) -> mx g <> Some u.
Proof. intros u W M. apply (v_mx g I) in M. destruct (at_ g u); cbn in *; tauto || discriminate. Qed.

Lemma own_not : at_ g t = Out -> owner g <> Some t -> mx g <> Some t /\ held g t = 0.
Proof.
  intros E O. pose proof (v_od g I) as D.
  assert (M : mx g <> Some t). { intros M. rewrite M, E in D. cbn in D. intuition. }
  split; auto. pose proof (v_mx g I t) as X. rewrite E in X. cbn in X. destruct (held g t); auto. tauto.
Qed.
Ltac own := match goal with
  | E : at_ ?g ?t = Out, O : owner ?g = Some ?t |- _ => destruct (own_out E O) as (? & ? & ?)
  | E : at_ ?g ?t = Out, O : owner ?g <> Some ?t |- _ => destruct (own_not E O) as (? & ?) end.
Ltac holds := match goal with E : at_ ?g ?t = ?p |- _ =>
  assert (mx g = Some t) by (apply (hold p E); reflexivity) end.
Ltac unf := unfold doNotify, signal, append, unlink, go, setMx, setOwner, setDepth, setList, setFlag, setIntr, setHeld, setRet, setQ in *; cbn [at_ mx owner depth first last next flag intr held ret q] in *.

Lemma noNA : forall p, at_ g t = p -> holdsMx p (held g t) = true -> (forall c, p <> NA c) -> forall v c, at_ g v <> NA c.
Proof.
  intros p E H N v c Ev. assert (v = t). { apply hold1; [rewrite Ev; auto|rewrite E; auto]. } subst. apply (N c). congruence.
Qed.
Lemma noN1 : forall p, at_ g t = p -> holdsMx p (held g t) = true -> (forall c, p <> N1 c) -> forall v c, at_ g v <> N1 c.
Proof.
  intros p E H N v c Ev. assert (v = t). { apply hold1; [rewrite Ev; auto|rewrite E; auto]. } subst. apply (N c). congruence.
Qed.
Lemma notIn : ~ inL (at_ g t) -> ~ In t (q g).
Proof. intros N H. apply N. apply (v_in g I); auto. Qed.
Lemma last_next : forall u, last g = Some u -> next g u = None.
Proof.
  intros u L. rewrite (v_last g I) in L. apply lastOf_in in L. destruct L as (l & E).
  pose proof (v_chain g I) as C. rewrite E in C. apply chain_app in C. destruct C as (m & C & _). cbn in C. intuition.
Qed.
(** in the remove loop, when current = t *)
Lemma rm_at : forall i d p, at_ g t = RM i d p (Some t) -> exists l1 l2,
  q g = l1 ++ t :: l2 /\ chain (next g) (next g t) l2 /\ p = lastOf l1 /\ ~ In t l1 /\ ~ In t l2 /\ NoDup (l1 ++ l2).
Proof.
  intros i d p E. destruct (v_RM g I _ _ _ _ _ E) as (l1 & l2 & Q & C & P & N).
  destruct l2 as [|x l2]; cbn in C; [discriminate|]. destruct C as [[= <-] C].
  exists l1, l2. pose proof (v_nd g I) as D. rewrite Q in D. apply NoDup_remove in D. destruct D as [D1 D2].
  repeat split; auto. intros H. apply D2. apply in_or_app. auto.
Qed.
Lemma no_bad : forall x, at_ g' x <> Bad.
Proof.
  assert (B : forall x, at_ g x <> Bad). { intros x E. pose proof (v_h g I x) as H. rewrite E in H. exact H. }
  intros x. pose proof (B x) as Bx. inversion S; subst; unf; up; auto; try discriminate; try congruence.
  all: try (destruct (at_ g u) eqn:E; cbn; try discriminate; congruence).
  all: intros _.
  - apply (v_flag g I) in H0. rewrite H in H0. exact H0.
  - rewrite (v_last g I) in H0. apply lastOf_in in H0. destruct H0 as (l & H0).
    assert (In t (q g)) by (rewrite H0; apply in_or_app; cbn; auto). apply (v_in g I) in H1. rewrite H in H1. exact H1.
  - destruct (rm_at _ _ _ H) as (l1 & l2 & Q & C & P & N1 & N2 & D).
    destruct l1 as [|y l1'] using rev_ind.
    { apply H0. pose proof (v_chain g I) as X. rewrite Q in X. cbn in X. tauto. }
    rewrite lastOf_snoc in P. subst p. destruct H1 as [H1|H1]; [|discriminate].
    rewrite <- H1 in C. destruct l2 as [|z l2]; cbn in C; [discriminate|]. destruct C as [[= <-] _].
    rewrite <- app_assoc in D. cbn in D. apply NoDup_remove_2 in D. apply D. apply in_or_app. cbn. auto.
  - rewrite (last_next _ H2) in H3. congruence.
Qed.

Lemma mx_step : forall x, holdsMx (at_ g' x) (held g' x) = true <-> mx g' = Some x.
Proof.
  intros x. pose proof (v_mx g I x) as X. pose proof (v_od g I) as D. pose proof (v_h g I x) as H. pose proof (no_bad x) as NB.
  inversion S; subst; try own; try holds; unf.
  all: up; rewrite ?wakeMx; cbn in *; auto.
  all: repeat match goal with E : at_ g _ = _ |- _ => rewrite E in * end; cbn in *; auto.
  all: try congruence.
  all: try (split; [congruence|intros; auto; try congruence]; fail).
  all: try (rewrite X; split; congruence).
  - destruct (held g t) as [|[|]]; cbn; lia || tauto.
  - rewrite H1, H0 in D. destruct D as (_ & _ & ->). split; discriminate.
  - destruct H. destruct (held g t); [lia|tauto].
  - rewrite H2, H0 in D. destruct D as (_ & _ & ?). destruct (held g t); [lia|tauto].
  - rewrite H1, H0 in D. destruct D as (_ & _ & ?). destruct (held g t); [lia|tauto].
Qed.
Lemma od_wake : forall p w h o d, od (wakeUp p) w h o d = od p w h o d.
Proof. destruct p; auto. Qed.
Lemma od_step : match mx g' with Some t => od (at_ g' t) t (held g' t) (owner g') (depth g') | None => owner g' = None /\ depth g' = 0 end.
Proof.
  pose proof (v_od g I) as D. pose proof (v_h g I t) as H. pose proof (v_mx g I) as X. pose proof (no_bad t) as NB.
  inversion S; subst; try own; try holds; unf.
  all: repeat match goal with M : mx g = _ |- _ => rewrite M in * end.
  all: try match goal with |- context [match mx g with _ => _ end] => destruct (mx g) as [w|] eqn:M; [|auto] end.
  all: up; rewrite ?od_wake; cbn in *; auto.
  all: repeat match goal with E : at_ g _ = _ |- _ => rewrite E in * end; cbn in *; auto.
  all: try tauto; try congruence; try lia.
  all: try (destruct D as (? & ?); repeat split; auto; lia || congruence).
  all: try (destruct D as (? & ? & ?); repeat split; auto; lia || congruence).
Qed.
Lemma h_wake : forall p h, hOk (wakeUp p) h = hOk p h.
Proof. destruct p; auto. Qed.
Lemma h_step : forall x, hOk (at_ g' x) (held g' x).
Proof.
  intros x. pose proof (v_h g I x) as H. pose proof (v_od g I) as D. pose proof (no_bad x) as NB.
  inversion S; subst; try own; try holds; unf.
  all: repeat match goal with M : mx g = _ |- _ => rewrite M in * end.
  all: up; rewrite ?h_wake; cbn in *; auto.
  all: repeat match goal with E : at_ g _ = _ |- _ => rewrite E in * end; cbn in *; auto.
  all: try tauto; try congruence; try lia.
  all: try (rewrite <- ?H1; intuition lia).
Qed.
Lemma inL_stale : forall p, inL p -> stale p.
Proof. left; auto. Qed.
Lemma list_step : chain (next g') (first g') (q g') /\ last g' = lastOf (q g') /\ NoDup (q g').
Proof.
  pose proof (v_chain g I) as C. pose proof (v_last g I) as L. pose proof (v_nd g I) as D.
  inversion S; subst; unf; auto.
  - (* append *)
    apply append_ok; auto. { apply notIn; rewrite H; auto. }
    apply (v_nx g I). rewrite H. intros [[]|(? & ? & ?)]; discriminate.
  - (* unlink *)
    destruct (rm_at _ _ _ H) as (l1 & l2 & Q & C2 & -> & _). eapply unlink_ok; eauto.
  - (* 399 *)
    split; auto. apply chain_ext with (next g); auto. intros x Hx. up; auto. exfalso. apply (notIn) in Hx; auto. rewrite H. auto.
  - (* notify *)
    destruct (pop_ok _ _ _ _ _ D C L H1) as (l & -> & _ & A & B & E). auto.
  - repeat split; auto. constructor.
Qed.
Lemma wake_inL : forall p, inL (wakeUp p) <-> inL p.
Proof. destruct p; cbn; tauto. Qed.
Lemma wake_flag : forall p, mayFlag (wakeUp p) <-> mayFlag p.
Proof. destruct p; cbn; tauto. Qed.
Lemma wake_must : forall p, must (wakeUp p) <-> must p.
Proof. destruct p; cbn; tauto. Qed.
Lemma wake_waiting : forall p, waiting (wakeUp p) <-> waiting p.
Proof. destruct p; cbn; tauto. Qed.
Lemma wake_eq : forall p r, (forall c d b, r <> W7 c d b) -> (wakeUp p = r <-> p = r).
Proof. intros p r N. destruct p; cbn; try tauto. split; intros E; exfalso; eapply N; eauto. Qed.
Ltac ats := repeat match goal with E : at_ g _ = _ |- _ => rewrite E in * end.
Lemma q10 : forall i d, at_ g t = W10 i true d -> ~ In t (q g).
Proof.
  intros i d E H. destruct (v_fq g I t) as (v & c & Ev); auto. { eapply (v_n g I); eauto. }
  apply (noNA _ E eq_refl ltac:(discriminate) _ _ Ev).
Qed.
Lemma qend : forall i d p, at_ g t = RM i d p None -> ~ In t (q g).
Proof.
  intros i d p E. destruct (v_RM g I _ _ _ _ _ E) as (l1 & l2 & Q & C & P & N).
  destruct l2; cbn in C; [|destruct C; discriminate]. rewrite Q, app_nil_r. auto.
Qed.
Lemma in_step : forall x, In x (q g') -> inL (at_ g' x).
Proof.
  intros x. pose proof (v_in g I x) as X. pose proof (no_bad x) as NB. pose proof q10 as Q10. pose proof qend as QE.
  inversion S; subst; unf; up; rewrite ?wake_inL; intros Hx; auto; ats; cbn in *; auto; try tauto; try congruence.
  all: try (apply in_app_or in Hx; cbn in Hx; destruct Hx as [Hx|[Hx|[]]]; auto; congruence).
  all: try (apply in_remove in Hx; tauto).
  all: try (eapply Q10; eauto; fail); try (eapply QE; eauto; fail).
  all: try (destruct (q g); cbn in *; tauto).
Qed.
Lemma N1_u : forall u, at_ g t = N1 u -> u <> t /\ waiting (at_ g u) /\ ~ In u (q g).
Proof. intros u E. destruct (v_N1 g I _ _ E). repeat split; auto. intros ->. rewrite E in *. auto. Qed.
Lemma NA_u : forall u, at_ g t = NA (Some u) -> u <> t /\ waiting (at_ g u) /\ In u (q g).
Proof.
  intros u E. destruct (v_NA g I _ _ E) as (l1 & l2 & Q & C & F).
  assert (In u (q g)). { rewrite Q. destruct l2; cbn in C; [discriminate|]. destruct C as [[= ->] _]. apply in_or_app. cbn. auto. }
  pose proof (v_in g I _ H) as X. assert (u <> t) by (intros ->; rewrite E in *; auto). repeat split; auto.
  assert (M : holdsMx (at_ g u) (held g u) <> true).
  { intros M. apply H0. apply hold1; auto. rewrite E. auto. }
  destruct (at_ g u); cbn in *; congruence || tauto.
Qed.
Lemma waiting_may : forall p, waiting p -> mayFlag p.
Proof. destruct p; cbn; auto. Qed.
Ltac NU := match goal with
  | E : at_ ?g ?t = N1 ?u |- _ => destruct (N1_u u E) as (? & ? & ?)
  | E : at_ ?g ?t = NA (Some ?u) |- _ => destruct (NA_u u E) as (? & ? & ?) end.
Lemma fl_step : forall x, flag g' x = true -> mayFlag (at_ g' x).
Proof.
  intros x. pose proof (v_flag g I x) as X. pose proof (no_bad x) as NB.
  inversion S; subst; try NU; unf; up; rewrite ?wake_flag; intros Hx; auto; ats; cbn in *; auto; try tauto; try congruence.
  all: apply waiting_may; auto.
Qed.
Lemma in_tl : forall (x : nat) l, In x (tl l) -> In x l.
Proof. destruct l; cbn; auto. Qed.
Lemma keepNA : forall at', (forall v c, at_ g v = NA c -> at' v = NA c) -> (exists v c, at_ g v = NA c) -> exists v c, at' v = NA c.
Proof. intros at' H (v & c & E). eauto. Qed.
Ltac keep := intros ? ? EV; up; try congruence; rewrite ?EV; cbn; congruence.
Lemma fq_step : forall x, flag g' x = true -> In x (q g') -> exists v c, at_ g' v = NA c.
Proof.
  intros x. pose proof (v_fq g I x) as X. pose proof (v_flag g I x) as F.
  inversion S; subst; try NU; unf; auto; intros Hf Hq.
  all: try (apply keepNA; [keep|apply X; auto using in_tl]; fail).
  all: try (apply keepNA; [keep|apply in_remove in Hq; tauto]; fail).
  - apply in_app_or in Hq. destruct Hq as [Hq|[<-|[]]]. { apply keepNA; [keep|auto]. }
    apply F in Hf. rewrite H in Hf. destruct Hf.
  - apply keepNA; [keep|]. apply X; auto. up; congruence.
  - apply keepNA; [keep|]. apply X; auto. up; congruence.
  - apply keepNA; [keep|]. apply X; auto. up; congruence.
  - exists t, (next g u). up; congruence.
  - destruct Hq.
Qed.
Lemma n_step : forall x i d, at_ g' x = W9 i true d \/ at_ g' x = W10 i true d -> flag g' x = true.
Proof.
  intros x i0 d0. pose proof (v_n g I x) as X.
  assert (WK : forall u, (wakeUp (at_ g u) = W9 i0 true d0 <-> at_ g u = W9 i0 true d0) /\ (wakeUp (at_ g u) = W10 i0 true d0 <-> at_ g u = W10 i0 true d0)).
  { intros u. split; apply wake_eq; discriminate. }
  inversion S; subst; try NU; unf; up; intros HH; auto; try (eapply X; eauto; fail).
  all: try (destruct (WK u)); try (destruct HH; discriminate).
  all: try (eapply X; rewrite <- H1 || idtac; eauto; intuition eauto; fail).
  all: try (destruct HH as [HH|HH]; injection HH as; congruence).
  all: try (destruct HH as [HH|HH]; [discriminate|injection HH as -> -> ->; eapply X; eauto; fail]).
  all: destruct HH; congruence.
Qed.
Lemma keepN1 : forall x at', (forall v, at_ g v = N1 x -> at' v = N1 x) -> (exists v, at_ g v = N1 x) -> exists v, at' v = N1 x.
Proof. intros x at' H (v & E). eauto. Qed.
Ltac keep1 := intros ? EV; up; try congruence; rewrite ?EV; cbn; congruence.
Lemma wait_step : forall x, must (at_ g' x) -> In x (q g') \/ flag g' x = true \/ exists v, at_ g' v = N1 x.
Proof.
  intros x. pose proof (v_wait g I x) as X.
  inversion S; subst; try NU; unf; auto; intros Hm.
  all: try (assert (M : must (at_ g x)) by (up; rewrite ?wake_must in *; ats; cbn in *; tauto); destruct (X M) as [M1|[M1|M1]];
    [left; auto; try (apply in_or_app; auto; fail)|right; left; up; auto|right; right; revert M1; apply keepN1; keep1]; fail).
  - destruct (Nat.eq_dec x t) as [->|N]. { left. apply in_or_app. cbn. auto. }
    assert (M : must (at_ g x)) by (up; congruence || auto). destruct (X M) as [M1|[M1|M1]]; auto.
    { left. apply in_or_app. auto. } right. right. revert M1. apply keepN1. keep1.
  - destruct (Nat.eq_dec x t) as [->|N]. { exfalso. up; [exact Hm|congruence]. }
    assert (M : must (at_ g x)) by (up; congruence || auto). destruct (X M) as [M1|[M1|M1]]; auto.
    { left. apply in_in_remove; auto. } right. right. revert M1. apply keepN1. keep1.
  - pose proof (v_chain g I) as C. destruct (q g) as [|y l] eqn:Q; cbn in C; [congruence|]. destruct C as [F C]. assert (y = u) by congruence. subst y.
    destruct (Nat.eq_dec x u) as [->|N]. { right. right. exists t. up; congruence. }
    assert (M : must (at_ g x)) by (up; cbn in *; tauto || auto). destruct (X M) as [M1|[M1|M1]]; auto.
    { left. cbn in *. intuition congruence. } right. right. revert M1. apply keepN1. keep1.
  - destruct (Nat.eq_dec x u) as [->|N]. { right. left. up; congruence. }
    assert (M : must (at_ g x)) by (up; cbn in *; tauto || congruence || auto). destruct (X M) as [M1|[M1|M1]]; auto.
    { right. left. up; auto. } exfalso. destruct M1 as (v & Ev).
    assert (v = t) by (apply hold1; [rewrite Ev; auto|rewrite H; auto]). congruence.
  - destruct (v_NA g I _ _ H) as (l1 & l2 & Q & C & F). destruct l2; cbn in C; [|destruct C; discriminate]. rewrite app_nil_r in Q.
    assert (M : must (at_ g x)) by (up; cbn in *; tauto || congruence || auto). destruct (X M) as [M1|[M1|M1]]; auto.
    { right. left. apply F. congruence. } right. right. revert M1. apply keepN1. keep1.
Qed.
Lemma sleep_step : forall x c d, at_ g' x = W7 c d false -> flag g' x = false.
Proof.
  intros x c0 d0. pose proof (v_sleep g I x) as X. pose proof (v_flag g I x) as F.
  assert (WK : forall u, wakeUp (at_ g u) <> W7 c0 d0 false) by (intros u; destruct (at_ g u); discriminate).
  inversion S; subst; try NU; unf; up; intros HH; auto; try (eapply X; eauto; fail); try discriminate.
  all: try (exfalso; eapply WK; eauto; fail).
  destruct (flag g t); auto. rewrite H in F. destruct F; auto.
Qed.
Lemma int_step : forall x, noInt (at_ g' x) -> intr g' x = false.
Proof.
  intros x. pose proof (v_int g I x) as X. pose proof (no_bad x) as NB.
  inversion S; subst; try NU; unf; up; intros HH; auto; ats; cbn in *; auto; try tauto; try congruence.
  all: try (destruct (intr g t); auto; tauto).
  all: try (destruct i; auto; try destruct c; auto; tauto).
  all: try (destruct c; auto; fail).
  all: destruct (at_ g u) as [| | | | | | | |? []|? []|? [] ?|[] [] ?|? ? []| | | | | | | | |]; cbn in *; auto; try tauto; try discriminate.
Qed.
Lemma frame : forall v, mx g = Some v -> v <> t -> q g' = q g /\ next g' = next g /\ first g' = first g /\ flag g' = flag g /\ mx g' = mx g /\
  (at_ g' v = at_ g v \/ at_ g' v = wakeUp (at_ g v)) /\
  (forall u, waiting (at_ g u) -> waiting (at_ g' u)).
Proof.
  intros v M N. inversion S; subst; try own; try holds; try NU; unf; try congruence.
  all: repeat split; auto; try (up; auto; congruence).
  all: intros w W; up; rewrite ?wake_waiting; auto; ats; cbn in *; auto.
Qed.
Lemma head_u : forall u, at_ g t = Out -> owner g = Some t -> first g = Some u -> exists l, q g = u :: l /\ ~ In u l /\ waiting (at_ g u) /\ u <> t.
Proof.
  intros u E O F. destruct (own_out E O) as (M & _). pose proof (v_chain g I) as C. pose proof (v_nd g I) as D. pose proof (v_in g I u) as J.
  destruct (q g) as [|y l]; cbn in C; [congruence|]. destruct C as [F' C]. assert (y = u) by congruence. subst y.
  inversion D; subst. specialize (J (or_introl eq_refl)). assert (NE : u <> t) by (intros ->; rewrite E in J; auto).
  exists l. repeat split; auto.
  assert (H : holdsMx (at_ g u) (held g u) <> true). { intros H. apply (v_mx g I) in H. congruence. }
  destruct (at_ g u); cbn in *; congruence || tauto.
Qed.
Lemma N1_step : forall v u, at_ g' v = N1 u -> ~ In u (q g') /\ waiting (at_ g' u).
Proof.
  intros v u E. destruct (Nat.eq_dec v t) as [->|N].
  - inversion S; subst; unf; up; try congruence.
    all: try (rewrite H in E; discriminate).
    + injection E as ->. destruct (head_u _ H H0 H1) as (l & Q & Nn & W & NE). congruence.
    + injection E as ->. destruct (head_u _ H H0 H1) as (l & Q & Nn & W & NE). rewrite Q. cbn. auto.
  - assert (Ev : at_ g v = N1 u).
    { inversion S; subst; unf; up; try congruence; (apply (fun N => proj1 (wake_eq _ _ N)) in E; [congruence|discriminate]). }
    destruct (v_N1 g I _ _ Ev) as (A & B). destruct (frame v) as (Q & _ & _ & _ & _ & _ & W); auto.
    { apply (v_mx g I). rewrite Ev. auto. }
    rewrite Q. split; auto.
Qed.
Lemma NA_step : forall v c, at_ g' v = NA c -> exists l1 l2, q g' = l1 ++ l2 /\ chain (next g') c l2 /\ (forall x, In x l1 -> flag g' x = true).
Proof.
  intros v c E. destruct (Nat.eq_dec v t) as [->|N].
  - pose proof (v_chain g I) as C. inversion S; subst; try NU; unf; up; try congruence.
    all: try (rewrite H in E; discriminate).
    + injection E as <-. exists [], (q g). repeat split; auto; intros x [].
    + injection E as <-. destruct (v_NA g I _ _ H) as (l1 & l2 & Q & C2 & F). destruct l2 as [|y l2]; cbn in C2; [discriminate|].
      destruct C2 as [[= <-] C2]. exists (l1 ++ [u]), l2. rewrite <- app_assoc. repeat split; auto.
      intros x Hx. up; auto. apply in_app_or in Hx. cbn in Hx. destruct Hx as [Hx|[Hx|[]]]; auto; congruence.
  - assert (Ev : at_ g v = NA c).
    { inversion S; subst; unf; up; try congruence; (apply (fun N => proj1 (wake_eq _ _ N)) in E; [congruence|discriminate]). }
    destruct (v_NA g I _ _ Ev) as (l1 & l2 & B). destruct (frame v) as (Q & X & _ & F & _); auto.
    { apply (v_mx g I). rewrite Ev. auto. }
    exists l1, l2. rewrite Q, X, F. auto.
Qed.
Lemma RM_step : forall v i d p c, at_ g' v = RM i d p c -> exists l1 l2, q g' = l1 ++ l2 /\ chain (next g') c l2 /\ p = lastOf l1 /\ ~ In v l1.
Proof.
  intros v i0 d0 p0 c0 E. destruct (Nat.eq_dec v t) as [->|N].
  - pose proof (v_chain g I) as C. inversion S; subst; try NU; unf; up; try congruence.
    all: try (rewrite H in E; discriminate).
    + injection E as <- <- <- <-. exists [], (q g). repeat split; auto.
    + injection E as <- <- <- <-. destruct (v_RM g I _ _ _ _ _ H) as (l1 & l2 & Q & C2 & F & NI). destruct l2 as [|y l2]; cbn in C2; [discriminate|].
      destruct C2 as [[= <-] C2]. exists (l1 ++ [c]), l2. rewrite <- app_assoc, lastOf_snoc. repeat split; auto.
      intros Hx. apply in_app_or in Hx. cbn in Hx. intuition.
  - assert (Ev : at_ g v = RM i0 d0 p0 c0).
    { inversion S; subst; unf; up; try congruence; (apply (fun N => proj1 (wake_eq _ _ N)) in E; [congruence|discriminate]). }
    destruct (v_RM g I _ _ _ _ _ Ev) as (l1 & l2 & B). destruct (frame v) as (Q & X & _ & F & _); auto.
    { apply (v_mx g I). rewrite Ev. auto. }
    exists l1, l2. rewrite Q, X. auto.
Qed.
Lemma wake_stale : forall p, stale (wakeUp p) <-> stale p.
Proof.
  intros p. unfold stale. rewrite wake_inL. split; intros [H|(i & d & H)]; auto; right; exists i, d; destruct p; cbn in *; congruence.
Qed.
Lemma nx_step : forall x, ~ stale (at_ g' x) -> next g' x = None.
Proof.
  intros x. pose proof (v_nx g I x) as X. pose proof (no_bad x) as NB.
  assert (L : forall u, In u (q g) -> stale (at_ g u)) by (intros; left; apply (v_in g I); auto).
  inversion S; subst; try NU; unf; up; rewrite ?wake_stale; intros HH; auto; ats; try congruence.
  all: try (apply X; unfold stale in *; cbn in *; intros [[]|(? & ? & ?)]; discriminate).
  all: try (exfalso; apply HH; unfold stale; cbn; eauto; fail).
  - rewrite (v_last g I). destruct (lastOf (q g)) as [l|] eqn:E; auto. destruct (Nat.eqb_spec x l); auto. subst.
    exfalso. apply HH, L. apply lastOf_in in E. destruct E as (l' & ->). apply in_or_app. cbn. auto.
  - destruct (rm_at _ _ _ H) as (l1 & l2 & Q & C2 & P & Nl1 & Nl2 & D2).
    destruct (eqo (first g) (Some t)); auto. destruct p as [y|]; auto. destruct (Nat.eqb_spec x y); auto. subst.
    exfalso. apply HH, L. rewrite Q. symmetry in P. apply lastOf_in in P. destruct P as (l' & ->).
    apply in_or_app. left. apply in_or_app. cbn. auto.
Qed.
Lemma inv_step : inv g'.
Proof.
  destruct list_step as (A & B & C).
  split; first [exact mx_step|exact od_step|exact h_step|exact A|exact B|exact C|exact in_step|exact fl_step|exact fq_step|exact n_step
    |exact wait_step|exact sleep_step|exact int_step|exact N1_step|exact NA_step|exact RM_step|exact nx_step].
Qed.
End Step.

Lemma inv_reach : forall g, reachable g -> inv g.
Proof. induction 1; [apply v_init|eapply inv_step; eauto]. Qed.

Lemma has_mx : forall g t, inv g -> has g t -> mx g = Some t.
Proof.
  intros g t I (H & W). apply (v_mx g I). pose proof (v_h g I t) as X.
  destruct (at_ g t); cbn in *; auto; try tauto; try lia. destruct (held g t); [lia|auto].
Qed.

Lemma exclusion : forall g a b, reachable g -> has g a -> has g b -> a = b.
Proof. intros g a b R A B. apply inv_reach in R. apply has_mx in A; auto. apply has_mx in B; auto. congruence. Qed.

Lemma ownership : forall g t, reachable g -> at_ g t = Out ->
  (owner g = Some t <-> 0 < held g t) /\ (0 < held g t -> depth g = held g t).
Proof.
  intros g t R E. apply inv_reach in R. assert (A : owner g = Some t -> 0 < held g t) by (intros; eapply own_out; eauto).
  assert (B : 0 < held g t -> owner g = Some t).
  { intros H. assert (M : mx g = Some t) by (apply has_mx; auto; split; auto; rewrite E; auto).
    pose proof (v_od g R) as D. rewrite M, E in D. cbn in D. tauto. }
  split; [tauto|]. intros H. eapply own_out; eauto.
Qed.

Lemma wait_keeps : forall g t u g', reachable g -> step g t g' -> at_ g u <> Out -> at_ g u <> A3 -> held g' u = held g u.
Proof. intros g t u g' R S N N'. inversion S; subst; cbn; auto; up; auto; congruence. Qed.

Lemma list_ok : forall g, reachable g -> chain (next g) (first g) (q g) /\ last g = lastOf (q g) /\ NoDup (q g).
Proof. intros g R. apply inv_reach in R. repeat split; apply R. Qed.

Lemma list_exact : forall g t, reachable g -> mx g = None ->
  match at_ g t with W7 _ _ _ | W8 _ _ | W8' _ _ => In t (q g) <-> flag g t = false
  | W9 _ _ _ => True | _ => ~ In t (q g) end.
Proof.
  intros g t R M. apply inv_reach in R. pose proof (v_in g R t) as J. pose proof (v_wait g R t) as W. pose proof (v_fq g R t) as F.
  assert (NN : forall v c, at_ g v <> NA c /\ at_ g v <> N1 t).
  { intros v c. split; intros E; assert (X : mx g = Some v) by (apply (v_mx g R); rewrite E; auto); congruence. }
  assert (Mt : holdsMx (at_ g t) (held g t) <> true) by (intros X; apply (v_mx g R) in X; congruence).
  assert (K : must (at_ g t) -> In t (q g) <-> flag g t = false).
  { intros X. split; intros Y.
    - destruct (flag g t); auto. destruct (F eq_refl Y) as (v & c & E). destruct (NN v c). contradiction.
    - destruct (W X) as [Z|[Z|(v & Z)]]; auto; [congruence|]. destruct (NN v None). contradiction. }
  destruct (at_ g t); cbn in *; auto; congruence.
Qed.

Lemma no_lost : forall g t, reachable g -> asleep g t ->
  (In t (q g) \/ exists v, at_ g v = N1 t) /\ flag g t = false /\ intr g t = false.
Proof.
  intros g t R (c & d & E). apply inv_reach in R. pose proof (v_sleep g R _ _ _ E) as F.
  split; [|split; auto; apply (v_int g R); rewrite E; cbn; auto].
  destruct (v_wait g R t) as [H|[H|H]]; auto; [rewrite E; cbn; auto|congruence].
Qed.

Lemma list_evolves : forall g t g', reachable g -> step g t g' ->
  q g' = q g \/
  (q g' = q g ++ [t] /\ owner g = Some t) \/
  (exists u, q g = u :: q g' /\ at_ g' t = N1 u /\ owner g = Some t) \/
  (q g' = remove Nat.eq_dec t (q g) /\ exists i d p c, at_ g t = RM i d p c) \/
  (q g' = [] /\ (forall u, In u (q g) -> flag g' u = true) /\ at_ g t = NA None).
Proof.
  intros g t g' R S. apply inv_reach in R. pose proof (v_od g R) as D.
  inversion S; subst; auto.
  - right. left. split; auto. assert (M : mx g = Some t) by (apply (v_mx g R); rewrite H; auto). rewrite M, H in D. cbn in D. tauto.
  - right. right. right. left. cbn. eauto 8.
  - right. right. left. destruct (head_u g t R _ H H0 H1) as (l & Q & _). exists u. cbn. rewrite Q. cbn. repeat split; auto. unfold upd. rewrite Nat.eqb_refl. auto.
  - right. right. right. right. cbn. repeat split; auto. intros u Hu. destruct (v_NA g R _ _ H) as (l1 & l2 & Q & C & F).
    destruct l2; cbn in C; [|destruct C; discriminate]. rewrite app_nil_r in Q. apply F. congruence.
Qed.

Lemma signals : forall g t g' u, reachable g -> step g t g' -> (at_ g t = N1 u \/ at_ g t = NA (Some u)) ->
  waiting (at_ g' u) /\ flag g' u = true /\ ~ asleep g' u.
Proof.
  intros g t g' u R S E. apply inv_reach in R.
  assert (X : u <> t /\ waiting (at_ g u)). { destruct E as [E|E]; [apply (N1_u g t R) in E|apply (NA_u g t R) in E]; tauto. }
  destruct X as (N & W). inversion S; subst; destruct E as [E|E]; try congruence;
  match goal with H : at_ g t = _ , H' : at_ g t = _ |- _ => rewrite H in H'; injection H' as H'; try subst u0 end;
  cbn; unfold upd; rewrite !Nat.eqb_refl; apply Nat.eqb_neq in N; rewrite N; unfold asleep; cbn; rewrite ?N, ?Nat.eqb_refl;
  (split; [destruct (at_ g u); auto|split; [auto|]]);
  unfold upd; rewrite ?N, ?Nat.eqb_refl; intros (c & d & Y); destruct (at_ g u); discriminate.
Qed.
