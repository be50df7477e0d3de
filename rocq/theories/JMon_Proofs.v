From Coq Require Import List Bool Arith Lia.
From Verif Require Import Chain JMon_Model JMon_Spec.
Import ListNotations.

Definition pollK (p : pc) : option pk :=
  match p with P0 k | P1 k _ | P2 k _ _ | P3 k _ _ _ | P4 k _ _ _ | P5 k _ _ => Some k | _ => None end.
(** does the thread own the monitor here, having entered it h times more than left it *)
Definition kOw (k : pk) : bool := match k with KRem _ => true | _ => false end.
Definition ow (p : pc) (h : nat) : bool :=
  match p with
  | Out | AQ AEnter => 0 <? h
  | P0 k | P1 k _ | P2 k _ _ | P3 k _ _ _ | P4 k _ _ _ | P5 k _ _ => kOw k
  | T9 _ | L9 _ | WA _ _ | WB _ | RW _ _ _ | FW _ _ | R1 _ | W1 | W2 | W3 | W4 _ | N2 _ _ | NL => true
  | _ => false
  end.
Definition dep (p : pc) (h : nat) : nat :=
  match p with
  | T9 (AWait _ _) | L9 _ | R1 _ => 0
  | P0 _ | P1 _ _ | P2 _ _ _ | P3 _ _ _ _ | P4 _ _ _ _ | P5 _ _ _ => 0
  | WA _ _ | W4 _ => 1
  | _ => h
  end.
Definition aOk (a : akind) (h : nat) : Prop := match a with AEnter => h = 0 | AWait d _ => d = h /\ 0 < h end.
Definition rOk (r : rkind) (h : nat) : Prop := match r with RExit => h = 0 | RWait d => d = h /\ 0 < h end.
Definition kOk (k : pk) (h : nat) : Prop := match k with KTry a | KLoop a | KRem a => aOk a h | KRel r => rOk r h end.
Definition hOk (p : pc) (h : nat) : Prop :=
  match p with
  | Out => True
  | AQ AEnter | T9 AEnter => True
  | P0 k | P1 k _ | P2 k _ _ | P3 k _ _ _ | P4 k _ _ _ => kOk k h
  | P5 k _ _ => kOk k h /\ removes k = true
  | AQ a | T1 a | T9 a | L0 a | Q0 a _ | Q1 a _ _ | Q2 a _ _ _ | QH a _ _ _ | Q3 a _ _ | Q4 a _ _ | L1 a | S0 a | SL a _ | L9 a => aOk a h
  | R1 r | N1 r _ => rOk r h
  | WA d _ | W4 d | WS d | WL d _ | WK d => d = h /\ 0 < h
  | WB _ | RW _ _ _ | FW _ _ | W1 | W2 | W3 | N2 _ _ | NL => 0 < h
  | Bad => False
  end.
Definition kQ (k : pk) : bool := match k with KLoop _ | KRem _ => true | _ => false end.
(** the thread has a node in the queue *)
Definition inQ (p : pc) : bool :=
  match p with
  | P0 k | P1 k _ | P2 k _ _ | P3 k _ _ _ | P4 k _ _ _ | P5 k _ _ => kQ k
  | Q4 _ _ _ | L1 _ | S0 _ | SL _ _ => true
  | _ => false
  end.
(** the thread is at the front *)
Definition isFront (p : pc) : bool :=
  match p with
  | P0 k | P1 k _ | P2 k _ _ | P3 k _ _ _ | P4 k _ _ _ | P5 k _ _ => kOw k
  | L1 _ => true
  | _ => false
  end.
Definition linked g x := In x (old g ++ ahead g :: aq g).
Definition seen g h := In h (old g) \/ h = ahead g.
Definition nodeOk g t nd := val g nd = t /\ nd < fresh g /\ ~ linked g nd /\ nxt g nd = None.
Definition qOk (g : glob) (t : nat) (p : pc) : Prop :=
  match p with
  | P1 k h => seen g h
  | P2 k h x => seen g h /\ (h = ahead g -> In x (ahead g :: aq g)) /\ (h = ahead g -> x <> h -> atail g <> h)
  | P3 k h x n => seen g h /\ (h = ahead g -> In x (ahead g :: aq g)) /\ (h = ahead g -> x <> h -> atail g <> h) /\
      (forall m, n = Some m -> nxt g h = Some m) /\ (h = ahead g -> x <> h -> n <> None) /\ (h = ahead g -> kQ k = true -> n <> None)
  | P4 k h x n => nxt g x = Some n
  | P5 k h n => nxt g h = Some n /\ h = ahead g /\ atail g <> h
  | Q0 _ nd => nodeOk g t nd
  | Q1 _ nd x | Q3 _ nd x => nodeOk g t nd /\ linked g x
  | Q2 _ nd x n => nodeOk g t nd /\ linked g x /\ (forall m, n = Some m -> nxt g x = Some m)
  | QH _ nd x n => nodeOk g t nd /\ nxt g x = Some n
  | Q4 _ nd x => nxt g x = Some nd
  | _ => True
  end.
Definition vals g := map (val g) (aq g).

(** t is in the wait set, if not notified *)
Definition aW (a : akind) : bool := match a with AWait _ _ => true | _ => false end.
Definition rW (r : rkind) : bool := match r with RWait _ => true | _ => false end.
Definition inW (p : pc) : bool :=
  match p with
  | P0 k | P1 k _ | P2 k _ _ | P3 k _ _ _ | P4 k _ _ _ | P5 k _ _ => match k with KTry a | KLoop a | KRem a => aW a | KRel r => rW r end
  | AQ a | T1 a | T9 a | L0 a | Q0 a _ | Q1 a _ _ | Q2 a _ _ _ | QH a _ _ _ | Q3 a _ _ | Q4 a _ _ | L1 a | S0 a | SL a _ | L9 a => aW a
  | R1 r | N1 r _ => rW r
  | WA _ _ | WB _ | RW _ _ _ | W3 | W4 _ | WS _ | WL _ _ | WK _ => true
  | _ => false
  end.
(** t has entered wait and cannot have been woken yet *)
Definition dozy (p : pc) : bool :=
  match p with
  | P0 (KRel r) | P1 (KRel r) _ | P2 (KRel r) _ _ | P3 (KRel r) _ _ _ | P4 (KRel r) _ _ _ | P5 (KRel r) _ _ | R1 r | N1 r _ => rW r
  | W3 | W4 _ | WS _ | WL _ false => true
  | _ => false
  end.
Definition commit (p : pc) : bool := match p with S0 _ | SL _ false => true | _ => false end.
Definition prom (g : glob) (r u : nat) : Prop :=
  match at_ g r with
  | P0 (KRel _) | P1 (KRel _) _ | P2 (KRel _) _ _ | P4 (KRel _) _ _ _ => True
  | P3 (KRel _) h x n => h <> ahead g \/ n <> None
  | N1 _ v => v = u
  | _ => False
  end.

Record inv (g : glob) : Prop := {
  v_ow : forall t, ow (at_ g t) (held g t) = true <-> owner g = Some t;
  v_dep : depth g = match owner g with Some t => dep (at_ g t) (held g t) | None => 0 end;
  v_h : forall t, hOk (at_ g t) (held g t);
  v_nd : NoDup (old g ++ ahead g :: aq g);
  v_chain : chain (nxt g) (nxt g (ahead g)) (aq g);
  v_old : forall x, In x (old g) -> nxt g x <> None;
  v_tail : In (atail g) (ahead g :: aq g);
  v_fresh : forall x, linked g x -> x < fresh g;
  v_fr : forall x, fresh g <= x -> nxt g x = None;
  v_q : forall t, qOk g t (at_ g t);
  v_inq : forall t, inQ (at_ g t) = true <-> In t (vals g);
  v_ndv : NoDup (vals g);
  v_front : forall t, isFront (at_ g t) = true -> hd_error (vals g) = Some t;
  v_25 : forall u, commit (at_ g u) = true -> hd_error (vals g) = Some u -> owner g = None -> exists r, prom g r u;
  w_chain : chain (wnext g) (whead g) (wq g);
  w_last : wtail g = lastOf (wq g);
  w_nd : NoDup (wq g);
  w_in : forall t, In t (wq g) -> inW (at_ g t) = true;
  w_flag : forall t, wflag g t = true <-> In t (wq g);
  w_next : forall t, ~ In t (wq g) -> wnext g t = None;
  w_RW : forall t i p c, at_ g t = RW i p c -> exists l1 l2, wq g = l1 ++ l2 /\ chain (wnext g) c l2 /\ p = lastOf l1 /\ In t l2;
  w_FW : forall t i c, at_ g t = FW i c -> exists l1 l2, wq g = l1 ++ l2 /\ chain (wnext g) c l2;
  w_doze : forall t, dozy (at_ g t) = true -> In t (wq g) \/ exists v b, at_ g v = N2 b t;
  w_N2 : forall v b u, at_ g v = N2 b u -> ~ In u (wq g) /\ inW (at_ g u) = true
}.

Lemma v_init : inv start.
Proof.
  split; cbn; intros; try discriminate; try tauto; auto.
  - split; discriminate.
  - constructor; [auto|constructor].
  - destruct H as [<-|[]]. lia.
  - split; [discriminate|tauto].
  - constructor.
  - constructor.
  - split; [discriminate|tauto].
Qed.

Ltac ats := repeat match goal with E : at_ ?g _ = _ |- _ => rewrite E in * end.
Lemma wake_eq : forall p r, (forall a b, r <> SL a b) -> (forall d b, r <> WL d b) -> wakeUp p = r -> p = r.
Proof. intros p r N M. destruct p; cbn; try tauto; intros E; exfalso; [eapply N|eapply M]; eauto. Qed.
Lemma wk_ow : forall p h, ow (wakeUp p) h = ow p h. Proof. destruct p; auto. Qed.
Lemma wk_dep : forall p h, dep (wakeUp p) h = dep p h. Proof. destruct p; auto. Qed.
Lemma wk_h : forall p h, hOk (wakeUp p) h = hOk p h. Proof. destruct p; auto. Qed.
Lemma wk_inQ : forall p, inQ (wakeUp p) = inQ p. Proof. destruct p; auto. Qed.
Lemma wk_front : forall p, isFront (wakeUp p) = isFront p. Proof. destruct p; auto. Qed.
Lemma wk_inW : forall p, inW (wakeUp p) = inW p. Proof. destruct p; auto. Qed.
Lemma wk_commit : forall p, commit (wakeUp p) = true -> commit p = true. Proof. destruct p; cbn; auto; discriminate. Qed.
Lemma wk_dozy : forall p, dozy (wakeUp p) = true -> dozy p = true. Proof. destruct p; cbn; auto; discriminate. Qed.
Lemma wk_q : forall g t p, qOk g t (wakeUp p) = qOk g t p. Proof. destruct p; auto. Qed.

Ltac unf := unfold acquired, pollWait, appendWait, unlinkWait, signal, go, setOwner, setDepth, setHead, setTail, setNxt, newNode, setWait, setFlag, setIntr, setHeld, setRet in *;
  cbn [at_ owner depth ahead atail nxt val fresh whead wtail wnext wflag intr held ret aq old wq] in *.

Section Step.
Variables (g : glob) (t : nat) (g' : glob).
Hypothesis I : inv g.
Hypothesis S : step g t g'.

Lemma own_p : ow (at_ g t) (held g t) = true -> owner g = Some t /\ depth g = dep (at_ g t) (held g t).
Proof. intros H. pose proof (v_dep g I) as D. apply (v_ow g I) in H. rewrite H in D. auto. Qed.
Lemma own1 : forall a b, ow (at_ g a) (held g a) = true -> ow (at_ g b) (held g b) = true -> a = b.
Proof. intros a b A B. apply (v_ow g I) in A. apply (v_ow g I) in B. congruence. Qed.
Lemma own_o : at_ g t = Out -> owner g = Some t -> 0 < held g t /\ depth g = held g t.
Proof.
  intros E O. pose proof (v_dep g I) as D. rewrite O, E in D. apply (v_ow g I) in O. rewrite E in O. cbn in *. split; auto. apply Nat.ltb_lt; auto.
Qed.

(** the node behind the head *)
Lemma head_next : nxt g (ahead g) = hd_error (aq g).
Proof. apply chain_head with (nxt g). apply I. Qed.
Lemma front_hd : front g = hd_error (vals g).
Proof. unfold front, vals. rewrite head_next. destruct (aq g); auto. Qed.
Lemma next_in : forall x n, In x (ahead g :: aq g) -> nxt g x = Some n -> In n (aq g).
Proof.
  intros x n [<-|H] E. { rewrite head_next in E. destruct (aq g); cbn in *; [discriminate|]. left. congruence. }
  destruct (chain_next _ _ _ _ (v_chain g I) H) as [(A & _)|(y & A & B)]; congruence.
Qed.
Lemma head_old : ~ In (ahead g) (old g).
Proof. intros H. pose proof (v_nd g I) as D. apply NoDup_remove_2 in D. apply D. apply in_or_app. auto. Qed.
Lemma head_aq : ~ In (ahead g) (aq g).
Proof. intros H. pose proof (v_nd g I) as D. apply NoDup_remove_2 in D. apply D. apply in_or_app. auto. Qed.
Lemma last_linked : forall x, linked g x -> nxt g x = None -> aq g = [] /\ x = ahead g \/ lastOf (aq g) = Some x.
Proof.
  intros x L N. apply in_app_or in L. destruct L as [L|[<-|L]].
  - destruct (v_old g I x L N).
  - left. rewrite head_next in N. destruct (aq g); [auto|discriminate].
  - right. destruct (chain_next _ _ _ _ (v_chain g I) L) as [(_ & A)|(y & A & B)]; congruence.
Qed.
(** only a thread that is removing itself can move the head *)
Lemma rw_at : forall i p c, at_ g t = RW i p c -> exists c', c = Some c'.
Proof.
  intros i p c E. destruct (w_RW g I _ _ _ _ E) as (l1 & l2 & Q & C & P & N). destruct l2; [destruct N|]. cbn in C. destruct C as [-> _]. eauto.
Qed.
Lemma rw_t : forall i p, at_ g t = RW i p (Some t) -> exists l1 l2, wq g = l1 ++ t :: l2 /\ p = lastOf l1.
Proof.
  intros i p E. destruct (w_RW g I _ _ _ _ E) as (l1 & l2 & Q & C & P & N). destruct l2; [destruct N|]. cbn in C. destruct C as [[= <-] _]. eauto.
Qed.
Lemma notW : inW (at_ g t) = false -> ~ In t (wq g).
Proof. intros H J. apply (w_in g I) in J. congruence. Qed.
Lemma front_own : forall a, isFront (at_ g a) = true -> forall b, isFront (at_ g b) = true -> a = b.
Proof. intros a A b B. apply (v_front g I) in A. apply (v_front g I) in B. congruence. Qed.

Lemma res_none : forall k h, at_ g t = P3 k h h None -> ahead g = h -> kQ k = false.
Proof.
  intros k h E H. pose proof (v_q g I t) as Q. rewrite E in Q. cbn in Q. destruct (kQ k); auto. exfalso. apply Q; auto.
Qed.
Lemma res_some : forall k h x n, at_ g t = P3 k h x (Some n) -> ahead g = h -> hd_error (vals g) = Some (val g n) /\ hd_error (aq g) = Some n.
Proof.
  intros k h x n E H. pose proof (v_q g I t) as Q. rewrite E in Q. cbn in Q. destruct Q as (_ & _ & _ & Q & _).
  rewrite <- front_hd. unfold front. rewrite <- head_next. subst h. rewrite (Q n eq_refl). auto.
Qed.
Lemma res_P5 : forall k h n, at_ g t = P5 k h n -> exists a l, k = KRem a /\ val g n = t /\ aq g = n :: l /\ h = ahead g /\ In (atail g) (n :: l).
Proof.
  intros k h n E. pose proof (v_q g I t) as Q. pose proof (v_h g I t) as R. pose proof (v_front g I t) as F. pose proof (v_tail g I) as T.
  rewrite E in Q, R, F. cbn in Q, R, F. destruct Q as (Q & -> & Q'). destruct R as (_ & R). destruct k; try discriminate. specialize (F eq_refl).
  rewrite head_next in Q. unfold vals in F. destruct (aq g) as [|m l]; [discriminate|]. cbn in *. exists a, l.
  injection Q as ->. injection F as F. repeat split; auto. destruct T; [congruence|auto].
Qed.
Lemma no_bad : forall x, at_ g' x <> Bad.
Proof.
  assert (B : forall x, at_ g x <> Bad). { intros x E. pose proof (v_h g I x) as H. rewrite E in H. exact H. }
  intros x. pose proof (B x) as Bx. inversion S; subst; unf.
  all: try (destruct a; unf).
  all: up; auto; try discriminate; try congruence.
  all: try (intros E; apply wake_eq in E; try discriminate; congruence).
  all: try (destruct r; discriminate).
  all: try (destruct b; discriminate).
  - pose proof (res_none _ _ H eq_refl). destruct k as [| | |[]]; discriminate.
  - pose proof (v_q g I t) as Q. rewrite H in Q. cbn in Q. destruct Q as (_ & _ & _ & _ & Q & _). exfalso. apply Q; auto.
  - destruct k; cbn; try discriminate. destruct (Nat.eqb (val g n) t); discriminate.
  - destruct (res_P5 _ _ _ H) as (a & l & -> & -> & _). cbn. rewrite Nat.eqb_refl. discriminate.
  - exfalso. assert (N : ~ In t (wq g)) by (apply notW; rewrite H; auto). destruct H0 as [H0|H0].
    + apply (w_flag g I) in H0. auto.
    + apply H0. apply (w_next g I). auto.
  - destruct (rw_at _ _ _ H). discriminate.
  - destruct (rw_t _ _ H) as (l1 & l2 & Q & P). symmetry in P. apply lastOf_nil in P. subst. pose proof (w_chain g I) as C. rewrite Q in C. cbn in C. tauto.
  - destruct (w_FW g I _ _ _ H) as (l1 & l2 & Q & C). exfalso. apply notW. { rewrite H. auto. }
    rewrite Q. destruct l2; cbn in C; [discriminate|]. destruct C as [[= <-] _]. apply in_or_app. cbn. auto.
Qed.

Lemma ow_step : forall x, ow (at_ g' x) (held g' x) = true <-> owner g' = Some x.
Proof.
  intros x. pose proof (v_ow g I x) as X. pose proof (v_ow g I t) as Xt. pose proof (no_bad x) as NB. pose proof (v_h g I x) as Hx.
  inversion S; subst.
  all: try (destruct (res_P5 _ _ _ H) as (? & ? & -> & -> & _)).
  all: try (pose proof (res_none _ _ H eq_refl)).
  all: try (destruct a); try (destruct k as [[]|[]|[]|[]]); try (destruct r); try (destruct b); unf.
  all: up; rewrite ?wk_ow; ats; cbn in *; rewrite ?Nat.eqb_refl in *; cbn in *; auto; try tauto; try congruence.
  all: try (split; congruence).
  all: try (rewrite X; assert (owner g = Some t) by tauto; split; congruence).
  all: try (rewrite X; split; congruence).
  all: try match goal with |- context [Nat.eqb ?a ?b] => destruct (Nat.eqb a b); cbn; tauto end.
  all: try match goal with E : at_ g t = Out, O : owner g = Some t |- _ => destruct (own_o E O) end.
  all: try (destruct (held g t) as [|[|]]; cbn in *; try lia; tauto).
Qed.
Lemma dep_step : depth g' = match owner g' with Some t => dep (at_ g' t) (held g' t) | None => 0 end.
Proof.
  pose proof (v_dep g I) as D. pose proof (v_ow g I t) as Xt. pose proof (no_bad t) as NB. pose proof (v_h g I t) as Ht.
  inversion S; subst.
  all: try (destruct (res_P5 _ _ _ H) as (? & ? & -> & -> & _)).
  all: try (pose proof (res_none _ _ H eq_refl)).
  all: try (destruct a); try (destruct k as [[]|[]|[]|[]]); try (destruct r); try (destruct b); unf.
  all: try match goal with E : at_ g t = Out, O : owner g = Some t |- _ => destruct (own_o E O) end.
  all: try (ats; cbn in Xt; assert (O : owner g = Some t) by tauto; rewrite O in D |- *).
  all: try match goal with |- context [match owner g with _ => _ end] => destruct (owner g) as [w|] eqn:O; [|lia] end.
  all: up; rewrite ?wk_dep; ats; cbn in *; rewrite ?Nat.eqb_refl in *; cbn in *; auto; try tauto; try congruence; try lia.
  all: try (exfalso; destruct Xt as [_ Z]; specialize (Z ltac:(congruence)); discriminate).
  all: try (rewrite H0 in D; lia).
  all: rewrite (proj1 Xt eq_refl), H in D; auto.
Qed.
Lemma h_step : forall x, hOk (at_ g' x) (held g' x).
Proof.
  intros x. pose proof (v_ow g I x) as X. pose proof (no_bad x) as NB. pose proof (v_h g I x) as Hx. pose proof (v_dep g I) as D.
  inversion S; subst.
  all: try (destruct (res_P5 _ _ _ H) as (? & ? & -> & -> & _)).
  all: try (pose proof (res_none _ _ H eq_refl)).
  all: try (destruct a); try (destruct k as [[]|[]|[]|[]]); try (destruct r); try (destruct b); unf.
  all: try match goal with E : at_ g t = Out, O : owner g = Some t |- _ => destruct (own_o E O) end.
  all: up; rewrite ?wk_h; ats; cbn in *; rewrite ?Nat.eqb_refl in *; cbn in *; auto; try tauto; try congruence; try lia.
  - destruct (held g t); tauto.
  - destruct (Nat.eqb (val g n) t); auto.
  - destruct (Nat.eqb (val g n) t); auto.
  - rewrite (proj1 X eq_refl), H in D. auto.
Qed.
Lemma tail_next : forall x n, atail g = x -> nxt g x = Some n -> In n (ahead g :: aq g).
Proof. intros x n <- E. right. eapply next_in; eauto. apply I. Qed.
Lemma queue_step : NoDup (old g' ++ ahead g' :: aq g') /\ chain (nxt g') (nxt g' (ahead g')) (aq g') /\
  (forall x, In x (old g') -> nxt g' x <> None) /\ In (atail g') (ahead g' :: aq g') /\ (forall x, linked g' x -> x < fresh g').
Proof.
  pose proof (v_nd g I) as D. pose proof (v_chain g I) as C. pose proof (v_old g I) as O. pose proof (v_tail g I) as T.
  pose proof (v_fresh g I) as F. pose proof (v_q g I t) as Q.
  inversion S; subst.
  all: try (destruct a; unf; auto; fail). all: unf; auto 6.
  - (* new node *)
    assert (L : forall y, linked g y -> upd (nxt g) (fresh g) None y = nxt g y).
    { intros y Hy. apply F in Hy. unfold upd. destruct (Nat.eqb_spec y (fresh g)); auto. lia. }
    split; [auto|]. split; [|split; [|split; [auto|]]].
    + rewrite L by (apply in_or_app; cbn; auto). apply chain_ext with (nxt g); auto. intros y Hy. rewrite L; auto. apply in_or_app. cbn. auto.
    + intros y Hy. rewrite L; auto. apply in_or_app. auto.
    + intros y Hy. apply F in Hy. lia.
  - (* help *) rewrite H in Q. destruct Q as (_ & Q). repeat split; auto. eapply tail_next; eauto.
  - (* link *)
    rewrite H in Q. destruct Q as ((V & Lf & NL & N0) & LX).
    assert (Nah : nd <> ahead g) by (intros ->; apply NL, in_or_app; cbn; auto).
    assert (Naq : ~ In nd (aq g)) by (intros Y; apply NL, in_or_app; cbn; auto).
    split; [|split; [|split; [|split]]].
    + replace (old g ++ ahead g :: aq g ++ [nd]) with ((old g ++ ahead g :: aq g) ++ [nd]) by (rewrite <- app_assoc; auto).
      apply nodup_snoc; auto.
    + destruct (last_linked x LX H0) as [(E & ->)|L].
      * rewrite E. cbn. unfold upd. rewrite Nat.eqb_refl. apply Nat.eqb_neq in Nah. rewrite Nah. auto.
      * assert (Dq : NoDup (aq g)). { apply NoDup_remove_1 in D. apply nodup_app_r in D. auto. }
        pose proof (chain_snoc _ _ _ nd Naq Dq N0 C) as Y. rewrite L in Y. apply lastOf_In in L.
        unfold upd at 2. destruct (Nat.eqb_spec (ahead g) x) as [<-|]. { destruct (head_aq L). }
        destruct (aq g); [destruct L|]. exact Y.
    + intros y Hy. unfold upd. destruct (Nat.eqb y x); [discriminate|auto].
    + destruct T as [T|T]; [left; auto|right; apply in_or_app; auto].
    + intros y Hy. unfold linked in Hy. cbn in Hy. apply in_app_or in Hy. destruct Hy as [Hy|[Hy|Hy]].
      * apply F, in_or_app; auto. * apply F, in_or_app; cbn; auto.
      * apply in_app_or in Hy. destruct Hy as [Hy|[<-|[]]]; auto. apply F, in_or_app; cbn; auto.
  - rewrite H in Q. cbn in Q. repeat split; auto. eapply tail_next; eauto.
  - rewrite H in Q. cbn in Q. repeat split; auto. eapply tail_next; eauto.
  - (* move the head *)
    destruct (res_P5 _ _ _ H) as (a & l & -> & -> & E & _ & ET). rewrite H in Q. destruct Q as (Q & _ & _). rewrite E in *. cbn in *.
    split; [|split; [|split; [|split]]].
    + rewrite <- app_assoc. auto.
    + rewrite Q in C. tauto.
    + intros y Hy. apply in_app_or in Hy. destruct Hy as [Hy|[<-|[]]]; auto. congruence.
    + auto.
    + intros y Hy. apply F. unfold linked in *. cbn in *. rewrite <- app_assoc in Hy. rewrite E. auto.
Qed.
Lemma fr_step : forall x, fresh g' <= x -> nxt g' x = None.
Proof.
  intros y. pose proof (v_fr g I y) as F. pose proof (v_q g I t) as Q.
  inversion S; subst; try (destruct a; unf; auto; fail); unf; auto.
  - intros L. unfold upd. destruct (Nat.eqb y (fresh g)); auto. apply F. lia.
  - intros L. unfold upd. destruct (Nat.eqb_spec y x); auto. subst. exfalso. rewrite H in Q. destruct Q as (_ & Q). apply (v_fresh g I) in Q. lia.
Qed.
Lemma linked_head : linked g (ahead g).
Proof. apply in_or_app. cbn. auto. Qed.
Lemma mono : 
  (forall h, seen g h -> seen g' h) /\ (forall h, seen g h -> h = ahead g' -> h = ahead g) /\ (ahead g' = ahead g -> incl (aq g) (aq g')) /\
  (forall y m, nxt g y = Some m -> nxt g' y = Some m) /\ (ahead g' = ahead g -> atail g <> ahead g -> atail g' <> ahead g') /\
  (forall y, linked g y -> linked g' y) /\ (forall x nd, x <> t -> nodeOk g x nd -> nodeOk g' x nd) /\
  (forall x, x <> t -> isFront (at_ g x) = true -> ahead g' = ahead g).
Proof.
  pose proof (v_q g I t) as Q. pose proof (v_fr g I) as FR.
  assert (TN : forall x n, atail g = x -> nxt g x = Some n -> n <> ahead g).
  { intros x n E N ->. eapply head_aq. eapply next_in; eauto. rewrite <- E. apply I. }
  inversion S; subst; try (destruct a; unf; unfold seen, linked, nodeOk; cbn; repeat split; auto using incl_refl; try tauto; fail);
  unf; unfold seen, linked, nodeOk; cbn; try (repeat split; auto using incl_refl; tauto).
  - (* new node *)
    repeat split; auto using incl_refl; try tauto.
    + intros y m E. unfold upd. destruct (Nat.eqb_spec y (fresh g)); auto. subst. rewrite FR in E; [discriminate|lia].
    + unfold upd. destruct (Nat.eqb_spec nd (fresh g)); [lia|tauto].
    + lia.
    + unfold upd. destruct (Nat.eqb_spec nd (fresh g)); [lia|tauto].
  - rewrite H in Q. destruct Q as (_ & Q). repeat split; auto using incl_refl; try tauto. intros _ _. eapply TN; eauto.
  - rewrite H in Q. destruct Q as (Q & LX). repeat split; auto; try tauto.
    + intros _ y Hy. apply in_or_app. auto.
    + intros y m E. unfold upd. destruct (Nat.eqb_spec y x); auto. congruence.
    + intros y Hy. apply in_app_or in Hy. apply in_or_app. cbn in *. rewrite in_app_iff. tauto.
    + destruct H2 as (V & L & NL & NN). intros Y. apply NL. unfold linked. rewrite in_app_iff in *. cbn in *. rewrite in_app_iff in Y. cbn in Y.
      destruct Y as [Y|[Y|[Y|[Y|[]]]]]; auto. subst nd0. destruct Q as (Q & _). congruence.
    + destruct H2 as (V & L & NL & NN). unfold upd. destruct (Nat.eqb_spec nd0 x); auto. subst. contradiction.
  - rewrite H in Q. cbn in Q. repeat split; auto using incl_refl; try tauto. intros _ _. eapply TN; eauto.
  - rewrite H in Q. cbn in Q. repeat split; auto using incl_refl; try tauto. intros _ _. eapply TN; eauto.
  - destruct (res_P5 _ _ _ H) as (a & l & -> & _ & E & _ & ET). rewrite E in *. cbn in *.
    assert (NE : n <> ahead g) by (intros X; rewrite X in *; apply head_aq; rewrite E; cbn; auto).
    repeat split; try tauto.
    + intros h [Hh| ->]; left; apply in_or_app; cbn; auto.
    + intros h [Hh| ->] ->; auto. exfalso. pose proof (v_nd g I) as D. rewrite E in D. 
      apply NoDup_remove_1 in D. apply NoDup_remove_2 in D. apply D. apply in_or_app. auto.
    + intros y Hy. rewrite <- app_assoc. auto.
    + rewrite <- app_assoc. cbn. unfold linked in *. rewrite ?E in *. tauto.
    + intros x Nx Fx. exfalso. apply Nx. apply front_own; auto. rewrite H. auto.
Qed.
Lemma q_other : forall x p, x <> t -> (p = at_ g x) -> qOk g' x p.
Proof.
  intros x p N ->. destruct mono as (M1 & M2 & M3 & M4 & M5 & M6 & M7 & M8). pose proof (v_q g I x) as Q. pose proof (M8 x N) as M8'.
  destruct (at_ g x) eqn:E; cbn in *; auto; try (intuition auto; fail).
  - destruct Q as (A & B & C). split; [auto|split].
    + intros Hh. pose proof (M2 _ A Hh) as E2. destruct (B E2) as [<-|]; [left; congruence|]. right. apply M3; auto. congruence.
    + intros Hh Nx. pose proof (M2 _ A Hh) as E2. rewrite Hh. apply M5; [congruence|]. rewrite <- E2. apply C; auto.
  - destruct Q as (A & B & C & D & F & K). split; [auto|split; [|split; [|split; [|split]]]]; auto.
    + intros Hh. pose proof (M2 _ A Hh) as E2. destruct (B E2) as [<-|]; [left; congruence|]. right. apply M3; auto. congruence.
    + intros Hh Nx. pose proof (M2 _ A Hh) as E2. rewrite Hh. apply M5; [congruence|]. rewrite <- E2. apply C; auto.
  - pose proof (v_h g I x) as Hx. rewrite E in Hx. destruct Hx as (_ & Hx). destruct k; try discriminate. cbn in M8'. specialize (M8' eq_refl).
    destruct Q as (A & -> & B). rewrite M8'. repeat split; auto. rewrite <- M8'. apply M5; auto.
Qed.
Lemma at_other : forall x, x <> t -> at_ g' x = at_ g x \/ at_ g' x = wakeUp (at_ g x).
Proof.
  intros x N. inversion S; subst; try (destruct a; unf; up; auto; congruence); unf; up; auto; congruence.
Qed.
Lemma qOk_step : forall x, qOk g' x (at_ g' x).
Proof.
  intros x. destruct (Nat.eq_dec x t) as [->|N].
  2:{ destruct (at_other x N) as [-> | ->]; rewrite ?wk_q; apply q_other; auto. }
  pose proof (v_q g I t) as Q. pose proof (v_inq g I t) as J. pose proof mono as (M1 & M2 & M3 & M4 & M5 & M6 & M7 & M8).
  pose proof (v_tail g I) as T. pose proof head_next as HN.
  inversion S; subst.
  all: try (destruct (res_P5 _ _ _ H) as (? & ? & -> & -> & _)).
  all: try (pose proof (res_none _ _ H eq_refl)).
  all: try (destruct a); try (destruct r); try (destruct b); unf.
  all: up; rewrite ?wk_q; ats; cbn in *; rewrite ?Nat.eqb_refl in *; cbn in *; auto; try tauto; try congruence.
  all: try (destruct Q as (Q1 & Q2 & Q3); split; auto; fail).
  1,2: unfold nodeOk, linked; cbn; rewrite !Nat.eqb_refl; repeat split; auto; intros Y; apply (v_fresh g I) in Y; lia.
  1,2: split; auto; apply in_or_app; auto.
  - right. auto.
  - destruct Q as (A & B & C). split; [auto|]. repeat split; auto.
    + intros -> Nx. destruct (B eq_refl) as [|Y]; [congruence|]. rewrite HN. destruct (aq g); [destruct Y|discriminate].
    + intros -> K. rewrite HN. unfold vals in J. rewrite K in J. destruct (aq g); [|discriminate]. cbn in J. tauto.
  - apply Q. auto.
  - destruct k as [| | |[]]; cbn in *; auto; discriminate.
  - destruct k as [| | |[]]; cbn; auto; [|discriminate]. destruct (Nat.eqb (val g n) t); cbn; auto.
  - destruct Q as (A & B & C & D & E & F). repeat split; auto.
Qed.
Lemma vals_step : vals g' = vals g /\ inQ (at_ g' t) = inQ (at_ g t) \/
  vals g' = vals g ++ [t] /\ inQ (at_ g t) = false /\ inQ (at_ g' t) = true /\ commit (at_ g' t) = false \/
  vals g = t :: vals g' /\ inQ (at_ g t) = true /\ inQ (at_ g' t) = false /\ isFront (at_ g t) = true /\ ow (at_ g t) (held g t) = true.
Proof.
  pose proof (v_q g I t) as Q. pose proof (v_fresh g I) as F. pose proof (v_h g I t) as Hx. pose proof (no_bad t) as NB.
  assert (E : map (upd (val g) (fresh g) t) (aq g) = map (val g) (aq g)).
  { apply map_ext_in. intros y Y. unfold upd. destruct (Nat.eqb_spec y (fresh g)); auto. subst. assert (linked g (fresh g)) as Z by (apply in_or_app; cbn; auto). apply F in Z. lia. }
  inversion S; subst.
  all: try (destruct (res_P5 _ _ _ H) as (? & ? & -> & V & X & _ & _)).
  all: try (pose proof (res_none _ _ H eq_refl)).
  all: try (destruct a); try (destruct k as [[]|[]|[]|[]]); try (destruct r); try (destruct b); unfold vals in *; unf; rewrite ?E.
  all: up; rewrite ?wk_inQ; ats; cbn in *; rewrite ?Nat.eqb_refl in *; cbn in *; auto; try tauto; try congruence.
  all: try (right; left; rewrite map_app; cbn; repeat split; auto; f_equal; f_equal; apply Q).
  all: try (right; right; rewrite X, V, Nat.eqb_refl; cbn; rewrite V; auto; fail).
  all: try (right; right; rewrite X; cbn; auto; fail).
  all: left; split; auto; up; auto; congruence.
Qed.
Lemma inq_other : forall x, x <> t -> inQ (at_ g' x) = inQ (at_ g x).
Proof. intros x N. destruct (at_other x N) as [-> | ->]; rewrite ?wk_inQ; auto. Qed.
Lemma inq_step : forall x, inQ (at_ g' x) = true <-> In x (vals g').
Proof.
  intros x. pose proof (v_inq g I x) as J. pose proof (v_ndv g I) as D.
  destruct (Nat.eq_dec x t) as [->|N].
  - destruct vals_step as [(-> & ->)|[(-> & A & -> & _)|(A & B & -> & _)]]; auto.
    + rewrite in_app_iff. cbn. tauto.
    + rewrite A in D. inversion D; subst. split; [discriminate|tauto].
  - rewrite inq_other by auto. destruct vals_step as [(-> & _)|[(-> & _)|(A & _)]]; auto.
    + rewrite in_app_iff. cbn. intuition congruence.
    + rewrite A in J. cbn in J. intuition congruence.
Qed.
Lemma ndv_step : NoDup (vals g').
Proof.
  pose proof (v_ndv g I) as D. destruct vals_step as [(-> & _)|[(-> & A & B & _)|(A & _)]]; auto.
  - apply nodup_snoc; auto. rewrite <- (v_inq g I). congruence.
  - rewrite A in D. inversion D; auto.
Qed.
Lemma front_step : forall x, isFront (at_ g' x) = true -> hd_error (vals g') = Some x.
Proof.
  intros x F. destruct (Nat.eq_dec x t) as [->|N].
  2:{ assert (F0 : isFront (at_ g x) = true) by (destruct (at_other x N) as [E|E]; rewrite E, ?wk_front in F; auto).
      pose proof (v_front g I _ F0) as Y. destruct vals_step as [(-> & _)|[(-> & _)|(A & _ & _ & B & _)]]; auto.
      - destruct (vals g); cbn in *; auto. discriminate.
      - destruct N. apply front_own; auto. }
  pose proof (v_front g I t) as X. pose proof vals_step as V. pose proof (no_bad t) as NB.
  assert (V0 : isFront (at_ g t) = true -> hd_error (vals g') = Some t).
  { intros Y. specialize (X Y). destruct V as [(-> & _)|[(-> & _)|(A & _ & Z & _)]]; auto. { destruct (vals g); cbn in *; auto; discriminate. }
    destruct (at_ g' t); try discriminate; destruct k; discriminate. }
  inversion S; subst.
  all: try (destruct (res_P5 _ _ _ H) as (? & ? & -> & -> & _)).
  all: try (pose proof (res_none _ _ H eq_refl)).
  all: try (destruct a); try (destruct k as [[]|[]|[]|[]]); try (destruct r); try (destruct b); unf.
  all: up; rewrite ?wk_front in *; ats; cbn in *; rewrite ?Nat.eqb_refl in *; cbn in *; auto; try tauto; try discriminate.
  all: destruct (Nat.eqb_spec (val g n) t); [|discriminate]; transitivity (Some (val g n)); [apply (res_some _ _ _ _ H eq_refl)|congruence].
Qed.
Lemma owner_step : owner g' = None -> owner g = None \/ exists r, at_ g' t = P0 (KRel r).
Proof.
  inversion S; subst; try (destruct a; unf; auto; fail); unf; auto; try discriminate.
  intros _. right. exists r. up; congruence.
Qed.
Lemma commit_step : forall u, commit (at_ g' u) = true -> hd_error (vals g') = Some u -> owner g' = None ->
  (exists r, prom g' r u) \/ (commit (at_ g u) = true /\ hd_error (vals g) = Some u /\ owner g = None).
Proof.
  intros u C Hd O. destruct (owner_step O) as [O0|(r & E)]. 2:{ left. exists t. unfold prom. rewrite E. auto. }
  right. assert (V : hd_error (vals g) = Some u).
  { destruct vals_step as [(<- & _)|[(E & A & B & X)|(A & _ & _ & _ & W)]]; auto.
    - destruct (vals g) as [|v l]; rewrite E in Hd; cbn in *; congruence.
    - apply (v_ow g I) in W. congruence. }
  split; auto. destruct (Nat.eq_dec u t) as [->|N].
  2:{ destruct (at_other u N) as [E|E]; rewrite E in C; auto. apply wk_commit. auto. }
  pose proof (no_bad t) as NB.
  inversion S; subst.
  all: try (destruct (res_P5 _ _ _ H) as (? & ? & -> & -> & _)).
  all: try (pose proof (res_none _ _ H eq_refl)).
  all: try (destruct a); try (destruct k as [[]|[]|[]|[]]); try (destruct r); try (destruct b); unf.
  all: up; ats; cbn in *; rewrite ?Nat.eqb_refl in *; cbn in *; auto; try tauto; try discriminate.
  all: try (destruct (res_some _ _ _ _ H eq_refl) as (Y & _); destruct (Nat.eqb_spec (val g n) t); cbn in C; congruence).
  all: destruct (res_P5 _ _ _ H) as (? & ? & X & _); try discriminate; destruct (Nat.eqb (val g n) t); discriminate.
Qed.
Lemma prom_step : forall r u, prom g r u -> commit (at_ g' u) = true -> hd_error (vals g) = Some u -> prom g' r u.
Proof.
  intros r u P C Hd. assert (HN : aq g <> []) by (unfold vals in Hd; destruct (aq g); discriminate).
  pose proof head_next as HX. pose proof (v_q g I r) as Q. pose proof (v_h g I r) as Hh. destruct mono as (_ & M2 & _).
  unfold prom in P. destruct (Nat.eq_dec r t) as [->|N].
  2:{ unfold prom. destruct (at_other r N) as [E|E]; rewrite E; destruct (at_ g r) eqn:Er; cbn in *; auto; destruct k; auto;
      destruct P as [P|P]; auto; left; intros Y; apply P, M2; tauto. }
  unfold prom. inversion S; subst.
  all: try (destruct (res_P5 _ _ _ H) as (? & ? & -> & -> & _)).
  all: ats; cbn in *; try tauto; try congruence.
  all: unf.
  all: up; ats; cbn in *; try tauto; try congruence.
  all: try (destruct k; cbn in *; tauto).
  - destruct k; auto. destruct (Nat.eq_dec h (ahead g)) as [->|]; auto. right. rewrite HX. destruct (aq g); [congruence|discriminate].
  - destruct k; try tauto. destruct (res_some _ _ _ _ H eq_refl) as (Y & _). cbn. congruence.
  - destruct k; try tauto. destruct (res_some _ _ _ _ H eq_refl) as (Y & _). cbn. congruence.
  - destruct k; try discriminate; tauto.
  - destruct r; discriminate.
  - destruct H0; [|congruence]. destruct (at_ g u); cbn in *; discriminate.
Qed.
Lemma promise_step : forall u, commit (at_ g' u) = true -> hd_error (vals g') = Some u -> owner g' = None -> exists r, prom g' r u.
Proof.
  intros u C Hd O. destruct (commit_step u C Hd O) as [?|(C0 & Hd0 & O0)]; auto.
  destruct (v_25 g I u C0 Hd0 O0) as (r & P). exists r. apply prom_step; auto.
Qed.

(** the wait list *)
Lemma wsame : ow (at_ g t) (held g t) = false -> whead g' = whead g /\ wtail g' = wtail g /\ wnext g' = wnext g /\ wflag g' = wflag g /\ wq g' = wq g.
Proof.
  intros W. inversion S; subst; try (destruct a; unf; auto 6; fail); unf; auto 6; exfalso; rewrite H in W; cbn in W; try discriminate.
  destruct (own_o H H0). destruct (held g t); [lia|discriminate].
Qed.
Lemma wlist_step : chain (wnext g') (whead g') (wq g') /\ wtail g' = lastOf (wq g') /\ NoDup (wq g') /\
  (forall x, wflag g' x = true <-> In x (wq g')) /\ (forall x, ~ In x (wq g') -> wnext g' x = None).
Proof.
  pose proof (w_chain g I) as C. pose proof (w_last g I) as L. pose proof (w_nd g I) as D. pose proof (w_flag g I) as F. pose proof (w_next g I) as N.
  assert (P : forall u, whead g = Some u -> let g2 := pollWait g u in
    chain (wnext g2) (whead g2) (wq g2) /\ wtail g2 = lastOf (wq g2) /\ NoDup (wq g2) /\
    (forall x, wflag g2 x = true <-> In x (wq g2)) /\ (forall x, ~ In x (wq g2) -> wnext g2 x = None)).
  { intros u Hu. destruct (pop_ok _ _ _ _ _ D C L Hu) as (l & E & Nu & C' & L' & D'). unf. rewrite E in *. cbn [tl].
    repeat split; auto.
    - apply chain_ext with (wnext g); auto. intros x Hx. up; auto; contradiction.
    - intros Y. up; [discriminate|]. apply F in Y. destruct Y; [congruence|auto].
    - intros Y. up; [contradiction|]. apply F. cbn. auto.
    - intros x Y. up; auto. apply N. cbn. intuition congruence. }
  inversion S; subst; try (destruct a; unf; auto 6; fail); try (unf; auto 6; fail).
  - (* append *)
    assert (Nt : ~ In t (wq g)) by (rewrite <- F; congruence). unf.
    destruct (append_ok _ _ _ _ _ Nt D H1 C L) as (A & B & E). repeat split; auto.
    + intros Y. up; apply in_or_app; cbn; auto. left. apply F. auto.
    + intros Y. apply in_app_or in Y. up; auto. apply F. destruct Y as [|[|[]]]; [auto|congruence].
    + intros x Nx. rewrite in_app_iff in Nx. cbn in Nx.
      destruct (wtail g) as [l|] eqn:El; [|apply N; tauto]. symmetry in L. apply lastOf_In in L. up; [tauto|apply N; tauto].
  - (* unlink *)
    destruct (rw_t _ _ H) as (l1 & l2 & E & ->). unf.
    destruct (unlink_ok _ _ _ _ _ _ _ E D C L) as (A & B & X). repeat split; auto.
    + intros Y. up; [discriminate|]. apply in_in_remove; auto. apply F. auto.
    + intros Y. apply in_remove in Y. destruct Y as (Y & Z). up; [contradiction|]. apply F. auto.
    + intros x Nx. unfold upd at 1. destruct (Nat.eqb_spec x t); auto.
      assert (Nw : ~ In x (wq g)) by (intros Y; apply Nx, in_in_remove; auto).
      destruct (eqo (whead g) (Some t)); auto. destruct (lastOf l1) as [y|] eqn:El; auto. unfold upd. destruct (Nat.eqb_spec x y); auto.
      subst. exfalso. apply Nw. rewrite E. apply in_or_app. left. apply lastOf_In. auto.
Qed.
Lemma inW_other : forall x, x <> t -> inW (at_ g' x) = inW (at_ g x).
Proof. intros x N. destruct (at_other x N) as [-> | ->]; rewrite ?wk_inW; auto. Qed.
Lemma inW_keep : inW (at_ g t) = true -> inW (at_ g' t) = true \/ ~ In t (wq g') /\ ow (at_ g t) (held g t) = true.
Proof.
  intros W. pose proof (no_bad t) as NB. pose proof (w_flag g I t) as F. inversion S; subst.
  all: try (destruct (res_P5 _ _ _ H) as (? & ? & -> & -> & _)).
  all: try (pose proof (res_none _ _ H eq_refl)).
  all: try (destruct a); try (destruct k as [[]|[]|[]|[]]); try (destruct r); try (destruct b); unf.
  all: up; ats; cbn in *; rewrite ?Nat.eqb_refl in *; cbn in *; auto; try tauto; try discriminate.
  all: try (destruct (Nat.eqb (val g n) t); cbn; auto; fail).
  - right. rewrite <- F. split; congruence.
  - right. split; auto. apply remove_In.
Qed.
Lemma wq_step : wq g' = wq g \/ (wq g' = wq g ++ [t] /\ at_ g t = W2 /\ at_ g' t = W3) \/
  (wq g' = remove Nat.eq_dec t (wq g) /\ at_ g' t = Out /\ exists i p c, at_ g t = RW i p c) \/
  (exists u b, wq g = u :: wq g' /\ whead g = Some u /\ at_ g' t = N2 b u /\ inW (at_ g t) = false).
Proof.
  pose proof (w_chain g I) as C.
  inversion S; subst; try (destruct a; unf; auto; fail); try (unf; auto; fail).
  - right. left. unf. up; try congruence. auto.
  - right. right. left. unf. up; try congruence. eauto 6.
  - right. right. right. unf. destruct (wq g); cbn in C; [congruence|]. exists u, false. destruct C as [C _]. rewrite H, C in *. up; try congruence. injection H1 as ->. auto.
  - right. right. right. unf. destruct (wq g); cbn in C; [congruence|]. exists u, true. destruct C as [C _]. rewrite H, C in *. up; try congruence. injection H0 as ->. auto.
Qed.
Lemma win_step : forall x, In x (wq g') -> inW (at_ g' x) = true.
Proof.
  intros x Hx. destruct (Nat.eq_dec x t) as [->|N].
  - destruct wq_step as [E|[(E & _ & ->)|[(E & _)|(u & b & E & _ & W & X)]]]; auto.
    + rewrite E in Hx. destruct inW_keep as [|(Y & _)]; auto. { apply (w_in g I); auto. } rewrite E in Y. contradiction.
    + rewrite E in Hx. destruct (remove_In Nat.eq_dec (wq g) t Hx).
    + assert (Y : inW (at_ g t) = true) by (apply (w_in g I); rewrite E; cbn; auto). congruence.
  - rewrite inW_other by auto. apply (w_in g I). destruct wq_step as [E|[(E & _)|[(E & _)|(u & b & E & _)]]].
    + congruence.
    + rewrite E in Hx. apply in_app_or in Hx. destruct Hx as [|[|[]]]; congruence.
    + rewrite E in Hx. apply in_remove in Hx. tauto.
    + rewrite E. cbn. auto.
Qed.
Lemma own_other : forall x, x <> t -> ow (at_ g x) (held g x) = true -> ow (at_ g t) (held g t) = false.
Proof. intros x N O. destruct (ow (at_ g t) (held g t)) eqn:E; auto. destruct N. apply own1; auto. Qed.
Lemma at_eq : forall x r, x <> t -> (forall a b, r <> SL a b) -> (forall d b, r <> WL d b) -> at_ g' x = r -> at_ g x = r.
Proof. intros x r N A B E. destruct (at_other x N) as [X|X]; rewrite X in E; auto. apply wake_eq in E; auto. Qed.
Lemma rw_step : forall x i p c, at_ g' x = RW i p c -> exists l1 l2, wq g' = l1 ++ l2 /\ chain (wnext g') c l2 /\ p = lastOf l1 /\ In x l2.
Proof.
  intros x i p c E. destruct (Nat.eq_dec x t) as [->|N].
  2:{ apply at_eq in E; try discriminate; auto. destruct wsame as (_ & _ & -> & _ & ->). { apply own_other with x; auto. rewrite E. auto. }
      eapply w_RW; eauto. }
  pose proof (no_bad t) as NB. inversion S; subst.
  all: try (destruct (res_P5 _ _ _ H) as (? & ? & -> & -> & _)).
  all: try (destruct a); try (destruct k as [[]|[]|[]|[]]); try (destruct r); try (destruct b); unf.
  all: up; ats; cbn in *; rewrite ?Nat.eqb_refl in *; cbn in *; try tauto; try discriminate.
  all: try (destruct (Nat.eqb (val g n) t); discriminate).
  - injection E as <- <- <-. exists [], (wq g). repeat split; auto. apply I. apply (w_flag g I). auto.
  - injection E as <- <- <-. destruct (w_RW g I _ _ _ _ H) as (l1 & l2 & A & B & C & D). destruct l2 as [|y l2]; [destruct D|].
    destruct B as [[= <-] B]. exists (l1 ++ [c0]), l2. rewrite <- app_assoc, lastOf_snoc. repeat split; auto. destruct D; [congruence|auto].
Qed.
Lemma fw_step : forall x i c, at_ g' x = FW i c -> exists l1 l2, wq g' = l1 ++ l2 /\ chain (wnext g') c l2.
Proof.
  intros x i c E. destruct (Nat.eq_dec x t) as [->|N].
  2:{ apply at_eq in E; try discriminate; auto. destruct wsame as (_ & _ & -> & _ & ->). { apply own_other with x; auto. rewrite E. auto. }
      eapply w_FW; eauto. }
  pose proof (no_bad t) as NB. inversion S; subst.
  all: try (destruct (res_P5 _ _ _ H) as (? & ? & -> & -> & _)).
  all: try (destruct a); try (destruct k as [[]|[]|[]|[]]); try (destruct r); try (destruct b); unf.
  all: up; ats; cbn in *; rewrite ?Nat.eqb_refl in *; cbn in *; try tauto; try discriminate.
  all: try (destruct (Nat.eqb (val g n) t); discriminate).
  - injection E as <- <-. exists [], (wq g). split; auto. apply I.
  - injection E as <- <-. destruct (w_FW g I _ _ _ H) as (l1 & l2 & A & B). destruct l2 as [|y l2]; [discriminate|].
    destruct B as [[= <-] B]. exists (l1 ++ [c0]), l2. rewrite <- app_assoc. auto.
Qed.
Lemma n2_step : forall v b u, at_ g' v = N2 b u -> ~ In u (wq g') /\ inW (at_ g' u) = true.
Proof.
  intros v b u E. destruct (Nat.eq_dec v t) as [->|N].
  - assert (X : whead g = Some u /\ wq g' = tl (wq g) /\ inW (at_ g t) = false).
    { inversion S; subst.
      all: try (destruct (res_P5 _ _ _ H) as (? & ? & -> & -> & _)).
      all: try (pose proof (res_none _ _ H eq_refl)).
      all: try (destruct a); try (destruct k as [[]|[]|[]|[]]); try (destruct r); try (destruct b); unf.
      all: up; ats; cbn in *; rewrite ?Nat.eqb_refl in *; cbn in *; try tauto; try discriminate.
      all: try (destruct (Nat.eqb (val g n) t); discriminate).
      all: try (destruct b0; discriminate).
      all: injection E as <-; auto. }
    destruct X as (A & B & C). pose proof (w_chain g I) as W. pose proof (w_nd g I) as D. rewrite B. destruct (wq g) as [|y l] eqn:El; cbn in *; [congruence|].
    destruct W as [W _]. assert (y = u) by congruence. subst y. inversion D; subst. split; auto.
    assert (Y : inW (at_ g u) = true) by (apply (w_in g I); rewrite El; cbn; auto). rewrite inW_other; auto. congruence.
  - apply at_eq in E; try discriminate; auto. assert (O : ow (at_ g t) (held g t) = false). { apply own_other with v; auto. rewrite E. auto. }
    destruct (w_N2 g I _ _ _ E) as (A & B). destruct (wsame O) as (_ & _ & _ & _ & ->). split; auto.
    destruct (Nat.eq_dec u t) as [->|M]. { destruct inW_keep as [|(_ & Y)]; auto. congruence. } rewrite inW_other; auto.
Qed.
Lemma doze_step : forall x, dozy (at_ g' x) = true -> In x (wq g') \/ exists v b, at_ g' v = N2 b x.
Proof.
  intros x D. 
  assert (K : dozy (at_ g x) = true \/ In x (wq g')).
  { destruct (Nat.eq_dec x t) as [->|N]. 2:{ destruct (at_other x N) as [E|E]; rewrite E in D; auto. left. apply wk_dozy. auto. }
    pose proof (no_bad t) as NB. inversion S; subst.
    all: try (destruct (res_P5 _ _ _ H) as (? & ? & -> & -> & _)).
    all: try (pose proof (res_none _ _ H eq_refl)).
    all: try (destruct a); try (destruct k as [[]|[]|[]|[]]); try (destruct r); try (destruct b); unf.
    all: up; ats; cbn in *; rewrite ?Nat.eqb_refl in *; cbn in *; auto; try tauto; try discriminate.
    all: try (destruct (Nat.eqb (val g n) t); discriminate).
    right. apply in_or_app. cbn. auto. }
  destruct K as [K|]; auto. destruct (w_doze g I x K) as [J|(v & b & E)].
  - destruct wq_step as [W|[(W & _)|[(W & _ & i & p & c & E)|(u & b & W & _ & E & _)]]].
    + left. congruence.
    + left. rewrite W. apply in_or_app. auto.
    + left. rewrite W. apply in_in_remove; auto. intros ->. rewrite E in K. discriminate.
    + rewrite W in J. destruct J as [->|J]; eauto.
  - right. destruct (Nat.eq_dec v t) as [->|N]. 2:{ exists v, b. destruct (at_other v N) as [X|X]; rewrite X, E; auto. }
    exfalso. pose proof (w_N2 g I _ _ _ E) as (_ & W). inversion S; subst; rewrite E in *; try discriminate. injection H as <- <-.
    assert (x <> t) by (intros ->; rewrite E in W; discriminate). destruct H0 as [H0|]; [|congruence].
    unf. revert D. up; try congruence. destruct (at_ g x); try destruct k; try destruct r; cbn in *; try discriminate.
Qed.
Lemma inv_step : inv g'.
Proof.
  destruct queue_step as (A & B & C & D & E). destruct wlist_step as (F & G & K & L & M).
  split; first [exact ow_step|exact dep_step|exact h_step|exact A|exact B|exact C|exact D|exact E|exact fr_step|exact qOk_step|exact inq_step|exact ndv_step
    |exact front_step|exact promise_step|exact F|exact G|exact K|exact win_step|exact L|exact M|exact rw_step|exact fw_step|exact doze_step|exact n2_step].
Qed.
End Step.
Theorem inv_reach : forall g, reachable g -> inv g.
Proof. induction 1; [apply v_init|eapply inv_step; eauto]. Qed.

(** ** What the properties need *)
Lemma susp_ow : forall p h, hOk p h -> 0 < h -> ow p h = true \/ suspended p.
Proof.
  intros p h H L. apply Nat.ltb_lt in L as L'.
  destruct p; cbn in *; auto; try contradiction; try (destruct a; cbn in *; auto; lia); try (destruct r; cbn in *; auto; lia);
  try (destruct k as [[]|[]|[]|[]]; cbn in *; auto; lia).
Qed.
Lemma exclusion : forall g a b, reachable g -> inside g a -> inside g b -> a = b.
Proof.
  intros g a b R (A1 & A2) (B1 & B2). apply inv_reach in R.
  destruct (susp_ow _ _ (v_h g R a) A1); [|contradiction]. destruct (susp_ow _ _ (v_h g R b) B1); [|contradiction].
  eapply own1; eauto.
Qed.
Lemma ownership : forall g t, reachable g -> at_ g t = Out -> (owner g = Some t <-> 0 < held g t) /\ (0 < held g t -> depth g = held g t).
Proof.
  intros g t R E. apply inv_reach in R. pose proof (v_ow g R t) as O. pose proof (v_dep g R) as D. rewrite E in O. cbn [ow] in O. rewrite Nat.ltb_lt in O.
  split; [tauto|]. intros L. apply O in L. rewrite L, E in D. auto.
Qed.
Lemma held_changes : forall g t g' u, step g t g' -> held g' u <> held g u ->
  u = t /\ (at_ g t = Out /\ owner g = Some t /\ held g' t = pred (held g t) \/
            at_ g' t = Out /\ held g' t = S (held g t) /\ (at_ g t = T9 AEnter \/ at_ g t = L9 AEnter)).
Proof.
  intros g t g' u S N. inversion S; subst; try (destruct a); unf; try congruence; up; try congruence; split; auto.
Qed.
(** sleeping in the queue for the monitor *)
Section Wake.
Variables (u : nat) (a : akind).
Definition good g := inv g /\ at_ g u = SL a false /\ front g = Some u.
Definition wakes r g := exists g', alone r g g' /\ ~ asleep g' u.
Lemma wakes_step : forall r g g', step g r g' -> wakes r g' -> wakes r g.
Proof. intros r g g' S (g2 & A & B). exists g2. split; auto. econstructor; eauto. Qed.
Lemma good_step : forall r g g', good g -> step g r g' -> at_ g' u = at_ g u -> ahead g' = ahead g -> nxt g' = nxt g -> val g' = val g -> good g'.
Proof. intros r g g' (I & E & F) S A B C D. split; [eapply inv_step; eauto|]. split; [congruence|]. unfold front in *. rewrite B, C, D. auto. Qed.
Lemma good_next : forall g, good g -> exists n, nxt g (ahead g) = Some n /\ val g n = u.
Proof. intros g (_ & _ & F). unfold front in F. destruct (nxt g (ahead g)); [|discriminate]. injection F as F. eauto. Qed.
Lemma at_go : forall g t p x, at_ (go g t p) x = if Nat.eqb x t then p else at_ g x. Proof. auto. Qed.
Lemma wakes_N1 : forall r g k, good g -> r <> u -> at_ g r = N1 k u -> wakes r g.
Proof.
  intros r g k (I & E & F) N X. eexists. split.
  - eapply al_step; [|apply al_refl]. eapply s_N1; eauto. rewrite E. auto.
  - intros (b & Y). cbn in Y. unfold upd in Y. destruct (Nat.eqb_spec u r); [congruence|]. rewrite Nat.eqb_refl, E in Y. discriminate.
Qed.
Ltac stp c := eapply wakes_step; [eapply c; eauto|].
Ltac gd := first [eapply good_step; [eassumption|eapply s_N1; eauto|..]|idtac].
Lemma keep : forall r g p, good g -> r <> u -> step g r (go g r p) -> good (go g r p).
Proof. intros. eapply good_step; eauto. rewrite at_go. destruct (Nat.eqb_spec u r); congruence. Qed.
Lemma keepT : forall r g p n, good g -> r <> u -> step g r (setTail (go g r p) n) -> good (setTail (go g r p) n).
Proof. intros. eapply good_step; eauto. cbn. unfold upd. destruct (Nat.eqb_spec u r); congruence. Qed.
Lemma at_me : forall g r p, at_ (go g r p) r = p. Proof. intros. rewrite at_go, Nat.eqb_refl. auto. Qed.
Lemma at_meT : forall g r p n, at_ (setTail (go g r p) n) r = p. Proof. intros. apply at_me. Qed.
Lemma wakes_P3v : forall r g k h x n, good g -> r <> u -> at_ g r = P3 (KRel k) h x (Some n) -> ahead g = h -> h <> x -> wakes r g.
Proof.
  intros r g k h x n G N E A X. pose proof G as (I & Eu & F). assert (V : val g n = u).
  { destruct (res_some g r I _ _ _ _ E A) as (Y & _). rewrite <- front_hd in Y by auto. congruence. }
  assert (S : step g r (go g r (N1 k u))). { rewrite <- V. eapply (s_P3v g r (KRel k)); eauto. }
  eapply wakes_step; [exact S|]. eapply wakes_N1; eauto. { apply keep; auto. } apply at_me.
Qed.
Lemma wakes_P0' : forall r g k, good g -> r <> u -> at_ g r = P0 (KRel k) -> atail g <> ahead g -> wakes r g.
Proof.
  intros r g k G N E T. destruct (good_next g G) as (n & Hn & V).
  pose proof (s_P0 g r _ E) as S1. eapply wakes_step; [exact S1|]. pose proof (keep _ _ _ G N S1) as G1. set (g1 := go g r _) in *.
  pose proof (s_P1 g1 r _ _ (at_me g r _)) as S2. eapply wakes_step; [exact S2|]. pose proof (keep _ _ _ G1 N S2) as G2. set (g2 := go g1 r _) in *.
  pose proof (s_P2 g2 r _ _ _ (at_me g1 r _)) as S3. eapply wakes_step; [exact S3|]. pose proof (keep _ _ _ G2 N S3) as G3. set (g3 := go g2 r _) in *.
  eapply wakes_P3v with (h := ahead g) (x := atail g) (n := n) (k := k); auto. unfold g3. rewrite at_me. cbn. rewrite Hn. reflexivity.
Qed.
Lemma wakes_P4h : forall r g k n, good g -> r <> u -> at_ g r = P4 (KRel k) (ahead g) (ahead g) n -> wakes r g.
Proof.
  intros r g k n G N E. pose proof G as (I & _). pose proof (v_q g I r) as Q. rewrite E in Q. cbn in Q.
  assert (Nn : n <> ahead g). { intros ->. eapply (head_aq g I). eapply next_in; eauto. cbn. auto. }
  destruct (Nat.eq_dec (atail g) (ahead g)) as [T|T].
  - pose proof (s_P4 g r _ _ _ _ E T) as S. eapply wakes_step; [exact S|]. eapply wakes_P0'; [eapply keepT; eauto|auto|apply at_meT|auto].
  - pose proof (s_P4f g r _ _ _ _ E T) as S. eapply wakes_step; [exact S|]. eapply wakes_P0'; [eapply keep; eauto|auto|apply at_me|auto].
Qed.
Lemma wakes_P3h : forall r g k x n, good g -> r <> u -> at_ g r = P3 (KRel k) (ahead g) x (Some n) -> wakes r g.
Proof.
  intros r g k x n G N E. destruct (Nat.eq_dec (ahead g) x) as [<-|X]; [|eapply wakes_P3v; eauto].
  pose proof (s_P3h g r _ _ _ E eq_refl) as S. eapply wakes_step; [exact S|]. eapply wakes_P4h; [eapply keep; eauto|auto|apply at_me].
Qed.
Lemma wakes_P2h : forall r g k x, good g -> r <> u -> at_ g r = P2 (KRel k) (ahead g) x -> wakes r g.
Proof.
  intros r g k x G N E. destruct (good_next g G) as (n & Hn & _).
  pose proof (s_P2 g r _ _ _ E) as S. eapply wakes_step; [exact S|]. eapply wakes_P3h; [eapply keep; eauto|auto|rewrite at_me, Hn; reflexivity].
Qed.
Lemma wakes_P1h : forall r g k, good g -> r <> u -> at_ g r = P1 (KRel k) (ahead g) -> wakes r g.
Proof.
  intros r g k G N E. pose proof (s_P1 g r _ _ E) as S. eapply wakes_step; [exact S|]. eapply wakes_P2h; [eapply keep; eauto|auto|apply at_me].
Qed.
Lemma wakes_P0 : forall r g k, good g -> r <> u -> at_ g r = P0 (KRel k) -> wakes r g.
Proof.
  intros r g k G N E. pose proof (s_P0 g r _ E) as S. eapply wakes_step; [exact S|]. eapply wakes_P1h; [eapply keep; eauto|auto|apply at_me].
Qed.
Lemma wakes_P3 : forall r g k h x n, good g -> r <> u -> at_ g r = P3 (KRel k) h x n -> h <> ahead g \/ n <> None -> wakes r g.
Proof.
  intros r g k h x n G N E P. destruct (Nat.eq_dec h (ahead g)) as [->|X].
  - destruct n; [eapply wakes_P3h; eauto|]. destruct P; congruence.
  - pose proof (s_P3 g r _ _ _ _ E (not_eq_sym X)) as S. eapply wakes_step; [exact S|]. eapply wakes_P0; [eapply keep; eauto|auto|apply at_me].
Qed.
Lemma promise_kept : forall r g, good g -> prom g r u -> wakes r g.
Proof.
  intros r g G P. assert (N : r <> u). { intros ->. destruct G as (_ & E & _). unfold prom in P. rewrite E in P. exact P. }
  destruct (good_next g G) as (m & Hm & _). unfold prom in P. destruct (at_ g r) eqn:E; try contradiction; try (destruct k; try contradiction).
  - eapply wakes_P0; eauto.
  - pose proof (s_P1 g r _ _ E) as S. eapply wakes_step; [exact S|]. pose proof (keep _ _ _ G N S) as G1. set (g1 := go g r _) in *.
    pose proof (s_P2 g1 r _ _ _ (at_me g r _)) as S2. eapply wakes_step; [exact S2|]. pose proof (keep _ _ _ G1 N S2) as G2.
    eapply wakes_P3; [exact G2|exact N|apply at_me|]. cbn. destruct (Nat.eq_dec h (ahead g)) as [->|]; auto. right. congruence.
  - pose proof (s_P2 g r _ _ _ E) as S2. eapply wakes_step; [exact S2|]. pose proof (keep _ _ _ G N S2) as G2.
    eapply wakes_P3; [exact G2|exact N|apply at_me|]. cbn. destruct (Nat.eq_dec h (ahead g)) as [->|]; auto. right. congruence.
  - eapply wakes_P3; eauto.
  - destruct (Nat.eq_dec (atail g) tl) as [T|T].
    + pose proof (s_P4 g r _ _ _ _ E T) as S. eapply wakes_step; [exact S|]. eapply wakes_P0; [eapply keepT; eauto|auto|apply at_meT].
    + pose proof (s_P4f g r _ _ _ _ E T) as S. eapply wakes_step; [exact S|]. eapply wakes_P0; [eapply keep; eauto|auto|apply at_me].
  - subst. eapply wakes_N1; eauto.
Qed.
End Wake.
Lemma handover : forall g u, reachable g -> asleep g u -> front g = Some u -> owner g = None ->
  exists r g', releasing (at_ g r) /\ alone r g g' /\ ~ asleep g' u.
Proof.
  intros g u R (a & E) F O. apply inv_reach in R as I. destruct (v_25 g I u) as (r & P); auto.
  - rewrite E. auto.
  - rewrite <- front_hd; auto.
  - destruct (promise_kept u a r g) as (g' & A & B); auto. { split; auto. }
    exists r, g'. split; [|auto]. unfold prom in P. destruct (at_ g r); cbn; auto; destruct k; auto.
Qed.

(** the queue for the monitor *)
Lemma queue_evolves : forall g t g', reachable g -> step g t g' ->
  queue g' = queue g \/ (queue g' = queue g ++ [t] /\ ~ In t (queue g)) \/ (queue g = t :: queue g' /\ owner g = Some t).
Proof.
  intros g t g' R S. change (queue g') with (vals g'). change (queue g) with (vals g). apply inv_reach in R. destruct (vals_step g t g' R S) as [(-> & _)|[(E & A & _)|(E & _ & _ & _ & W)]]; auto.
  - right. left. split; auto. rewrite <- (v_inq g R). congruence.
  - right. right. split; auto. apply (v_ow g R). auto.
Qed.
Lemma queue_front : forall g, reachable g -> front g = hd_error (queue g).
Proof. intros g R. apply front_hd. apply inv_reach; auto. Qed.
Lemma sleepers_queued : forall g t, reachable g -> asleep g t -> In t (queue g).
Proof. intros g t R (a & E). apply inv_reach in R. apply (v_inq g R). rewrite E. auto. Qed.

(** an awake thread at the front takes a free monitor *)
Lemma al_trans : forall r g g' g'', alone r g g' -> alone r g' g'' -> alone r g g''.
Proof. induction 1; auto. intros. econstructor; eauto. Qed.
Lemma polls : forall g r k n, inv g -> at_ g r = P0 k -> removes k = false -> nxt g (ahead g) = Some n -> atail g <> ahead g ->
  exists g', alone r g g' /\ at_ g' r = polled r k (Some (val g n)) /\ owner g' = owner g.
Proof.
  intros g r k n I E K Hn T.
  pose proof (s_P0 g r _ E) as S1. set (g1 := go g r _) in *.
  pose proof (s_P1 g1 r _ _ (at_me g r _)) as S2. set (g2 := go g1 r _) in *.
  pose proof (s_P2 g2 r _ _ _ (at_me g1 r _)) as S3. set (g3 := go g2 r _) in *.
  assert (S4 : step g3 r (go g3 r (polled r k (Some (val g3 n))))).
  { eapply s_P3v with (h := ahead g) (x := atail g); auto. unfold g3. rewrite at_me. cbn. rewrite Hn. auto. }
  eexists. split; [|split]. { eapply al_step; [exact S1|]. eapply al_step; [exact S2|]. eapply al_step; [exact S3|]. eapply al_step; [exact S4|]. apply al_refl. }
  - apply at_me.
  - reflexivity.
Qed.
Lemma polls' : forall g r k n, inv g -> at_ g r = P0 k -> removes k = false -> nxt g (ahead g) = Some n ->
  exists g', alone r g g' /\ at_ g' r = polled r k (Some (val g n)) /\ owner g' = owner g.
Proof.
  intros g r k n I E K Hn. destruct (Nat.eq_dec (atail g) (ahead g)) as [T|T]; [|apply polls; auto].
  assert (Nn : n <> ahead g). { intros ->. eapply (head_aq g I). eapply next_in; eauto. cbn. auto. }
  pose proof (s_P0 g r _ E) as S1. set (g1 := go g r _) in *.
  pose proof (s_P1 g1 r _ _ (at_me g r _)) as S2. set (g2 := go g1 r _) in *.
  pose proof (s_P2 g2 r _ _ _ (at_me g1 r _)) as S3. set (g3 := go g2 r _) in *.
  assert (S4 : step g3 r (go g3 r (P4 k (ahead g) (ahead g) n))).
  { eapply s_P3h; auto. unfold g3. rewrite at_me. cbn. rewrite Hn, T. auto. }
  set (g4 := go g3 r _) in *.
  pose proof (s_P4 g4 r _ _ _ _ (at_me g3 r _) T) as S5. set (g5 := setTail _ _) in *.
  destruct (polls g5 r k n) as (g' & A & B & C); auto.
  - eapply inv_step; [|exact S5]. eapply inv_step; [|exact S4]. eapply inv_step; [|exact S3]. eapply inv_step; [|exact S2]. eapply inv_step; [|exact S1]. auto.
  - unfold g5. apply at_meT.
  - exists g'. split; [|auto]. do 5 (econstructor; [eassumption|]). exact A.
Qed.
Lemma takes : forall g u a b, reachable g -> at_ g u = SL a b -> front g = Some u -> owner g = None ->
  exists g', alone u g g' /\ owner g' = Some u.
Proof.
  intros g u a b R E F O. apply inv_reach in R. pose proof (s_SL g u _ _ E) as S. unfold front in F. destruct (nxt g (ahead g)) as [n|] eqn:Hn; [|discriminate]. injection F as V.
  destruct (polls' (go g u (P0 (KLoop a))) u (KLoop a) n) as (g' & A & B & C); auto. { eapply inv_step; eauto. } { apply at_me. }
  cbn [val go] in B. rewrite V in B. cbn in B. rewrite Nat.eqb_refl in B.
  eexists. split. { econstructor; [exact S|]. eapply al_trans; [exact A|]. eapply al_step; [|apply al_refl]. eapply s_L1; eauto. rewrite C. auto. }
  reflexivity.
Qed.

(** the wait set *)
Lemma wait_evolves : forall g t g', reachable g -> step g t g' ->
  wq g' = wq g \/ (owner g = Some t /\
  (wq g' = wq g ++ [t] \/
   (wq g' = remove Nat.eq_dec t (wq g) /\ at_ g' t = Out) \/
   (exists u b, wq g = u :: wq g' /\ at_ g' t = N2 b u))).
Proof.
  intros g t g' R S. apply inv_reach in R. destruct (wq_step g t g' R S) as [E|H]; auto. right. split.
  - apply (v_ow g R). destruct (ow (at_ g t) (held g t)) eqn:O; auto. destruct (wsame g t g' R S O) as (_ & _ & _ & _ & E). exfalso.
    rewrite E in H. destruct H as [(H & _)|[(H & _ & i & p & c & X)|(u & b & H & _)]].
    + apply (f_equal (@length nat)) in H. rewrite app_length in H. cbn in H. lia.
    + rewrite X in O. discriminate.
    + apply (f_equal (@length nat)) in H. cbn in H. lia.
  - destruct H as [(H & _)|[(H & X & _)|(u & b & H & _ & X & _)]]; eauto 8.
Qed.
Lemma no_lost : forall g t, reachable g -> dozing g t -> In t (wq g) \/ exists v b, at_ g v = N2 b t.
Proof. intros g t R (d & E). apply inv_reach in R. apply (w_doze g R). rewrite E. auto. Qed.
Lemma notified : forall g t g' u b, reachable g -> step g t g' -> at_ g t = N2 b u -> ~ dozing g' u /\ ~ In u (wq g').
Proof.
  intros g t g' u b R S E. apply inv_reach in R. destruct (w_N2 g R _ _ _ E) as (N & W).
  assert (u <> t) by (intros ->; rewrite E in W; discriminate).
  inversion S; subst; rewrite E in *; try discriminate. injection H0 as <- <-. unf. split; auto.
  intros (d & X). revert X. cbn. up; try congruence. destruct (at_ g u); discriminate.
Qed.
Lemma notifyAll_empties : forall g t g', reachable g -> step g t g' -> at_ g t = NL -> at_ g' t = Out -> wq g = [] /\ wq g' = [].
Proof.
  intros g t g' R S E O. apply inv_reach in R. inversion S; subst; rewrite E in *; try discriminate.
  - unf. revert O. up; congruence.
  - unf. pose proof (w_chain g R) as C. rewrite H0 in C. destruct (wq g); auto. destruct C. discriminate.
Qed.
Lemma wait_returns : forall g t g' i, reachable g -> step g t g' ->
  (exists p c, at_ g t = RW i p c) \/ (exists c, at_ g t = FW i c) -> at_ g' t = Out ->
  owner g' = Some t /\ depth g' = held g t /\ held g' t = held g t /\ ret g' t = Some i.
Proof.
  intros g t g' i R S E O. assert (R' : reachable g') by (econstructor; eauto). apply inv_reach in R as I.
  assert (H0 : 0 < held g t). { pose proof (v_h g I t) as H. destruct E as [(p & c & E)|(c & E)]; rewrite E in H; exact H. }
  assert (Hh : held g' t = held g t /\ ret g' t = Some i).
  { destruct E as [(p & c & E)|(c & E)]; inversion S; subst; rewrite E in *; try discriminate; unf; revert O; up; try congruence; injection H; intros; subst; auto. }
  destruct (ownership g' t R' O) as (A & B). destruct Hh as (Hh & Hr). rewrite Hh in *. split; [apply A|]; auto.
Qed.
Lemma misuse_throws : forall t m, m <> Some (Some t) ->
  objWait t m = ThrowsIllegalMonitorState /\ objNotify t m = ThrowsIllegalMonitorState /\ objNotifyAll t m = ThrowsIllegalMonitorState.
Proof.
  intros t [o|] H; cbn; auto. assert (E : isOwner t o = false). { unfold isOwner. destruct (eqo o (Some t)) eqn:E; auto. apply eqo_eq in E. congruence. }
  rewrite E. auto.
Qed.
Lemma misuse_release : forall t m, m <> Some (Some t) ->
  objRelease t m <> ThrowsIllegalMonitorState /\ (objRelease t m = Aborts \/ objRelease t m = NullDereference).
Proof.
  intros t [o|] H; cbn; [|split; [discriminate|auto]]. assert (E : isOwner t o = false). { unfold isOwner. destruct (eqo o (Some t)) eqn:E; auto. apply eqo_eq in E. congruence. }
  rewrite E. split; [discriminate|auto].
Qed.
