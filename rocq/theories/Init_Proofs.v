From Coq Require Import ZArith List Bool Arith Lia.
From Verif Require Import Conc Init_Model Init_Spec.
Import ListNotations.

Ltac split_upd u t := unfold upd; destruct (Nat.eqb_spec u t) as [->|].

Lemma stk_unlock : forall g, stk (unlock g) = stk g.
Proof. intros g. unfold unlock. destruct (dep g) as [|[|d]]; reflexivity. Qed.
Lemma fl_unlock : forall g, fl (unlock g) = fl g.
Proof. intros g. unfold unlock. destruct (dep g) as [|[|d]]; reflexivity. Qed.
Lemma log_unlock : forall g, log (unlock g) = log g.
Proof. intros g. unfold unlock. destruct (dep g) as [|[|d]]; reflexivity. Qed.

(** * The specification's notions under growing logs *)
Lemma before_all : forall l, before (length l) l = l.
Proof. intros l. unfold before. rewrite Nat.sub_diag. reflexivity. Qed.
Lemma before_cons : forall n e l, n <= length l -> before n (e :: l) = before n l.
Proof. intros n e l H. unfold before. cbn [length]. replace (S (length l) - n) with (S (length l - n)) by lia. reflexivity. Qed.
Lemma before_In : forall n e l, In e (before n l) -> In e l.
Proof.
  intros n e l. unfold before. generalize (length l - n). intros m. revert l. induction m as [|m IH]; intros l H; [exact H|].
  destruct l; [exact H|]. right. apply IH. exact H.
Qed.
Lemma failed_before : forall n c l, failed c (before n l) -> failed c l.
Proof. intros n c l [u H]. exists u. eapply before_In. exact H. Qed.
Lemma done_cons : forall e c l, done c l -> done c (e :: l).
Proof. intros e c l (u & o & H). exists u, o. right. exact H. Qed.

Section P.
Variable super : nat -> option nat.
Variable hasInit : nat -> bool.
Notation ready := (ready super hasInit).
Notation step := (step super hasInit).

Lemma ready_cons : forall e t c l, ready t c l -> ready t c (e :: l).
Proof. intros e t c l H a An Ha. destruct (H a An Ha) as [D|S]; [left; apply done_cons; exact D|right; right; exact S]. Qed.

(** * The invariant *)
Definition locked (p : ipc) : bool := match p with P3 | P3s | P4 | P7 _ | P7b | P8 _ | P9 _ => true | _ => false end.
Definition sleepD (p : ipc) : Prop := match p with PW d _ | PR d => 0 < d | _ => True end.
Definition lockInv (g : glob) : Prop :=
  (forall t, match stk g t with [] => True | a :: _ => (locked (pc a) = true -> own g = Some t) /\ sleepD (pc a) end) /\
  match own g with None => dep g = 0 | Some _ => 0 < dep g end.

Definition supOk (t c : nat) (l : list event) : Prop := forall s, super c = Some s -> ready t s l.
Definition noFail (a : act) (l : list event) : Prop := ~ failed (cls a) (before (born a) l).
Definition facts (t : nat) (fl : nat -> flags) (l : list event) (a : act) : Prop :=
  let c := cls a in
  match pc a with
  | P0 | PS | PX => True
  | P1 | P2 | P3 | P3s | P5 | P6 _ | P7 _ => supOk t c l
  | P4 | PW _ _ | PR _ => supOk t c l /\ (init (fl c) = true \/ done c l) /\ noFail a l
  | Run => supOk t c l /\ In (EStart t c) l
  | P7b => supOk t c l /\ needInit (fl c) = true /\ initError (fl c) = true
  | P8 _ => supOk t c l /\ done c l /\ noFail a l
  | P9 Normal => supOk t c l /\ done c l /\ noFail a l
  | P9 _ => True
  end.
(** What is below an activation *)
Definition shape (a : act) (r : list act) : Prop :=
  (match r with [] => True | x :: _ => (pc x = PS /\ super (cls x) = Some (cls a)) \/ pc x = Run end) /\
  match pc a with P4 | PW _ _ | PR _ => isInitializing r (cls a) = false | _ => True end.
Fixpoint stackOk (t : nat) (fl : nat -> flags) (l : list event) (k : list act) : Prop :=
  match k with
  | [] => True
  | a :: r => born a <= length l /\ facts t fl l a /\ shape a r /\ stackOk t fl l r
  end.

Definition busy (c : nat) (a : act) : bool :=
  match pc a with P3s | P5 | Run | P6 _ | P7 _ | P7b => Nat.eqb (cls a) c | _ => false end.
Definition pre (c : nat) (a : act) : bool := match pc a with P3s | P5 => Nat.eqb (cls a) c | _ => false end.
Fixpoint cnt (f : act -> bool) (k : list act) : Z := match k with [] => 0 | a :: r => (if f a then 1 else 0) + cnt f r end%Z.
Definition b2z (b : bool) : Z := if b then 1%Z else 0%Z.
Definition startable (f : flags) : bool := needInit f && negb (init f) && negb (initError f).
Definition sumInv (tids : list nat) (g : glob) : Prop :=
  (forall t, ~ In t tids -> stk g t = []) /\
  (forall c, sumZ (fun t => cnt (busy c) (stk g t)) tids = b2z (init (fl g c))) /\
  (forall c, Z.of_nat (starts c (log g)) + sumZ (fun t => cnt (pre c) (stk g t)) tids + b2z (startable (fl g c)) <= 1)%Z.

Definition okEvent (e : event) (l : list event) : Prop :=
  match e with
  | ERet t c n => ready t c l /\ ~ failed c (before n l)
  | EStart t c => supOk t c l
  | _ => True
  end.
Fixpoint okLog (l : list event) : Prop := match l with [] => True | e :: r => okEvent e r /\ okLog r end.

Definition flagInv (g : glob) : Prop :=
  (forall c, hasInit c = true -> needInit (fl g c) = false -> done c (log g)) /\
  (forall c, failed c (log g) -> needInit (fl g c) = true /\ initError (fl g c) = true /\ init (fl g c) = false).

Definition wakeInv (g : glob) : Prop :=
  forall t c, waitsFor c (stk g t) -> init (fl g c) = true \/ (exists u, aboutToNotify c (stk g u)) \/ failed c (log g).

Record inv (tids : list nat) (g : glob) : Prop := {
  i_lock : lockInv g;
  i_stack : forall t, stackOk t (fl g) (log g) (stk g t);
  i_sum : sumInv tids g;
  i_flag : flagInv g;
  i_log : okLog (log g);
  i_wake : wakeInv g
}.

(** ** Counting *)
Lemma cnt_nonneg : forall f k, (0 <= cnt f k)%Z.
Proof. intros f k. induction k as [|a k IH]; cbn; [lia|]. destruct (f a); lia. Qed.
Lemma cnt_wake : forall f k, (forall a, f (wakeA a) = f a) -> cnt f (map wakeA k) = cnt f k.
Proof. intros f k H. induction k as [|a k IH]; [reflexivity|]. cbn. rewrite H, IH. reflexivity. Qed.
Lemma busy_wake : forall c a, busy c (wakeA a) = busy c a.
Proof. intros c [c' []  b]; reflexivity. Qed.
Lemma pre_wake : forall c a, pre c (wakeA a) = pre c a.
Proof. intros c [c' []  b]; reflexivity. Qed.
Lemma cnt_in : forall f a k, In a k -> f a = true -> (1 <= cnt f k)%Z.
Proof.
  intros f a k. induction k as [|x k IH]; intros H E; [contradiction|]. cbn. destruct H as [->|H].
  - rewrite E. pose proof (cnt_nonneg f k). lia.
  - specialize (IH H E). destruct (f x); lia.
Qed.
Lemma cnt_pos : forall f k, (0 < cnt f k)%Z -> exists a, In a k /\ f a = true.
Proof.
  intros f k. induction k as [|x k IH]; cbn; [lia|]. intros H. destruct (f x) eqn:E; [exists x; auto|].
  destruct IH as (a & Ha & Ea); [lia|]. exists a. auto.
Qed.
Lemma cnt_resume : forall f p k, f (A 0 p 0) = false \/ True -> (forall c b, f (A c p b) = f (A c PS b)) -> cnt f (resume p k) = cnt f k.
Proof. intros f p k _ H. destruct k as [|[c q b] k]; [reflexivity|]. destruct q; cbn; try reflexivity. rewrite H. reflexivity. Qed.
Lemma sumZ_in : forall f l t, NoDup l -> In t l -> (forall u, (0 <= f u)%Z) -> (f t <= sumZ f l)%Z.
Proof.
  intros f l t ND. induction ND as [|a l NI ND IH]; intros HI P; [contradiction|]. cbn. destruct HI as [->|HI].
  - pose proof (sumZ_nonneg f l P). lia.
  - specialize (IH HI P). specialize (P a). lia.
Qed.
Lemma sumZ_pos : forall f l, (0 < sumZ f l)%Z -> exists t, In t l /\ (0 < f t)%Z.
Proof.
  intros f l. induction l as [|a l IH]; cbn; [lia|]. intros H. destruct (Z_lt_dec 0 (f a)) as [K|K]; [exists a; auto|].
  destruct IH as (t & Ht & Pt); [lia|]. exists t. auto.
Qed.

(** a thread in the middle of initialising c keeps InitFlag set *)
Lemma busy_init : forall tids g t a, NoDup tids -> inv tids g -> In a (stk g t) -> busy (cls a) a = true -> init (fl g (cls a)) = true.
Proof.
  intros tids g t a ND H Ha B. destruct (i_sum _ _ H) as (O & S & _). specialize (S (cls a)).
  destruct (in_dec Nat.eq_dec t tids) as [HT|HT]; [|rewrite (O t HT) in Ha; contradiction].
  pose proof (sumZ_in (fun u => cnt (busy (cls a)) (stk g u)) tids t ND HT (fun u => cnt_nonneg _ _)) as K. cbn beta in K.
  pose proof (cnt_in _ _ _ Ha B). rewrite S in K. unfold b2z in K. destruct (init (fl g (cls a))); [reflexivity|lia].
Qed.

(** ** The stack facts are stable *)
Lemma facts_stable : forall t fl fl' l es a, facts t fl l a -> born a <= length l ->
  (init (fl (cls a)) = true -> init (fl' (cls a)) = true \/ done (cls a) (es ++ l)) ->
  (pc a = P7b -> fl' (cls a) = fl (cls a)) ->
  facts t fl' (es ++ l) a.
Proof.
  intros t fl fl' l es a H HB HI H7.
  assert (SU : supOk t (cls a) l -> supOk t (cls a) (es ++ l)).
  { intros K s Hs. specialize (K s Hs). clear -K. induction es as [|e es IH]; [exact K|]. apply ready_cons. exact IH. }
  assert (DO : done (cls a) l -> done (cls a) (es ++ l)).
  { intros K. clear -K. induction es as [|e es IH]; [exact K|]. apply done_cons. exact IH. }
  assert (NF : noFail a l -> noFail a (es ++ l)).
  { unfold noFail. intros K. clear -K HB. induction es as [|e es IH]; [exact K|]. cbn [app]. rewrite before_cons; [exact IH|]. rewrite app_length. lia. }
  assert (IE : In (EStart t (cls a)) l -> In (EStart t (cls a)) (es ++ l)) by (intros; apply in_or_app; right; assumption).
  unfold facts in *. destruct (pc a) eqn:E; try (destruct e); try (rewrite H7 by reflexivity); intuition.
Qed.
Lemma stack_stable : forall t fl fl' l es k, stackOk t fl l k ->
  (forall a, In a k -> init (fl (cls a)) = true -> init (fl' (cls a)) = true \/ done (cls a) (es ++ l)) ->
  (forall a, In a k -> pc a = P7b -> fl' (cls a) = fl (cls a)) ->
  stackOk t fl' (es ++ l) k.
Proof.
  intros t fl0 fl' l es k. induction k as [|a k IH]; intros H H1 H2; [exact I|]. destruct H as (B & Fa & S & R). cbn. split; [|split; [|split]].
  - rewrite app_length. lia.
  - eapply facts_stable; [exact Fa|exact B|apply H1; left; reflexivity|apply H2; left; reflexivity].
  - exact S.
  - apply IH; [exact R|intros; apply H1; [right|]; assumption|intros; apply H2; [right|]; assumption].
Qed.
Lemma facts_wake : forall t fl l a, facts t fl l (wakeA a) = facts t fl l a.
Proof. intros t fl0 l [c [] b]; reflexivity. Qed.
Lemma init_wake : forall c k, isInitializing (map wakeA k) c = isInitializing k c.
Proof. intros c k. induction k as [|[c' p b] k IH]; [reflexivity|]. cbn. unfold isInitializing in IH. rewrite IH. f_equal. destruct p; reflexivity. Qed.
Lemma shape_wake : forall a r, shape a r -> shape (wakeA a) (map wakeA r).
Proof.
  intros [c p b] r [A B]. split.
  - destruct r as [|[c' p' b'] r]; [exact I|]. cbn in *. destruct A as [[-> A]| ->]; cbn; [left|right; reflexivity]. destruct p; auto.
  - cbn in *. destruct p; cbn; rewrite ?init_wake; auto.
Qed.
Lemma stack_wake : forall t fl l k, stackOk t fl l k -> stackOk t fl l (map wakeA k).
Proof.
  intros t fl0 l k. induction k as [|a k IH]; intros H; [exact I|]. destruct H as (B & Fa & S & R). cbn. split; [|split; [|split]].
  - destruct a as [c [] b]; exact B.
  - rewrite facts_wake. exact Fa.
  - apply shape_wake. exact S.
  - auto.
Qed.
(** an activation below the innermost one waits for a superclass or runs an initialiser *)
Lemma below : forall t fl l a k x, stackOk t fl l (a :: k) -> In x k -> pc x = PS \/ pc x = Run.
Proof.
  intros t fl0 l a k x. revert a. induction k as [|y k IH]; intros a H Hx; [contradiction|]. destruct H as (_ & _ & (S & _) & R). cbn in S.
  destruct Hx as [<-|Hx]; [destruct S as [[S _]|S]; auto|]. eapply IH; [exact R|exact Hx].
Qed.

(** ** Steps keep the lock discipline *)
Ltac top t0 L := let LT := fresh "LT" in pose proof (proj1 L t0) as LT; match goal with E : stk _ t0 = _ |- _ => rewrite E in LT; cbn in LT end.
Lemma lk_setS : forall g t k, lockInv g ->
  match k with [] => True | a :: _ => (locked (pc a) = true -> own g = Some t) /\ sleepD (pc a) end -> lockInv (setS g t k).
Proof. intros g t k (A & B) K. split; [|exact B]. intros u. cbn [stk setS own]. split_upd u t; [exact K|apply A]. Qed.
Lemma lk_same : forall g g', lockInv g -> stk g' = stk g -> own g' = own g -> dep g' = dep g -> lockInv g'.
Proof. intros g g' A E1 E2 E3. unfold lockInv. rewrite E1, E2, E3. exact A. Qed.
Lemma lk_lock : forall g t k, lockInv g -> free g t -> match k with [] => True | a :: _ => sleepD (pc a) end -> lockInv (lock (setS g t k) t).
Proof.
  intros g t k (A & B) Fr K. split; [|cbn; lia]. intros u. cbn [stk setS lock setOwn own]. split_upd u t.
  - destruct k; auto.
  - specialize (A u). destruct (stk g u) as [|a r]; [exact I|]. destruct A as [A1 A2]. split; [|exact A2]. intros K1. apply A1 in K1. destruct Fr; congruence.
Qed.
Lemma lk_unlock : forall g t, lockInv g -> own g = Some t ->
  match stk g t with [] => True | a :: _ => locked (pc a) = false end -> lockInv (unlock g).
Proof.
  intros g t (A & B) O K. rewrite O in B. split.
  - intros u. rewrite stk_unlock. specialize (A u). destruct (stk g u) as [|a r] eqn:E; [exact I|]. destruct A as [A1 A2]. split; [|exact A2]. intros K1.
    specialize (A1 K1). assert (u = t) by congruence. subst u. rewrite E in K. congruence.
  - unfold unlock. destruct (dep g) as [|[|d]]; cbn; try lia. rewrite O. lia.
Qed.
Lemma resume_top : forall p k, (p = P1 \/ p = PX) -> (match k with [] => True | x :: _ => pc x = PS \/ pc x = Run end) ->
  match resume p k with [] => True | a :: _ => locked (pc a) = false /\ sleepD (pc a) end.
Proof. intros p k P S. destruct k as [|[c q b] k]; [exact I|]. cbn in *. destruct S as [-> | ->]; cbn; [destruct P as [-> | ->]; cbn|]; auto. Qed.
Lemma next_top : forall t fl l a k, stackOk t fl l (a :: k) -> match k with [] => True | x :: _ => pc x = PS \/ pc x = Run end.
Proof. intros t fl0 l a k (_ & _ & (S & _) & _). destruct k; [exact I|]. destruct S as [[S _]|S]; auto. Qed.

Lemma lock_step : forall tids g t g', inv tids g -> step g t g' -> lockInv g'.
Proof.
  intros tids g t g' H S. pose proof (i_lock _ _ H) as L. pose proof (i_stack _ _ H t) as K.
  pose proof (proj1 L t) as LT. pose proof (proj2 L) as LD.
  assert (RET : forall a k p e, stk g t = a :: k -> (p = P1 \/ p = PX) -> lockInv (emit (setS g t (resume p k)) e)).
  { intros a k p e E P. apply lk_same with (setS g t (resume p k)); [|reflexivity..]. apply lk_setS; [exact L|].
    rewrite E in K. pose proof (resume_top p k P (next_top _ _ _ _ _ K)) as R. destruct (resume p k); [exact I|]. destruct R as [R1 R2]. split; [congruence|exact R2]. }
  assert (RETU : forall a k p e, stk g t = a :: k -> locked (pc a) = true -> (p = P1 \/ p = PX) -> lockInv (unlock (emit (setS g t (resume p k)) e))).
  { intros a k p e E LO P. rewrite E in LT. destruct LT as [LT _]. specialize (LT LO). apply lk_unlock with t; [eapply RET; eassumption|exact LT|].
    cbn [stk emit setS]. unfold upd. rewrite Nat.eqb_refl. rewrite E in K. pose proof (resume_top p k P (next_top _ _ _ _ _ K)) as R. destruct (resume p k); [exact I|]. apply R. }
  inversion S; subst; try match goal with E : stk g t = _ |- _ => rewrite E in LT, K; cbn in LT end.
  all: try (eapply RETU; [eassumption|reflexivity|auto]; fail).
  all: try (eapply RET; [eassumption|auto]; fail).
  all: try (apply lk_setS; [exact L|cbn; intuition congruence]; fail).
  all: try (match goal with |- context [setS ?g0 ?p ?x] => apply lk_same with (setS g0 p x); [|reflexivity..]; apply lk_setS; [exact L|cbn; intuition congruence] end; fail).
  all: try (apply lk_lock; [exact L|assumption|cbn; auto]; fail).
  - (* lock *) destruct L as (A & B). split; [|cbn; lia]. intros u. cbn [stk lock setOwn own]. specialize (A u). destruct (stk g u) as [|a r]; [exact I|].
    destruct A as [A1 A2]. split; [|exact A2]. intros K1. apply A1 in K1. match goal with Fr : free g t |- _ => destruct Fr; congruence end.
  - (* unlock *) apply lk_unlock with t; [exact L|assumption|]. match goal with R : running _ |- _ => destruct (stk g t); [exact I|]; cbn in R; rewrite R; reflexivity end.
  - (* leave after setting InitFlag *) apply lk_unlock with t; [apply lk_setS; [exact L|cbn; intuition congruence]|apply LT; reflexivity|]. cbn [stk setS]. unfold upd. rewrite Nat.eqb_refl. reflexivity.
  - (* wait *) destruct LT as [LT _]. specialize (LT eq_refl). rewrite LT in LD. split; [|reflexivity]. intros u. cbn [stk setS setOwn own]. split_upd u t; [cbn; intuition congruence|].
    destruct L as [L _]. specialize (L u). destruct (stk g u); [exact I|]. destruct L as [L1 L2]. split; [|exact L2]. intros K1. specialize (L1 K1). congruence.
  - (* relock *) destruct LT as [_ LT]. split; [|exact LT]. intros u. cbn [stk setS setOwn own]. split_upd u t; [cbn; intuition congruence|].
    destruct L as [L _]. specialize (L u). destruct (stk g u); [exact I|]. destruct L as [L1 L2]. split; [|exact L2]. intros K1. specialize (L1 K1). congruence.
  - (* notify *) apply lk_setS; [|cbn; intuition congruence]. destruct L as [L1 L2]. split; [|exact L2]. intros u. cbn [stk wakeAll own]. specialize (L1 u).
    destruct (stk g u) as [|[c' p' b'] r]; [exact I|]. cbn in *. destruct p'; exact L1.
Qed.

(** ** Steps keep the facts about the stacks, the log and the flags *)
Lemma ready_from : forall t c l, supOk t c l -> (hasInit c = true -> done c l \/ In (EStart t c) l) -> ready t c l.
Proof. intros t c l S D a An Ha. inversion An; subst; [auto|]. eapply S; eassumption. Qed.
Lemma run_in : forall t fl l c k, stackOk t fl l k -> isInitializing k c = true -> In (EStart t c) l.
Proof.
  intros t fl0 l c k. induction k as [|a k IH]; intros H E; [discriminate|]. destruct H as (_ & Fa & _ & R). cbn in E. apply orb_prop in E. destruct E as [E|E].
  - unfold isRun in E. destruct a as [c' p b]. cbn in *. destruct p; try discriminate. apply Nat.eqb_eq in E. subst. apply Fa.
  - auto.
Qed.
Lemma failed_cons : forall e c l, failed c l -> failed c (e :: l).
Proof. intros e c l [u H]. exists u. right. exact H. Qed.

(** what a returning step shows *)
Lemma ret_ready : forall tids g t c p b k, inv tids g -> stk g t = A c p b :: k ->
  match p with
  | P1 => needInit (fl g c) = false
  | P3 => needInit (fl g c) = false \/ (init (fl g c) = true /\ isInitializing (stk g t) c = true)
  | P4 => init (fl g c) = false
  | P9 Normal => True
  | _ => False
  end -> ready t c (log g) /\ ~ failed c (before b (log g)).
Proof.
  intros tids g t c p b k H E P. pose proof (i_stack _ _ H t) as K. rewrite E in K. pose proof K as K0. destruct K as (_ & Fa & _ & R).
  destruct (i_flag _ _ H) as [F1 F2].
  assert (N : needInit (fl g c) = false \/ init (fl g c) = true -> ~ failed c (before b (log g))).
  { intros Q X. apply failed_before in X. apply F2 in X. intuition congruence. }
  destruct p; try contradiction; unfold facts in Fa; cbn in Fa.
  - split; [|auto]. apply ready_from; auto.
  - destruct P as [P|[P1 P2]].
    + split; [|auto]. apply ready_from; auto.
    + split; [|auto]. apply ready_from; [exact Fa|]. intros _. right. eapply run_in; [|exact P2]. rewrite E. exact K0.
  - destruct Fa as (S & D & NF). split; [|exact NF]. apply ready_from; [exact S|]. intros _. left. destruct D; [congruence|assumption].
  - destruct e; try contradiction. destruct Fa as (S & D & NF). split; [|exact NF]. apply ready_from; auto.
Qed.

Lemma others : forall tids g u es fl', inv tids g ->
  (fl' = fl g \/ own g <> Some u) -> (forall c, init (fl g c) = true -> init (fl' c) = true \/ done c (es ++ log g)) ->
  stackOk u fl' (es ++ log g) (stk g u).
Proof.
  intros tids g u es fl' H O I. apply stack_stable with (fl g); [apply (i_stack _ _ H)|intros; apply I; assumption|].
  intros a Ha E. destruct O as [->|O]; [reflexivity|]. exfalso. apply O. pose proof (proj1 (i_lock _ _ H) u) as L. pose proof (i_stack _ _ H u) as K.
  destruct (stk g u) as [|x r]; [contradiction|]. destruct Ha as [->|Ha]; [apply L; rewrite E; reflexivity|].
  destruct (below _ _ _ _ _ _ K Ha); congruence.
Qed.
Lemma tail_ok : forall tids g t a k es fl', inv tids g -> stk g t = a :: k ->
  (forall c, init (fl g c) = true -> init (fl' c) = true \/ done c (es ++ log g)) ->
  stackOk t fl' (es ++ log g) k.
Proof.
  intros tids g t a k es fl' H E I. pose proof (i_stack _ _ H t) as K. rewrite E in K. apply stack_stable with (fl g); [apply K|intros; apply I; assumption|].
  intros x Hx P. destruct (below _ _ _ _ _ _ K Hx); congruence.
Qed.
Lemma resume_ok : forall t fl l fl' l' a k, stackOk t fl l (a :: k) -> stackOk t fl' l' k -> ready t (cls a) l' -> stackOk t fl' l' (resume P1 k).
Proof.
  intros t fl0 l fl' l' a k (_ & _ & (S & _) & _) H R. destruct k as [|[c p b] k]; [exact I|]. cbn in *.
  destruct S as [[-> S]| ->]; [|exact H]. destruct H as (H1 & H2 & H3 & H4). split; [exact H1|split; [|split; [|exact H4]]].
  - unfold facts; cbn. intros s Hs. rewrite S in Hs. injection Hs as <-. exact R.
  - destruct H3 as [H3 _]. split; [exact H3|exact I].
Qed.
Lemma resumeX_ok : forall t fl l k, stackOk t fl l k -> stackOk t fl l (resume PX k).
Proof. intros t fl0 l k H. destruct k as [|[c p b] k]; [exact I|]. destruct p; exact H. Qed.

Definition ok1 (g : glob) : Prop := forall u, stackOk u (fl g) (log g) (stk g u).
Lemma ok_set : forall tids g g' t k es, inv tids g ->
  stk g' = upd (stk g) t k -> log g' = es ++ log g -> (fl g' = fl g \/ own g = Some t) ->
  (forall c, init (fl g c) = true -> init (fl g' c) = true \/ done c (es ++ log g)) ->
  stackOk t (fl g') (es ++ log g) k -> ok1 g'.
Proof.
  intros tids g g' t k es H E1 E2 O I K u. rewrite E1, E2. split_upd u t; [exact K|]. eapply others; [exact H| |exact I].
  destruct O as [O|O]; [left; exact O|right; congruence].
Qed.

Lemma stack_step : forall tids g t g', NoDup tids -> inv tids g -> step g t g' -> ok1 g'.
Proof.
  intros tids g t g' ND H S. pose proof (i_lock _ _ H) as L. pose proof (i_stack _ _ H t) as K. pose proof (i_flag _ _ H) as [F1 F2].
  pose proof (proj1 L t) as LT.
  assert (NF : forall c b, needInit (fl g c) = false \/ init (fl g c) = true -> ~ failed c (before b (log g))).
  { intros c b Q X. apply failed_before in X. apply F2 in X. intuition congruence. }
  assert (RET : forall c p b k, stk g t = A c p b :: k -> ready t c (log g) -> ok1 (ret g t (A c p b) k)).
  { intros c p b k E R. eapply ok_set with (t := t) (es := [ERet t c b]); [exact H|reflexivity|reflexivity|left; reflexivity|auto|].
    cbn [fl emit setS ret]. eapply resume_ok; [rewrite <- E; exact K|eapply tail_ok; [exact H|exact E|auto]|]. apply ready_cons. exact R. }
  assert (THR : forall c p b k, stk g t = A c p b :: k -> ok1 (throw g t (A c p b) k)).
  { intros c p b k E. eapply ok_set with (t := t) (es := [EThrow t c b]); [exact H|reflexivity|reflexivity|left; reflexivity|auto|].
    cbn [fl emit setS throw]. apply resumeX_ok. eapply tail_ok; [exact H|exact E|auto]. }
  assert (SET : forall c p b k p' g', stk g t = A c p b :: k -> stk g' = upd (stk g) t (A c p' b :: k) -> log g' = log g -> fl g' = fl g -> facts t (fl g) (log g) (A c p' b) ->
    match p' with P4 | PW _ _ | PR _ => isInitializing k c = false | _ => True end -> ok1 g').
  { intros c p b k p' g0 E E1 E2 E3 Fa Sh. eapply ok_set with (t := t) (es := []); [exact H|exact E1|exact E2|left; exact E3|rewrite E3; auto|]. rewrite E3.
    rewrite E in K. destruct K as (B & _ & (S1 & _) & R). split; [exact B|split; [exact Fa|split; [|exact R]]]. split; [exact S1|exact Sh]. }
  assert (UL : forall g0, ok1 g0 -> ok1 (unlock g0)).
  { intros g0 O u. rewrite stk_unlock, fl_unlock, log_unlock. apply O. }
  inversion S; subst; try match goal with E : stk g t = _ |- _ => pose proof E as ES; rewrite E in LT, K; cbn in LT; destruct K as (KB & KF & KS & KR); unfold facts in KF; cbn in KF, KB end.
  all: try (apply UL).
  all: try (eapply THR; eassumption).
  all: try (eapply RET; [eassumption|]; eapply ret_ready; [exact H|eassumption|cbn; auto]; fail).
  all: try (eapply SET; [exact ES|reflexivity|reflexivity|reflexivity|unfold facts; cbn; tauto|cbn; tauto]; fail).
  all: try (exact (i_stack _ _ H)).
  - (* call *) eapply ok_set with (t := t) (es := []); [exact H|reflexivity|reflexivity|left; reflexivity|auto|]. cbn [app fl setS].
    split; [cbn; lia|split; [exact I|split; [|exact K]]]. split; [|exact I].
    match goal with R : running _ |- _ => destruct (stk g t) as [|x r]; [exact I|right; exact R] end.
  - (* superclass *) eapply ok_set with (t := t) (es := []); [exact H|reflexivity|reflexivity|left; reflexivity|auto|]. cbn [app fl setS].
    split; [cbn; lia|split; [exact I|split; [split; [left; split; [reflexivity|assumption]|exact I]|]]].
    split; [exact KB|split; [exact I|split; [|exact KR]]]. destruct KS as [KS _]. split; [exact KS|exact I].
  - (* no superclass *) eapply SET; [exact ES|reflexivity|reflexivity|reflexivity| |exact I]. intros s Hs. cbn in Hs. congruence.
  - (* wait *) eapply SET; [exact ES|reflexivity|reflexivity|reflexivity| |].
    + unfold facts, noFail; cbn. split; [exact KF|split; [left; assumption|]]. apply NF. auto.
    + match goal with E : isInitializing (stk g t) c = false |- _ => rewrite ES in E; cbn in E; exact E end.
  - (* take the class *) eapply ok_set with (t := t) (es := []); [exact H|reflexivity|reflexivity|right; apply LT; reflexivity| |].
    + intros x Hx. left. cbn. split_upd x c; [reflexivity|exact Hx].
    + split; [exact KB|split; [exact KF|split; [destruct KS as [KS _]; split; [exact KS|exact I]|]]].
      change (log g) with ([] ++ log g). eapply tail_ok; [exact H|exact ES|]. intros x Hx. left. cbn. split_upd x c; [reflexivity|exact Hx].
  - eapply SET; [exact ES|reflexivity|reflexivity|reflexivity|unfold facts; cbn; exact KF|]. destruct KS as [_ KS]. exact KS.
  - eapply SET; [exact ES|reflexivity|reflexivity|reflexivity|unfold facts; cbn; exact KF|]. destruct KS as [_ KS]. exact KS.
  - eapply SET; [exact ES|reflexivity|reflexivity|reflexivity|unfold facts; cbn; exact KF|]. destruct KS as [_ KS]. exact KS.
  - (* start *) eapply ok_set with (t := t) (es := [EStart t c]); [exact H|reflexivity|reflexivity|left; reflexivity|auto|]. cbn [app fl setS emit].
    split; [cbn; lia|split; [|split; [destruct KS as [KS _]; split; [exact KS|exact I]|]]].
    + split; [|left; reflexivity]. intros s Hs. apply ready_cons. apply KF. exact Hs.
    + change (EStart t c :: log g) with ([EStart t c] ++ log g). eapply tail_ok; [exact H|exact ES|auto].
  - (* failed *) eapply ok_set with (t := t) (es := []); [exact H|reflexivity|reflexivity|right; apply LT; reflexivity| |].
    + intros x Hx. left. cbn. split_upd x c; [exact Hx|exact Hx].
    + split; [exact KB|split; [|split; [destruct KS as [KS _]; split; [exact KS|exact I]|]]].
      * split; [exact KF|]. cbn. unfold upd. rewrite Nat.eqb_refl. cbn. auto.
      * change (log g) with ([] ++ log g). eapply tail_ok; [exact H|exact ES|]. intros x Hx. left. cbn. split_upd x c; [exact Hx|exact Hx].
  - (* failure recorded *)
    assert (Q : forall x, init (fl g x) = true -> init (upd (fl g) c (F (needInit (fl g c)) false (initError (fl g c))) x) = true \/ done x ([EDone t c Exn] ++ log g)).
    { intros x Hx. split_upd x c; [right; exists t, Exn; left; reflexivity|left; exact Hx]. }
    eapply ok_set with (t := t) (es := [EDone t c Exn]); [exact H|reflexivity|reflexivity|right; apply LT; reflexivity|exact Q|].
    split; [cbn; lia|split; [exact I|split; [destruct KS as [KS _]; split; [exact KS|exact I]|]]]. eapply tail_ok; [exact H|exact ES|exact Q].
  - (* success recorded *)
    assert (Q : forall x, init (fl g x) = true -> init (upd (fl g) c (F false false (initError (fl g c))) x) = true \/ done x ([EDone t c e] ++ log g)).
    { intros x Hx. split_upd x c; [right; exists t, e; left; reflexivity|left; exact Hx]. }
    eapply ok_set with (t := t) (es := [EDone t c e]); [exact H|reflexivity|reflexivity|right; apply LT; reflexivity|exact Q|].
    split; [cbn; lia|split; [|split; [destruct KS as [KS _]; split; [exact KS|exact I]|]]]; [|eapply tail_ok; [exact H|exact ES|exact Q]].
    unfold facts; cbn [pc cls]. split; [|split].
    + intros s Hs. apply ready_cons. apply KF. exact Hs.
    + exists t, e. left. reflexivity.
    + unfold noFail. cbn [born cls app]. rewrite before_cons by exact KB. apply NF. right.
      apply (busy_init tids g t (A c (P7 e) b) ND H); [rewrite ES; left; reflexivity|cbn; apply Nat.eqb_refl].
  - (* notify *) intros u. cbn [stk setS wakeAll fl log]. split_upd u t; [|apply stack_wake; apply (i_stack _ _ H)].
    split; [exact KB|split; [|split; [destruct KS as [KS _]; split; [exact KS|exact I]|exact KR]]].
    unfold facts; cbn. destruct e; [exact KF|exact I|exact I].
Qed.

(** The log *)
Lemma log_step : forall tids g t g', inv tids g -> step g t g' -> okLog (log g').
Proof.
  intros tids g t g' H S. pose proof (i_log _ _ H) as L. pose proof (i_stack _ _ H t) as K.
  inversion S; subst; rewrite ?log_unlock; try exact L; cbn [log emit setS setF lock setOwn ret throw]; split; try exact L; try exact I.
  all: try (cbn [okEvent]; eapply ret_ready; [exact H|eassumption|cbn; auto]; fail).
  match goal with E : stk g t = _ |- _ => rewrite E in K end. destruct K as (_ & KF & _). exact KF.
Qed.

(** The flags *)
Lemma flag_step : forall tids g t g', NoDup tids -> inv tids g -> step g t g' -> flagInv g'.
Proof.
  intros tids g t g' ND H S. pose proof (i_flag _ _ H) as [F1 F2]. pose proof (i_stack _ _ H t) as K.
  assert (BI : forall c p b k, stk g t = A c p b :: k -> busy c (A c p b) = true -> init (fl g c) = true).
  { intros c p b k E B. apply (busy_init tids g t (A c p b) ND H); [rewrite E; left; reflexivity|exact B]. }
  assert (EX : forall e, (forall c, ~ failed c [e]) -> flagInv (emit g e)).
  { intros e NE. split; intros c; cbn; [intros A1 A2; apply done_cons; auto|]. intros [u [Q|Q]]; [exfalso; apply (NE c); exists u; left; exact Q|]. apply F2. exists u. exact Q. }
  assert (SM : forall g1 g2, flagInv g1 -> fl g2 = fl g1 -> log g2 = log g1 -> flagInv g2).
  { intros g1 g2 X E1 E2. unfold flagInv. rewrite E1, E2. exact X. }
  inversion S; subst.
  all: try (apply SM with g; [split; assumption|rewrite ?fl_unlock; reflexivity|rewrite ?log_unlock; reflexivity]; fail).
  all: try (match goal with |- context [ret ?g0 ?t0 ?a ?k] => apply SM with (emit g0 (ERet t0 (cls a) (born a))); [apply EX; intros x [u [Q|[]]]; discriminate|rewrite ?fl_unlock; reflexivity|rewrite ?log_unlock; reflexivity] end; fail).
  all: try (match goal with |- context [throw ?g0 ?t0 ?a ?k] => apply SM with (emit g0 (EThrow t0 (cls a) (born a))); [apply EX; intros x [u [Q|[]]]; discriminate|rewrite ?fl_unlock; reflexivity|rewrite ?log_unlock; reflexivity] end; fail).
  - (* take the class *) split; intros x; cbn; split_upd x c; cbn; try discriminate; auto.
    intros Q. apply F2 in Q. intuition congruence.
  - match goal with |- flagInv (emit (setS ?g0 _ _) ?e) => apply SM with (emit g0 e); [|reflexivity|reflexivity] end. apply EX. intros x [u [Q|[]]]. discriminate.
  - (* failed *) split; intros x; cbn; split_upd x c; cbn; try discriminate; auto.
    intros Q. apply F2 in Q. intuition congruence.
  - (* failure recorded *) match goal with E : stk g t = _ |- _ => rewrite E in K end. destruct K as (_ & (_ & N & R) & _). cbn in N, R.
    split; intros x; cbn; split_upd x c; cbn; auto.
    + intros _ _. exists t, Exn. left. reflexivity.
    + intros A1 A2. apply done_cons. auto.
    + intros [u [Q|Q]]; [congruence|]. apply F2. exists u. exact Q.
  - (* success recorded *) split; intros x; cbn; split_upd x c; cbn; auto.
    + intros _ _. exists t, e. left. reflexivity.
    + intros A1 A2. apply done_cons. auto.
    + intros [u [Q|Q]]; [congruence|]. exfalso. assert (X : failed c (log g)) by (exists u; exact Q). apply F2 in X.
      match goal with E : stk g t = _ |- _ => pose proof (BI _ _ _ _ E (Nat.eqb_refl c)) end. intuition congruence.
    + intros [u [Q|Q]]; [congruence|]. apply F2. exists u. exact Q.
Qed.

(** ** The counts *)
Lemma sm_gen : forall tids g g' t k, NoDup tids -> In t tids -> sumInv tids g -> stk g' = upd (stk g) t k ->
  (forall c, cnt (busy c) k - cnt (busy c) (stk g t) = b2z (init (fl g' c)) - b2z (init (fl g c)))%Z ->
  (forall c, Z.of_nat (starts c (log g')) - Z.of_nat (starts c (log g)) + (cnt (pre c) k - cnt (pre c) (stk g t)) + b2z (startable (fl g' c)) <= b2z (startable (fl g c)))%Z ->
  sumInv tids g'.
Proof.
  intros tids g g' t k ND HI (A & B & C) E HB HC. unfold sumInv. rewrite E. split; [|split].
  - intros u Hu. split_upd u t; [contradiction|auto].
  - intros c. rewrite (sumZ_upd2 (fun u => cnt (busy c) (stk g u)) _ tids t (b2z (init (fl g' c)) - b2z (init (fl g c))) ND HI).
    + rewrite B. ring.
    + intros u Hu. unfold upd. destruct (Nat.eqb_spec u t); [congruence|reflexivity].
    + unfold upd. rewrite Nat.eqb_refl. specialize (HB c). lia.
  - intros c. rewrite (sumZ_upd2 (fun u => cnt (pre c) (stk g u)) _ tids t (cnt (pre c) k - cnt (pre c) (stk g t)) ND HI).
    + specialize (C c). specialize (HC c). lia.
    + intros u Hu. unfold upd. destruct (Nat.eqb_spec u t); [congruence|reflexivity].
    + unfold upd. rewrite Nat.eqb_refl. ring.
Qed.
Lemma sm_same : forall tids g g', sumInv tids g -> stk g' = stk g -> fl g' = fl g -> (forall c, starts c (log g') = starts c (log g)) -> sumInv tids g'.
Proof. intros tids g g' (A & B & C) E1 E2 E3. unfold sumInv. rewrite E1, E2. split; [exact A|split; [exact B|]]. intros c. rewrite E3. apply C. Qed.
Lemma sm_wake : forall tids g, sumInv tids g -> sumInv tids (wakeAll g).
Proof.
  intros tids g (A & B & C). split; [|split]; cbn [stk wakeAll fl log].
  - intros u Hu. rewrite A by exact Hu. reflexivity.
  - intros c. rewrite <- B. apply sumZ_ext. intros u _. apply cnt_wake. intros a. apply busy_wake.
  - intros c. specialize (C c). rewrite (sumZ_ext _ (fun t => cnt (pre c) (stk g t)) tids); [exact C|]. intros u _. apply cnt_wake. intros a. apply pre_wake.
Qed.
Lemma cnt_resume_busy : forall c p k, (p = P1 \/ p = PX) -> cnt (busy c) (resume p k) = cnt (busy c) k.
Proof. intros c p k P. destruct k as [|[c' q b] k]; [reflexivity|]. destruct q; cbn; try reflexivity. destruct P as [-> | ->]; reflexivity. Qed.
Lemma cnt_resume_pre : forall c p k, (p = P1 \/ p = PX) -> cnt (pre c) (resume p k) = cnt (pre c) k.
Proof. intros c p k P. destruct k as [|[c' q b] k]; [reflexivity|]. destruct q; cbn; try reflexivity. destruct P as [-> | ->]; reflexivity. Qed.

Lemma sum_step : forall tids g t g', NoDup tids -> In t tids -> inv tids g -> step g t g' -> sumInv tids g'.
Proof.
  intros tids g t g' ND HI H S. pose proof (i_sum _ _ H) as L. pose proof (i_stack _ _ H t) as K.
  assert (BI : forall c p b k, stk g t = A c p b :: k -> busy c (A c p b) = true -> init (fl g c) = true).
  { intros c p b k E B. apply (busy_init tids g t (A c p b) ND H); [rewrite E; left; reflexivity|exact B]. }
  assert (UL : forall g, sumInv tids g -> sumInv tids (unlock g)).
  { intros g0 L0. eapply sm_same; [exact L0|apply stk_unlock|apply fl_unlock|intros; rewrite log_unlock; reflexivity]. }
  inversion S; subst; try match goal with E : stk g t = _ |- _ => pose proof E as ES; rewrite E in K end.
  all: try (apply UL).
  all: try exact L.
  all: try (eapply sm_gen; [exact ND|exact HI|exact L|reflexivity| |]; intros x; try rewrite ES; cbn [cnt fl log setS setF lock setOwn emit ret throw cls];
    rewrite ?cnt_resume_busy, ?cnt_resume_pre by auto; unfold busy, pre, starts; cbn [pc cls filter isStart length]; try lia).
  all: try (pose proof (BI _ _ _ _ ES (Nat.eqb_refl _)) as BB).
  all: try (unfold upd; rewrite ?(Nat.eqb_sym x c); destruct (Nat.eqb_spec c x) as [<-|]; unfold startable; cbn [init needInit initError length];
    repeat match goal with E : init (fl _ _) = _ |- _ => rewrite E | E : needInit (fl _ _) = _ |- _ => rewrite E | E : initError (fl _ _) = _ |- _ => rewrite E end;
    cbn [negb]; rewrite ?andb_false_r; cbn [andb b2z]; try lia; fail).
  - (* failure recorded *) destruct K as (_ & (_ & N & R) & _). cbn in N, R. unfold upd. rewrite (Nat.eqb_sym x c). destruct (Nat.eqb_spec c x) as [<-|]; unfold startable; cbn [init needInit initError];
      rewrite ?BB, ?N, ?R; cbn [andb negb b2z]; lia.
  - (* notify *) eapply sm_gen; [exact ND|exact HI|apply sm_wake; exact L|reflexivity| |]; intros x; cbn [stk wakeAll fl log setS]; rewrite ES, ?(cnt_wake _ _ (busy_wake x)), ?(cnt_wake _ _ (pre_wake x));
      cbn [cnt]; unfold busy, pre; cbn [pc]; lia.
Qed.

(** ** Waiters *)
Lemma wk_gen : forall tids g g' t k es, inv tids g -> stk g' = upd (stk g) t k -> log g' = es ++ log g ->
  (forall c, waitsFor c k -> init (fl g' c) = true) ->
  (forall c, aboutToNotify c (stk g t) -> aboutToNotify c k) ->
  (forall c, init (fl g c) = true -> init (fl g' c) = true \/ aboutToNotify c k \/ failed c (es ++ log g)) ->
  wakeInv g'.
Proof.
  intros tids g g' t k es H E1 E2 H1 H2 H3 u c. rewrite E1, E2. intros W.
  assert (SELF : forall x, aboutToNotify x k -> exists v, aboutToNotify x (upd (stk g) t k v)).
  { intros x Hx. exists t. unfold upd. rewrite Nat.eqb_refl. exact Hx. }
  revert W. split_upd u t; intros W; [left; auto|]. destruct (i_wake _ _ H u c W) as [A|[[v A]|A]].
  - destruct (H3 c A) as [B|[B|B]]; auto.
  - right. left. destruct (Nat.eq_dec v t) as [->|NV]; [apply SELF; auto|]. exists v. unfold upd. destruct (Nat.eqb_spec v t); [congruence|exact A].
  - right. right. destruct A as [v A]. exists v. apply in_or_app. right. exact A.
Qed.
Lemma wk_same : forall g g', wakeInv g -> stk g' = stk g -> fl g' = fl g -> log g' = log g -> wakeInv g'.
Proof. intros g g' A E1 E2 E3. unfold wakeInv. rewrite E1, E2, E3. exact A. Qed.
Lemma atn_cons : forall c a k, match pc a with P8 _ => False | _ => True end -> aboutToNotify c (a :: k) -> aboutToNotify c k.
Proof. intros c a k P (x & [->|Hx] & Cx & Px); [destruct (pc x); contradiction|]. exists x. auto. Qed.
Lemma atn_cons' : forall c a k, aboutToNotify c k -> aboutToNotify c (a :: k).
Proof. intros c a k (x & Hx & P). exists x. split; [right; exact Hx|exact P]. Qed.
Lemma atn_tail : forall t fl l c a k, stackOk t fl l (a :: k) -> ~ aboutToNotify c k.
Proof. intros t fl0 l c a k K (x & Hx & _ & Px). destruct (below _ _ _ _ _ _ K Hx) as [E|E]; rewrite E in Px; exact Px. Qed.
Lemma waits_below : forall t fl l c a k p, stackOk t fl l (a :: k) -> (p = P1 \/ p = PX) -> ~ waitsFor c (resume p k).
Proof.
  intros t fl0 l c a k p K P (d & b & r & E). pose proof (next_top _ _ _ _ _ K) as N. destruct k as [|[c' q b'] k]; [discriminate|]. cbn in N.
  destruct N as [-> | ->]; cbn in E; destruct P as [-> | ->]; discriminate.
Qed.

Lemma wake_step : forall tids g t g', NoDup tids -> In t tids -> inv tids g -> step g t g' -> wakeInv g'.
Proof.
  intros tids g t g' ND HI H S. pose proof (i_wake _ _ H) as L. pose proof (i_stack _ _ H t) as K.
  assert (UL : forall g, wakeInv g -> wakeInv (unlock g)).
  { intros g0 L0. eapply wk_same; [exact L0|apply stk_unlock|apply fl_unlock|apply log_unlock]. }
  inversion S; subst; try match goal with E : stk g t = _ |- _ => pose proof E as ES; rewrite E in K end.
  all: try (apply UL).
  all: try exact L.
  all: try (match goal with |- wakeInv (ret ?g0 ?t0 ?a ?k0) =>
    refine (wk_gen tids g0 (ret g0 t0 a k0) t0 (resume P1 k0) [ERet t0 (cls a) (born a)] H eq_refl eq_refl _ _ _);
    [intros x W; exfalso; eapply waits_below; [exact K| |exact W]; auto
    |intros x W; rewrite ES in W; apply atn_cons in W; [exfalso; eapply atn_tail; [exact K|exact W]|exact I]
    |intros x W; left; exact W] end; fail).
  all: try (match goal with |- wakeInv (throw ?g0 ?t0 ?a ?k0) =>
    refine (wk_gen tids g0 (throw g0 t0 a k0) t0 (resume PX k0) [EThrow t0 (cls a) (born a)] H eq_refl eq_refl _ _ _);
    [intros x W; exfalso; eapply waits_below; [exact K| |exact W]; auto
    |intros x W; rewrite ES in W; apply atn_cons in W; [exfalso; eapply atn_tail; [exact K|exact W]|exact I]
    |intros x W; left; exact W] end; fail).
  all: try (match goal with |- wakeInv ?G0 => match G0 with context [setS ?g0 ?t0 ?k0] =>
    refine (wk_gen tids g0 G0 t0 k0 [] H eq_refl eq_refl _ _ _);
    [intros x (d0 & b0 & r0 & W); first [discriminate W | injection W as <- _ _ _; assumption]
    |intros x W; rewrite ?ES in W; first [apply atn_cons'; exact W | apply atn_cons in W; [exfalso; eapply atn_tail; [exact K|exact W]|exact I]]
    |intros x W; left; first [exact W|cbn; split_upd x c; [reflexivity || exact W|exact W]]] end end; fail).
  - (* start *) refine (wk_gen tids g _ t (A c Run b :: k) [EStart t c] H _ _ _ _ _); [reflexivity|reflexivity| | |].
    + intros x (d0 & b0 & r0 & W). discriminate.
    + intros x W. rewrite ES in W. apply atn_cons in W; [exfalso; eapply atn_tail; [exact K|exact W]|exact I].
    + intros x W. left. exact W.
  - (* failure recorded: nobody will notify *) refine (wk_gen tids g _ t (A c (P9 Exn) b :: k) [EDone t c Exn] H _ _ _ _ _); [reflexivity|reflexivity| | |].
    + intros x (d0 & b0 & r0 & W). discriminate.
    + intros x W. rewrite ES in W. apply atn_cons in W; [exfalso; eapply atn_tail; [exact K|exact W]|exact I].
    + intros x W. cbn. split_upd x c; [right; right; exists t; left; reflexivity|left; exact W].
  - (* success recorded *) refine (wk_gen tids g _ t (A c (P8 e) b :: k) [EDone t c e] H _ _ _ _ _); [reflexivity|reflexivity| | |].
    + intros x (d0 & b0 & r0 & W). discriminate.
    + intros x W. rewrite ES in W. apply atn_cons in W; [exfalso; eapply atn_tail; [exact K|exact W]|exact I].
    + intros x W. cbn. split_upd x c; [right; left; eexists; split; [left; reflexivity|cbn; auto]|left; exact W].
  - (* notify *) intros u x (d0 & b0 & r0 & W). exfalso. revert W. cbn [stk setS wakeAll]. split_upd u t; [discriminate|].
    destruct (stk g u) as [|[c' q b'] r]; [discriminate|]. destruct q; discriminate.
Qed.

(** * The invariant holds in every reachable state *)
Theorem inv_reachable : forall need tids g, NoDup tids -> reachable super hasInit need tids g -> inv tids g.
Proof.
  intros need tids g ND R. induction R as [N|g t g' R IH HI S].
  - constructor.
    + split; [intros t; exact I|reflexivity].
    + intros t. exact I.
    + split; [|split]; cbn; auto.
      * intros c. apply sumZ_zero.
      * intros c. rewrite sumZ_zero. unfold startable, b2z; cbn. destruct (need c); cbn; lia.
    + split; cbn; intros c; [intros A1 A2; rewrite (N c A1) in A2; discriminate|intros [u []]].
    + exact I.
    + intros t c (d & b & r & W). discriminate.
  - constructor.
    + eapply lock_step; eassumption.
    + eapply stack_step; eassumption.
    + eapply sum_step; eassumption.
    + eapply flag_step; eassumption.
    + eapply log_step; eassumption.
    + eapply wake_step; eassumption.
Qed.
Lemma okLog_at : forall l1 e l2, okLog (l1 ++ e :: l2) -> okEvent e l2.
Proof. induction l1 as [|x l1 IH]; cbn; intros e l2 H; [apply H|]. apply IH. apply H. Qed.

(** ** What follows for the specification *)
Theorem at_most_once : forall need tids g c, NoDup tids -> reachable super hasInit need tids g -> starts c (log g) <= 1.
Proof.
  intros need tids g c ND R. destruct (i_sum _ _ (inv_reachable _ _ _ ND R)) as (_ & _ & C). specialize (C c).
  pose proof (sumZ_nonneg (fun t => cnt (pre c) (stk g t)) tids (fun t => cnt_nonneg _ _)). unfold b2z in C. destruct (startable (fl g c)); lia.
Qed.
Theorem returns_ready : forall need tids g t c n l1 l2, NoDup tids -> reachable super hasInit need tids g -> log g = l1 ++ ERet t c n :: l2 ->
  ready t c l2 /\ ~ failed c (before n l2).
Proof. intros need tids g t c n l1 l2 ND R E. pose proof (i_log _ _ (inv_reachable _ _ _ ND R)) as L. rewrite E in L. exact (okLog_at _ _ _ L). Qed.
Theorem starts_ready : forall need tids g t c s l1 l2, NoDup tids -> reachable super hasInit need tids g -> log g = l1 ++ EStart t c :: l2 ->
  super c = Some s -> ready t s l2.
Proof. intros need tids g t c s l1 l2 ND R E HS. pose proof (i_log _ _ (inv_reachable _ _ _ ND R)) as L. rewrite E in L. exact (okLog_at _ _ _ L s HS). Qed.
Theorem waits_for_another : forall need tids g t c, NoDup tids -> reachable super hasInit need tids g -> waitsFor c (stk g t) ->
  (exists u, u <> t /\ initialising c (stk g u)) \/ (exists u, aboutToNotify c (stk g u)) \/ failed c (log g).
Proof.
  intros need tids g t c ND R W. pose proof (inv_reachable _ _ _ ND R) as H. destruct (i_wake _ _ H t c W) as [A|A]; [left|right; exact A].
  destruct (i_sum _ _ H) as (_ & B & _). specialize (B c). rewrite A in B. destruct (sumZ_pos (fun u => cnt (busy c) (stk g u)) tids) as (u & _ & P); [rewrite B; cbn; lia|].
  destruct (cnt_pos _ _ P) as (a & Ha & Ba). exists u. split.
  - intros ->. destruct W as (d & b & r & W). pose proof (i_stack _ _ H t) as K. rewrite W in K, Ha. destruct Ha as [<-|Ha]; [discriminate|].
    destruct (below _ _ _ _ _ _ K Ha) as [E|E]; unfold busy in Ba; rewrite E in Ba; [discriminate|].
    destruct K as (_ & _ & (_ & K) & _). cbn in K. assert (X : isInitializing r c = true); [|congruence]. apply existsb_exists. exists a. split; [exact Ha|]. unfold isRun. rewrite E. exact Ba.
  - exists a. split; [exact Ha|]. unfold busy in Ba. destruct (pc a) eqn:E; try discriminate; apply Nat.eqb_eq in Ba; split; auto.
Qed.
End P.
