(** An interpreter for schedules of JMon_Model, for the examples: each thread takes the step its place
    allows; where there is a choice, the number in the schedule decides. *)
From Coq Require Import List Bool Arith Lia.
From Verif Require Import Chain JMon_Model.
Import ListNotations.

Definition isN (o : option nat) : bool := match o with None => true | _ => false end.
Definition stepf (g : glob) (t c : nat) : option glob :=
  match at_ g t with
  | Out => match c with
    | 0 => Some (go g t (AQ AEnter))
    | 1 => if eqo (owner g) (Some t) then
             if depth g =? 1 then Some (setHeld (setDepth (go g t (R1 RExit)) 0) t (pred (held g t)))
             else Some (setHeld (setDepth g (pred (depth g))) t (pred (held g t))) else None
    | 2 => if eqo (owner g) (Some t) then Some (go g t W1) else None
    | 3 => if eqo (owner g) (Some t) then match whead g with Some u => Some (pollWait (go g t (N2 false u)) u) | None => Some g end else None
    | 4 => if eqo (owner g) (Some t) then Some (go g t NL) else None
    | S (S (S (S (S u)))) => Some (signal (setIntr g u true) u)
    end
  | AQ a => if eqo (owner g) (Some t) then Some (go g t (T9 a)) else Some (go g t (P0 (KTry a)))
  | T1 a => if isN (owner g) then Some (setOwner (go g t (T9 a)) (Some t)) else Some (go g t (L0 a))
  | T9 a => Some (acquired g t a)
  | L0 a => Some (newNode (go g t (Q0 a (fresh g))) t)
  | Q0 a nd => Some (go g t (Q1 a nd (atail g)))
  | Q1 a nd x => Some (go g t (Q2 a nd x (nxt g x)))
  | Q2 a nd x n => if atail g =? x then match n with Some n => Some (go g t (QH a nd x n)) | None => Some (go g t (Q3 a nd x)) end else Some (go g t (Q0 a nd))
  | QH a nd x n => if atail g =? x then Some (setTail (go g t (Q0 a nd)) n) else Some (go g t (Q0 a nd))
  | Q3 a nd x => if isN (nxt g x) then Some (setNxt (go g t (Q4 a nd x)) (upd (nxt g) x (Some nd)) (aq g ++ [nd])) else Some (go g t (Q0 a nd))
  | Q4 a nd x => if atail g =? x then Some (setTail (go g t (P0 (KLoop a))) nd) else Some (go g t (P0 (KLoop a)))
  | P0 k => Some (go g t (P1 k (ahead g)))
  | P1 k h => Some (go g t (P2 k h (atail g)))
  | P2 k h x => Some (go g t (P3 k h x (nxt g h)))
  | P3 k h x n => if ahead g =? h then
      if h =? x then match n with Some n => Some (go g t (P4 k h h n)) | None => Some (go g t (polled t k None)) end
      else match n with
           | Some n => if removes k then Some (go g t (P5 k h n)) else Some (go g t (polled t k (Some (val g n))))
           | None => None end
      else Some (go g t (P0 k))
  | P4 k h x n => if atail g =? x then Some (setTail (go g t (P0 k)) n) else Some (go g t (P0 k))
  | P5 k h n => if ahead g =? h then Some (setHead (go g t (polled t k (Some (val g n)))) n (tl (aq g)) (old g ++ [h])) else Some (go g t (P0 k))
  | L1 a => if isN (owner g) then Some (setOwner (go g t (P0 (KRem a))) (Some t)) else Some (go g t (S0 a))
  | S0 a => Some (go g t (SL a false))
  | SL a b => Some (go g t (P0 (KLoop a)))
  | L9 a => Some (acquired g t a)
  | R1 r => Some (setOwner (go g t (P0 (KRel r))) None)
  | N1 r u => if negb (ownLock (at_ g u)) || (u =? t) then Some (go (signal g u) t (finR r)) else None
  | W1 => Some (go g t W2)
  | W2 => if negb (wflag g t) && isN (wnext g t) then Some (appendWait (go g t W3) t) else None
  | W3 => Some (setDepth (go g t (W4 (depth g))) 1)
  | W4 d => Some (setDepth (go g t (R1 (RWait d))) (pred (depth g)))
  | WS d => if intr g t then Some (go g t (WK d)) else Some (go g t (WL d false))
  | WL d b => Some (go g t (WK d))
  | WK d => Some (setIntr (go g t (AQ (AWait d (intr g t)))) t false)
  | WA d i => Some (setDepth (go g t (WB i)) d)
  | WB i => if wflag g t then Some (go g t (RW i None (whead g))) else Some (go g t (FW i (whead g)))
  | RW i p (Some c) => if c =? t then if eqo (whead g) (Some t) || negb (isN p) then Some (setRet (unlinkWait (go g t Out) t p) t i) else None
      else Some (go g t (RW i (Some c) (wnext g c)))
  | FW i (Some c) => if c =? t then None else Some (go g t (FW i (wnext g c)))
  | FW i None => Some (setRet (go g t Out) t i)
  | N2 b u => if negb (ownLock (at_ g u)) || (u =? t) then Some (go (signal g u) t (if b then NL else Out)) else None
  | NL => match whead g with Some u => Some (pollWait (go g t (N2 true u)) u) | None => Some (go g t Out) end
  | _ => None
  end.
Lemma isN_t : forall o, isN o = true -> o = None. Proof. destruct o; auto; discriminate. Qed.
Lemma isN_f : forall o, isN o = false -> o <> None. Proof. destruct o; discriminate. Qed.
Lemma eqo_f : forall a b, eqo a b = false -> a <> b.
Proof. intros a b H E. apply eqo_eq in E. congruence. Qed.
Lemma stepf_sound : forall g t c g', stepf g t c = Some g' -> step g t g'.
Proof.
  intros g t c g' H. unfold stepf in H. destruct (at_ g t) eqn:E; try discriminate.
  all: repeat match type of H with
    | context [match ?x with _ => _ end] => destruct x eqn:?
    | Some _ = Some _ => injection H as <-
    | None = Some _ => discriminate
    end.
  all: repeat match goal with
    | X : eqo _ _ = true |- _ => apply eqo_eq in X | X : eqo _ _ = false |- _ => apply eqo_f in X
    | X : isN _ = true |- _ => apply isN_t in X | X : isN _ = false |- _ => apply isN_f in X
    | X : (_ =? _) = true |- _ => apply Nat.eqb_eq in X | X : (_ =? _) = false |- _ => apply Nat.eqb_neq in X
    | X : (_ || _)%bool = true |- _ => apply orb_true_iff in X; rewrite ?negb_true_iff, ?Nat.eqb_eq in X
    | X : (_ && _)%bool = true |- _ => apply andb_true_iff in X; destruct X; rewrite ?negb_true_iff in *
    end; subst.
  all: try (econstructor; eauto; fail).
  - apply s_RW; auto. destruct Heqb0 as [X|X]; [left; apply eqo_eq; auto|right; apply isN_f; auto].
  - apply (s_N2 g t true u); auto.
  - apply (s_N2 g t false u); auto.
Qed.
(** [Do t c]: one step of t with choice c. [Till t f]: t runs until [f] holds of its place, in at most
    fifty steps; [Fin t]: until it is between calls or asleep. *)
Inductive act := Do (t c : nat) | Till (t : nat) (f : pc -> bool).
Definition halted (p : pc) : bool := match p with Out | SL _ _ | WL _ _ => true | _ => false end.
Notation Fin t := (Till t halted).
Fixpoint till (f : pc -> bool) (t n : nat) (g : glob) : option glob :=
  if f (at_ g t) then Some g else
  match n with 0 => None | S n => match stepf g t 0 with Some g' => till f t n g' | None => None end end.
Fixpoint exec (l : list act) (g : glob) : option glob :=
  match l with
  | [] => Some g
  | Do t c :: l => match stepf g t c with Some g' => exec l g' | None => None end
  | Till t f :: l => match till f t 50 g with Some g' => exec l g' | None => None end
  end.
Inductive steps : glob -> glob -> Prop :=
| st_refl : forall g, steps g g
| st_step : forall g t g' g'', step g t g' -> steps g' g'' -> steps g g''.
Lemma till_sound : forall f t n g g', till f t n g = Some g' -> forall g'', steps g' g'' -> steps g g''.
Proof.
  induction n as [|n IH]; cbn [till]; intros g g' H g'' X; destruct (f (at_ g t)); try (injection H as ->; auto; fail); try discriminate.
  destruct (stepf g t 0) eqn:E; [|discriminate]. econstructor; [eapply stepf_sound; eauto|]. eapply IH; eauto.
Qed.
Lemma exec_sound : forall l g g', exec l g = Some g' -> steps g g'.
Proof.
  induction l as [|[t c|t f] l IH]; cbn [exec]; intros g g' H.
  - injection H as ->. constructor.
  - destruct (stepf g t c) eqn:E; [|discriminate]. econstructor; [eapply stepf_sound; eauto|auto].
  - destruct (till f t 50 g) eqn:E; [|discriminate]. eapply till_sound; eauto.
Qed.
Lemma steps_reach : forall g g', steps g g' -> reachable g -> reachable g'.
Proof. induction 1; auto. intros R. apply IHsteps. econstructor; eauto. Qed.
Definition out (l : list act) : glob := match exec l start with Some g => g | None => start end.
Lemma out_reach : forall l, reachable (out l).
Proof.
  intros l. unfold out. destruct (exec l start) eqn:E; [|constructor]. eapply steps_reach; [eapply exec_sound; eauto|constructor].
Qed.
