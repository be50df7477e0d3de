(** Sums over a finite set of threads, for the transition systems *)
From Coq Require Import ZArith List Bool Arith Lia.
Import ListNotations.

Fixpoint sumZ (f : nat -> Z) (l : list nat) : Z := match l with [] => 0%Z | t :: r => (f t + sumZ f r)%Z end.

Lemma sumZ_ext : forall f f' l, (forall t, In t l -> f t = f' t) -> sumZ f l = sumZ f' l.
Proof.
  intros f f' l. induction l as [|a l IH]; intros H; [reflexivity|]. cbn. rewrite (H a) by (left; reflexivity).
  f_equal. apply IH. intros. apply H. right. assumption.
Qed.
Lemma sumZ_upd : forall f f' l t, NoDup l -> In t l -> (forall u, u <> t -> f' u = f u) ->
  sumZ f' l = (sumZ f l - f t + f' t)%Z.
Proof.
  intros f f' l t ND. induction ND as [|a l NI ND IH]; intros HI HE; [contradiction|]. cbn. destruct (Nat.eq_dec a t) as [->|N].
  - rewrite (sumZ_ext f' f l); [lia|]. intros u Hu. apply HE. intros ->. contradiction.
  - destruct HI as [->|HI]; [contradiction|]. rewrite IH by assumption. rewrite (HE a) by assumption. lia.
Qed.
Lemma sumZ_upd2 : forall f f' l t n, NoDup l -> In t l -> (forall u, u <> t -> f' u = f u) -> f' t = (f t + n)%Z ->
  sumZ f' l = (sumZ f l + n)%Z.
Proof. intros f f' l t n ND HI HE HT. rewrite (sumZ_upd f f' l t) by assumption. lia. Qed.
Lemma sumZ_zero : forall l, sumZ (fun _ => 0%Z) l = 0%Z.
Proof. induction l; cbn; lia. Qed.
Lemma sumZ_nonneg : forall f l, (forall t, (0 <= f t)%Z) -> (0 <= sumZ f l)%Z.
Proof. intros f l H. induction l as [|a l IH]; cbn; [lia|]. specialize (H a). lia. Qed.
Lemma sumZ_two : forall f l t u, NoDup l -> In t l -> In u l -> t <> u -> (forall x, (0 <= f x)%Z) -> (f t + f u <= sumZ f l)%Z.
Proof.
  intros f l t u ND Ht Hu N P.
  rewrite (sumZ_upd (fun x => if Nat.eqb x t then 0%Z else f x) f l t ND Ht).
  - rewrite Nat.eqb_refl. pose proof (sumZ_upd (fun x => if Nat.eqb x t then 0%Z else if Nat.eqb x u then 0%Z else f x) (fun x => if Nat.eqb x t then 0%Z else f x) l u ND Hu) as K.
    rewrite K.
    + destruct (Nat.eqb_spec u t); [congruence|]. rewrite Nat.eqb_refl.
      pose proof (sumZ_nonneg (fun x => if Nat.eqb x t then 0%Z else if Nat.eqb x u then 0%Z else f x) l) as Q.
      assert (forall x, (0 <= (if Nat.eqb x t then 0 else if Nat.eqb x u then 0 else f x))%Z) as Q1.
      { intros x. destruct (Nat.eqb x t); [lia|]. destruct (Nat.eqb x u); [lia|]. apply P. }
      specialize (Q Q1). lia.
    + intros x Hx. destruct (Nat.eqb_spec x u); [congruence|reflexivity].
  - intros x Hx. destruct (Nat.eqb_spec x t); [congruence|reflexivity].
Qed.
