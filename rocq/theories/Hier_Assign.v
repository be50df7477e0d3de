(** Assignability: the algorithm decides the subtype relation. *)
From Verif Require Import Base Hier_Model Hier_Spec Hier_Tables Hier_Proofs.

Section Assign.
Variable ds : list cdef.
Hypothesis WF : wellFormed ds.
Variable w : world.
Hypothesis I : inv ds w.
Hypothesis L : length w = length ds.
Variables ser clo : nat.
(** Serializable and Cloneable have no superinterfaces. *)
Definition plain (k : nat) : Prop := exists d, nth_error ds k = Some d /\ isInterface d = true /\ ifaces d = [].
Hypothesis Pser : plain ser.
Hypothesis Pclo : plain clo.

Lemma at_class : forall i, i < length ds -> exists c, nth_error w i = Some c /\ nth_error ds i = Some (def c) /\ good ds w i c.
Proof. intros i H. destruct (nth_error w i) as [c|] eqn:E; [|apply nth_error_None in E; lia]. exists c. destruct (I i c E). auto. Qed.

Lemma object_top : forall i, i < length ds -> superclass ds i 0.
Proof.
  intros i. induction i as [i IH] using lt_wf_ind. intros H. destruct (Nat.eq_dec i 0) as [-> | N]; [constructor|].
  destruct (nth_error ds i) as [d|] eqn:E; [|apply nth_error_None in E; lia]. destruct (WF i d E) as [_ [_ [W1 _]]]. destruct (W1 N) as [s [c [S [Ls _]]]].
  eapply superclass_step; eauto. apply IH; [exact Ls | lia].
Qed.
Lemma below_object : forall i, below ds 0 i -> i = 0.
Proof. intros i H. apply below_le in H; [lia | exact WF]. Qed.
Lemma interface_up : forall k i, below ds k i -> interfaceClass ds k -> interfaceClass ds i \/ i = 0.
Proof.
  intros k i B. induction B as [i | i j k D B IH]; intros H; [auto|]. destruct H as [d [E Id]]. destruct D as [d' [E' D]]. rewrite E in E'. inversion E'; subst d'.
  destruct (WF i d E) as [_ [_ [_ [W2 W3]]]]. destruct D as [D | D].
  - rewrite (W2 Id) in D. inversion D; subst j. right. apply below_object. exact B.
  - destruct (W3 j D) as [_ [c Hc]]. apply IH. exists c. exact Hc.
Qed.
Lemma below_class : forall j i d, j < length ds -> nth_error ds i = Some d -> isInterface d = false -> below ds j i -> superclass ds j i.
Proof.
  intros j i d Hj E Id B. induction B as [i | i j k D B IH]; [constructor|]. pose proof (direct_lt ds WF _ _ D) as Lt. destruct D as [d' [E' D]]. destruct D as [D | D].
  - eapply superclass_step; eauto. apply IH; [lia | exact E].
  - destruct (WF i d' E') as [_ [_ [_ [_ W3]]]]. destruct (W3 j D) as [_ [c Hc]]. destruct (interface_up _ _ B) as [[d1 [X Y]] | ->]; [exists c; exact Hc | congruence|]. apply object_top. exact Hj.
Qed.

Lemma onChain_ok : forall fuel a b, b < fuel -> b < length ds -> exists r, onChain w fuel a b = Some r /\ (r = true <-> superclass ds b a).
Proof.
  induction fuel as [|f IH]; intros a b F Hb; [lia|]. cbn [onChain]. destruct (Nat.eqb_spec b a) as [-> | N]; [exists true; split; [reflexivity|]; split; [constructor | reflexivity]|].
  destruct (at_class b Hb) as [c [E [Ed _]]]. rewrite E. destruct (super (def c)) as [s|] eqn:S.
  - destruct (super_class ds WF _ _ _ Ed S) as [Ls _]. destruct (IH a s) as [r [R1 R2]]; [lia | lia|]. exists r. split; [exact R1|]. rewrite R2. split.
    + intros H. eapply superclass_step; eauto.
    + intros H. inversion H as [|? d p ? Q1 Q2 Q3]; subst; [congruence|]. rewrite Ed in Q1. inversion Q1; subst d. rewrite S in Q2. inversion Q2; subst. exact Q3.
  - exists false. split; [reflexivity|]. split; [discriminate|]. intros H. inversion H as [|? d p ? Q1 Q2 Q3]; subst; [congruence|]. rewrite Ed in Q1. inversion Q1; subst d. congruence.
Qed.

(** The relation, by cases on the two types. *)
Fixpoint rel (b a : ty) : Prop :=
  match b, a with
  | TClass j, TClass i => below ds j i
  | TPrim p, TPrim q => p = q
  | TArray _, TClass i => i = 0 \/ i = ser \/ i = clo
  | TArray e, TArray e' => rel e e'
  | _, _ => False
  end.
Lemma rel_refl : forall t, rel t t.
Proof. induction t; cbn; auto. constructor. Qed.
Lemma plain_below : forall k i, plain k -> below ds k i -> i = k \/ i = 0.
Proof.
  intros k i [d [E [Id F]]] B. inversion B as [|? j ? D B']; subst; [auto|]. right. destruct D as [d' [E' D]]. rewrite E in E'. inversion E'; subst d'.
  destruct (WF k d E) as [_ [_ [_ [W2 _]]]]. destruct D as [D | D]; [|rewrite F in D; destruct D]. rewrite (W2 Id) in D. inversion D; subst. apply below_object. exact B'.
Qed.
Lemma rel_trans : forall a b c, rel a b -> rel b c -> rel a c.
Proof.
  induction a as [i | p | e IH]; intros [j | q | e'] [k | r | e''] H K; cbn in *; try tauto; try congruence.
  - apply (below_trans ds i j k); assumption.
  - destruct H as [-> | [-> | ->]].
    + left. apply below_object. exact K.
    + destruct (plain_below _ _ Pser K) as [-> | ->]; auto.
    + destruct (plain_below _ _ Pclo K) as [-> | ->]; auto.
  - apply (IH e'); assumption.
Qed.
Lemma subtype_rel : forall b a, subtype ds ser clo b a -> rel b a.
Proof.
  intros b a H. induction H; cbn; auto.
  - apply rel_refl.
  - eapply rel_trans; eauto.
  - econstructor; [eassumption | constructor].
Qed.
Lemma rel_subtype : forall b a, rel b a -> subtype ds ser clo b a.
Proof.
  induction b as [j | p | e IH]; intros [i | q | e'] H; cbn in H; try tauto.
  - induction H; [constructor|]. eapply sub_trans; [apply sub_direct; eassumption | exact IHbelow].
  - subst. constructor.
  - destruct H as [-> | [-> | ->]]; constructor.
  - apply sub_covariant. apply IH. exact H.
Qed.

Lemma ty_eqb_eq : forall a b, ty_eqb a b = true <-> a = b.
Proof.
  induction a as [i | p | e IH]; intros [j | q | e']; cbn; try (split; discriminate).
  - rewrite Nat.eqb_eq. split; congruence.
  - rewrite Nat.eqb_eq. split; congruence.
  - rewrite IH. split; congruence.
Qed.
Lemma existsb_in : forall i l, existsb (Nat.eqb i) l = true <-> In i l.
Proof. intros i l. rewrite existsb_exists. split; [intros [x [H E]]; apply Nat.eqb_eq in E; subst; exact H | intros H; exists i; split; [exact H | apply Nat.eqb_refl]]. Qed.

Theorem assignable : forall a b, known ds a -> known ds b -> exists r, isAssignableFrom w ser clo a b = Some r /\ (r = true <-> subtype ds ser clo b a).
Proof.
  assert (K : forall a b, known ds a -> known ds b -> exists r, isAssignableFrom w ser clo a b = Some r /\ (r = true <-> rel b a)).
  { induction a as [i | p | e IH]; intros b Ka Kb; cbn [isAssignableFrom];
      (destruct (ty_eqb _ b) eqn:E; [apply ty_eqb_eq in E; subst b; exists true; split; [reflexivity|]; split; [intros _; apply rel_refl | reflexivity]|]).
    - cbn in Ka. destruct (at_class i Ka) as [ca [Ei [Edi _]]]. rewrite Ei. destruct (isInterface (def ca)) eqn:Id.
      + destruct b as [j | q | e']; eexists; (split; [reflexivity|]).
        * cbn in Kb. destruct (at_class j Kb) as [cb [Ej [Edj G]]]. rewrite existsb_in. unfold interfacesOf. rewrite Ej, (g_itable _ _ _ _ G). cbn. split; [tauto|].
          intros B. split; [exists (def ca); auto|]. split; [exact B|]. intros ->. cbn in E. rewrite Nat.eqb_refl in E. discriminate.
        * cbn. split; [discriminate | tauto].
        * rewrite existsb_in. cbn. split; [intuition | intros [-> | [-> | ->]]; auto]. exfalso.
          destruct (WF 0 _ Edi) as [_ [W0 _]]. destruct (W0 eq_refl) as [X _]. congruence.
      + destruct b as [j | q | e'].
        * cbn in Kb. destruct (onChain_ok (S (length w)) i j) as [r [R1 R2]]; [lia | exact Kb|]. exists r. split; [exact R1|]. rewrite R2. cbn. split; [apply superclass_below|].
          apply (below_class j i (def ca)); assumption.
        * exists false. split; [reflexivity|]. cbn. split; [discriminate | tauto].
        * destruct (onChain_ok (S (length w)) i 0) as [r [R1 R2]]; [lia | lia|]. exists r. split; [exact R1|]. rewrite R2. cbn. split.
          -- intros H. left. apply below_object. apply superclass_below. exact H.
          -- intros [-> | [-> | ->]]; [constructor | |]; exfalso; [destruct Pser as [d [X [Y _]]] | destruct Pclo as [d [X [Y _]]]]; congruence.
    - exists false. split; [reflexivity|]. split; [discriminate|]. intros H. destruct b as [j | q | e']; cbn in H; try tauto. subst. cbn in E. rewrite Nat.eqb_refl in E. discriminate.
    - destruct b as [j | q | e']; [exists false | exists false | ]; [split; [reflexivity|]; cbn; split; [discriminate | tauto] | split; [reflexivity|]; cbn; split; [discriminate | tauto]|].
      cbn in Ka, Kb. destruct (IH e' Ka Kb) as [r R]. exists r. exact R. }
  intros a b Ka Kb. destruct (K a b Ka Kb) as [r [R1 R2]]. exists r. split; [exact R1|]. rewrite R2. split; [apply rel_subtype | apply subtype_rel].
Qed.
End Assign.
