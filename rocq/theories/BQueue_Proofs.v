(** Proofs about LinkedBlockingQueue. *)
From Coq Require Import ZArith Lia Bool List Arith.
Import ListNotations.
From Verif Require Import BQueue_Model BQueue_Spec.

Section P.
Context {A : Type} (eqA : A -> A -> bool) (capacity : Z).
Notation elem := (elem A).
Notation act := (act eqA capacity).
Notation does := (does eqA capacity).
Notation history := (history eqA capacity).
Notation step := (step eqA capacity).
Notation run := (run eqA capacity).
Notation next_ := (next_ eqA capacity).

(** *** One critical section *)
Lemma in_skip {B} (x : B) k q : In x (skipn k q) -> In x q.
Proof. intro I. rewrite <- (firstn_skipn k q). apply in_app_iff. right. exact I. Qed.
Lemma hasRoom_spec (q : list elem) : hasRoom capacity q = true <-> (Z.of_nat (length q) + 1 <= capacity)%Z.
Proof. unfold hasRoom. rewrite Z.ltb_lt. lia. Qed.
Lemma drain_ok : forall (q : list elem) m, ~ In None q ->
  let n := Nat.min (Z.to_nat m) (length q) in drain m q = (firstn n q, skipn n q, (m - Z.of_nat n)%Z, false).
Proof.
  induction q as [|x q IH]; intros m N n.
  - unfold n. cbn [drain length]. rewrite Nat.min_0_r. cbn. rewrite Z.sub_0_r. reflexivity.
  - cbn [drain]. destruct (Z.ltb_spec 0 m) as [L|L].
    + destruct x as [v|]; [|exfalso; apply N; left; reflexivity]. rewrite IH by (intro I; apply N; right; exact I).
      assert (E : n = S (Nat.min (Z.to_nat (m - 1)) (length q))) by (unfold n; cbn [length]; lia). rewrite E. cbn [firstn skipn]. f_equal. f_equal. lia.
    + assert (E : n = 0) by (unfold n; lia). rewrite E. cbn. rewrite Z.sub_0_r. reflexivity.
Qed.
Lemma removeOne_ok e : forall q : list elem,
  match removeOne eqA e q with
  | Some q' => exists q1 x q2, q = q1 ++ x :: q2 /\ equal eqA x e = true /\ (forall z, In z q1 -> equal eqA z e = false) /\ q' = q1 ++ q2
  | None => forall z, In z q -> equal eqA z e = false
  end.
Proof.
  induction q as [|x q IH]; [intros z []|]. cbn [removeOne]. destruct (equal eqA x e) eqn:E.
  - exists [], x, q. repeat split; auto. intros z [].
  - destruct (removeOne eqA e q) as [q'|]; cbn [option_map].
    + destruct IH as [q1 [y [q2 [-> [Y [N ->]]]]]]. exists (x :: q1), y, q2. repeat split; auto. intros z [<-|I]; auto.
    + intros z [<-|I]; auto.
Qed.
Lemma existsb_spec (q : list elem) e : existsb (fun x => equal eqA x e) q = true <-> exists x, In x q /\ equal eqA x e = true.
Proof. apply existsb_exists. Qed.


Lemma act_ok c q q' n a : noNull c -> ~ In None q -> (limitOf c = None -> blocked capacity c q = false) -> act c q = (q', n, a) ->
  does c q a q' /\ ~ In None q' /\ a <> WasInterrupted /\ (quiet c -> n = false -> q' = q).
Proof.
  intros NN NQ B E. assert (APP : forall es : list elem, ~ In None es -> ~ In None (q ++ es)) by (intros es H I; apply in_app_iff in I; tauto).
  assert (ONE : forall e : elem, e <> None -> ~ In None [e]) by (intros e H [Q|[]]; exact (H Q)).
  assert (TL : ~ In None (tl q)) by (destruct q; [exact NQ|intro I; apply NQ; right; exact I]).
  destruct c; cbn [act does noNull limitOf blocked quiet] in *.
  - destruct (hasRoom capacity q) eqn:R; injection E as <- <- <-.
    + apply hasRoom_spec in R. repeat split; auto; discriminate.
    + assert (~ (Z.of_nat (length q) + 1 <= capacity)%Z) by (rewrite <- hasRoom_spec; congruence). repeat split; auto; discriminate.
  - destruct (hasRoom capacity q) eqn:R; injection E as <- <- <-.
    + apply hasRoom_spec in R. repeat split; auto; discriminate.
    + assert (~ (Z.of_nat (length q) + 1 <= capacity)%Z) by (rewrite <- hasRoom_spec; congruence). repeat split; auto; discriminate.
  - injection E as <- <- <-. specialize (B eq_refl). apply negb_false_iff, hasRoom_spec in B. repeat split; auto; discriminate.
  - match type of E with context [if ?b then _ else _] => destruct b eqn:L end; [apply Z.ltb_lt in L|apply Z.ltb_ge in L].
    + injection E as <- <- <-. repeat split; auto; try discriminate. right. repeat split; auto. lia.
    + destruct es as [|e es]; injection E as <- <- <-.
      * repeat split; auto; try discriminate. left. rewrite app_nil_r. repeat split; auto.
      * repeat split; auto; try discriminate; try contradiction. 
  - injection E as <- <- <-. repeat split; auto; discriminate.
  - destruct q as [|[v|] q]; cbn in E; injection E as <- <- <-; cbn in *; repeat split; auto; try discriminate. all: exfalso; apply NQ; left; reflexivity.
  - destruct q as [|[v|] q]; cbn in E; injection E as <- <- <-; cbn in *; repeat split; auto; try discriminate. all: exfalso; apply NQ; left; reflexivity.
  - destruct q as [|[v|] q]; [specialize (B eq_refl); discriminate| |exfalso; apply NQ; left; reflexivity]. cbn in E; injection E as <- <- <-; cbn in *.
    split; [exists (Some v); auto|]. repeat split; auto; discriminate.
  - rewrite (drain_ok q max NQ) in E. injection E as <- <- <-. unfold BQueue_Model.elem in *. set (k := Nat.min (Z.to_nat max) (length q)).
    split; [split; [f_equal; lia|reflexivity]|]. split; [intro I; apply NQ; exact (in_skip _ _ _ I)|].
    split; [discriminate|]. intros _ H. apply negb_false_iff, Z.eqb_eq in H. replace k with 0 by lia. reflexivity.
  - injection E as <- <- <-. repeat split; auto; discriminate.
  - injection E as <- <- <-. repeat split; auto; discriminate.
  - injection E as <- <- <-. split; [split; [reflexivity|]; eexists; split; [reflexivity|]; apply existsb_spec|]. repeat split; auto; discriminate.
  - pose proof (removeOne_ok e q) as H. destruct (removeOne eqA e q) as [q2|]; injection E as <- <- <-.
    + split; [left; destruct H as [q1 [x [q3 [E1 [E2 [E3 E4]]]]]]; exists q1, x, q3; auto|]. split; [|split; discriminate].
      destruct H as [q1 [x [q3 [E1 [E2 [E3 E4]]]]]]. intro I. apply NQ. rewrite E1. rewrite E4 in I. apply in_app_iff in I. apply in_app_iff. cbn. tauto.
    + repeat split; auto; discriminate.
  - injection E as <- <- <-. repeat split; auto; try discriminate; try contradiction.
  - injection E as <- <- <-. repeat split; auto; discriminate.
Qed.

(** *** Histories *)
Lemma history_app : forall l q q1 l2 q2, history q l q1 -> history q1 l2 q2 -> history q (l ++ l2) q2.
Proof.
  induction l as [|[[[i c] a] t] l IH]; intros q q1 l2 q2 H H2; cbn in *; [subst; exact H2|]. destruct H as [q3 [D H]]. exists q3. split; [exact D|]. exact (IH _ _ _ _ H H2).
Qed.
Lemma does_length c q a q' : does c q a q' -> (Z.of_nat (length q) <= capacity)%Z -> (Z.of_nat (length q') <= capacity)%Z.
Proof.
  destruct c; cbn [does]; intros D L.
  - destruct D as [[R [_ ->]]|[_ [_ ->]]]; [rewrite app_length; cbn|]; lia.
  - destruct D as [[R [_ ->]]|[_ [_ ->]]]; [rewrite app_length; cbn|]; lia.
  - destruct D as [R [_ ->]]. rewrite app_length; cbn; lia.
  - destruct D as [[R [_ ->]]|[_ [_ ->]]]; [rewrite app_length|]; lia.
  - destruct D as [_ ->]. exact L.
  - destruct D as [_ ->]. destruct q; cbn in *; lia.
  - destruct D as [_ ->]. destruct q; cbn in *; lia.
  - destruct D as [x [-> _]]. cbn in L. lia.
  - destruct D as [_ ->]. rewrite skipn_length. lia.
  - destruct D as [_ ->]. exact L.
  - destruct D as [_ ->]. exact L.
  - destruct D as [-> _]. exact L.
  - destruct D as [[q1 [x [q2 [-> [_ [_ [-> _]]]]]]]|[_ [-> _]]]; [rewrite app_length in *; cbn in L; lia|exact L].
  - destruct D as [_ ->]. cbn. lia.
  - destruct D as [_ ->]. exact L.
Qed.
Lemma history_length : forall l q q', history q l q' -> (Z.of_nat (length q) <= capacity)%Z -> (Z.of_nat (length q') <= capacity)%Z.
Proof.
  induction l as [|[[[i c] a] t] l IH]; intros q q' H L; cbn in *; [subst; exact L|]. destruct H as [q3 [D H]]. apply (IH _ _ H). apply (does_length _ _ _ _ D L).
Qed.
Lemma does_flow i t c q a q' : inOrder c -> noNull c -> ~ In None q -> does c q a q' -> q ++ putIn (i, c, a, t) = takenOut (i, c, a, t) ++ q' /\ ~ In None q'.
Proof.
  intros IO NN NQ D. assert (APP : forall es : list elem, ~ In None es -> ~ In None (q ++ es)) by (intros es H I; apply in_app_iff in I; tauto).
  assert (ONE : forall e : elem, e <> None -> ~ In None [e]) by (intros e H [Q|[]]; exact (H Q)).
  destruct c; cbn [does inOrder noNull] in *; try contradiction.
  - destruct D as [[R [-> ->]]|[_ [-> ->]]]; cbn; rewrite ?app_nil_r; auto.
  - destruct D as [[R [-> ->]]|[_ [-> ->]]]; cbn; rewrite ?app_nil_r; auto.
  - destruct D as [R [-> ->]]; cbn; auto.
  - destruct D as [[R [-> ->]]|[_ [-> ->]]]; cbn; rewrite ?app_nil_r; auto.
  - destruct D as [-> ->]; cbn; rewrite ?app_nil_r; auto.
  - destruct D as [-> ->]. destruct q as [|[v|] q]; cbn; rewrite ?app_nil_r; auto; [|exfalso; apply NQ; left; reflexivity]. split; [reflexivity|]. intro I; apply NQ; right; exact I.
  - destruct D as [-> ->]. destruct q as [|[v|] q]; cbn; rewrite ?app_nil_r; auto; [|exfalso; apply NQ; left; reflexivity]. split; [reflexivity|]. intro I; apply NQ; right; exact I.
  - destruct D as [x [-> ->]]. destruct x as [v|]; cbn; rewrite ?app_nil_r; auto; [|exfalso; apply NQ; left; reflexivity]. split; [reflexivity|]. intro I; apply NQ; right; exact I.
  - destruct D as [-> ->]. cbn. rewrite app_nil_r, firstn_skipn. split; [reflexivity|]. intro I. apply NQ. exact (in_skip _ _ _ I).
  - destruct D as [-> ->]; cbn; rewrite ?app_nil_r; auto.
  - destruct D as [-> ->]; cbn; rewrite ?app_nil_r; auto.
  - destruct D as [-> [b [-> _]]]; cbn; rewrite ?app_nil_r; auto.
  - destruct D as [-> ->]; cbn; rewrite ?app_nil_r; auto.
Qed.
Lemma history_flow : forall l q q', (forall i c a t, In (i, c, a, t) l -> inOrder c /\ noNull c) -> ~ In None q -> history q l q' ->
  q ++ flat_map putIn l = flat_map takenOut l ++ q'.
Proof.
  induction l as [|[[[i c] a] t] l IH]; intros q q' F N H; cbn [history] in H; cbn [flat_map].
  - subst. rewrite app_nil_r. reflexivity.
  - destruct H as [q1 [D H]]. destruct (F i c a t (or_introl eq_refl)) as [F1 F2]. destruct (does_flow i t c q a q1 F1 F2 N D) as [E N1].
    rewrite (app_assoc q). etransitivity; [exact (f_equal (fun z => z ++ _) E)|]. rewrite <- !app_assoc. f_equal. apply (IH q1 q'); [intros; apply (F i0 c0 a0 t0); right; assumption|exact N1|exact H].
Qed.

(** *** Executions *)
Record inv (y : system A) : Prop := {
  iHist : history [] (log (sh y)) (queue (sh y));
  iNull : ~ In None (queue (sh y));
  iOps : forall k, In k (calls y) -> noNull (op k);
  iIds : forall x, In x (log (sh y)) -> idOf x < length (calls y);
  iCalls : forall i k, nth_error (calls y) i = Some k ->
    match at_ k with
    | Ended WasInterrupted => entries i (log (sh y)) = []
    | Ended a => exists t, entries i (log (sh y)) = [(i, op k, a, t)] /\ timely (op k) (born k) a t
    | Start => entries i (log (sh y)) = [] /\ (born k <= now (sh y))%Z
    | Sleep b u => entries i (log (sh y)) = [] /\ (born k <= b <= now (sh y))%Z /\ u = option_map (Z.add b) (limitOf (op k)) 
    | Back b => entries i (log (sh y)) = [] /\ (born k <= b <= now (sh y))%Z
    | BackInt => entries i (log (sh y)) = []
    end;
  iWait : forall i, In i (waiting (sh y)) -> exists k b u, nth_error (calls y) i = Some k /\ at_ k = Sleep b u }.

Lemma mem_In i l : mem i l = true <-> In i l.
Proof. unfold mem. rewrite existsb_exists. split; [intros [x [I E]]; apply Nat.eqb_eq in E; subst; exact I|intro I; exists i; split; [exact I|apply Nat.eqb_refl]]. Qed.
Lemma del_In i j l : In j (del i l) <-> In j l /\ j <> i.
Proof. unfold del. rewrite filter_In, negb_true_iff, Nat.eqb_neq. intuition. Qed.
Lemma entries_app i l (x : nat * operation A * answer A * Z) : entries i (l ++ [x]) = entries i l ++ (if idOf x =? i then [x] else []).
Proof. unfold entries. rewrite filter_app. cbn. destruct (idOf x =? i); reflexivity. Qed.
Lemma entries_none i (l : list (nat * operation A * answer A * Z)) : (forall x, In x l -> idOf x < i) -> entries i l = [].
Proof.
  induction l as [|x l IH]; intro H; [reflexivity|]. cbn. destruct (Nat.eqb_spec (idOf x) i) as [E|E]; [specialize (H x (or_introl eq_refl)); lia|]. apply IH. intros z Z. apply H. right. exact Z.
Qed.
Definition put (l : list (call A)) (i : nat) (k : call A) := firstn i l ++ k :: skipn (S i) l.
Lemma put_nth l i k j : i < length l -> nth_error (put l i k) j = if j =? i then Some k else nth_error l j.
Proof.
  intro L. unfold put. assert (F : length (firstn i l) = i) by (rewrite firstn_length; lia). destruct (Nat.eqb_spec j i) as [->|N].
  - rewrite nth_error_app2 by lia. rewrite F, Nat.sub_diag. reflexivity.
  - destruct (Nat.lt_ge_cases j i).
    + rewrite nth_error_app1 by lia. rewrite <- (firstn_skipn i l) at 2. rewrite nth_error_app1 by lia. reflexivity.
    + rewrite nth_error_app2 by lia. rewrite F. destruct (j - i) as [|d] eqn:D; [lia|]. cbn. rewrite <- (firstn_skipn (S i) l) at 2. rewrite nth_error_app2 by (rewrite firstn_length; lia).
      f_equal. rewrite firstn_length. lia.
Qed.
Lemma put_length l i k : i < length l -> length (put l i k) = length l.
Proof. intro L. unfold put. rewrite app_length, firstn_length. cbn [length]. rewrite skipn_length. lia. Qed.
Lemma put_In l i k x : In x (put l i k) -> x = k \/ In x l.
Proof.
  unfold put. intro I. apply in_app_iff in I. destruct I as [I|[<-|I]]; auto; right.
  - rewrite <- (firstn_skipn i l). apply in_app_iff. auto.
  - rewrite <- (firstn_skipn (S i) l). apply in_app_iff. auto.
Qed.

(** A step that changes neither the queue nor the log. *)
Lemma inv_same y i k s' p' : inv y -> nth_error (calls y) i = Some k ->
  queue s' = queue (sh y) -> log s' = log (sh y) -> now s' = now (sh y) ->
  (forall j, In j (waiting s') -> In j (waiting (sh y)) /\ j <> i \/ j = i /\ exists b u, p' = Sleep b u) ->
  match p' with
  | Ended WasInterrupted => entries i (log (sh y)) = []
  | Ended _ => False
  | Start => entries i (log (sh y)) = [] /\ (born k <= now (sh y))%Z
  | Sleep b u => entries i (log (sh y)) = [] /\ (born k <= b <= now (sh y))%Z /\ u = option_map (Z.add b) (limitOf (op k)) 
  | Back b => entries i (log (sh y)) = [] /\ (born k <= b <= now (sh y))%Z
  | BackInt => entries i (log (sh y)) = []
  end ->
  inv {| sh := s'; calls := put (calls y) i {| op := op k; born := born k; at_ := p' |} |}.
Proof.
  intros I E Q L T W P. assert (LI : i < length (calls y)) by (apply nth_error_Some; congruence). destruct I as [H1 H2 H3 H4 H5 H6]. split; cbn [sh calls]; rewrite ?Q, ?L, ?T; auto.
  - intros x X. apply put_In in X. destruct X as [->|X]; [apply (H3 k (nth_error_In _ _ E))|exact (H3 x X)].
  - intros x X. rewrite put_length by exact LI. exact (H4 x X).
  - intros j x X. rewrite put_nth in X by exact LI. destruct (Nat.eqb_spec j i) as [->|N]; [|exact (H5 j x X)]. injection X as <-. cbn [at_ op born]. destruct p' as [| | | |a]; auto. destruct a; auto; contradiction.
  - intros j J. rewrite put_nth by exact LI. destruct (W j J) as [[J1 J2]|[-> [b [u ->]]]].
    + destruct (Nat.eqb_spec j i); [contradiction|]. exact (H6 j J1).
    + rewrite Nat.eqb_refl. eexists; exists b, u. split; reflexivity.
Qed.
Lemma inv_finish y i k : inv y -> nth_error (calls y) i = Some k -> entries i (log (sh y)) = [] -> (forall b u, at_ k <> Sleep b u) ->
  (limitOf (op k) = None -> blocked capacity (op k) (queue (sh y)) = false) ->
  (blocked capacity (op k) (queue (sh y)) = true -> exists d, limitOf (op k) = Some d /\ (d <= now (sh y) - born k)%Z) ->
  inv {| sh := fst (finish eqA capacity i (op k) (sh y)); calls := put (calls y) i {| op := op k; born := born k; at_ := snd (finish eqA capacity i (op k) (sh y)) |} |}.
Proof.
  intros I E EN NS B D. unfold finish. destruct (act (op k) (queue (sh y))) as [[q n] a] eqn:AE. cbn [fst snd].
  assert (LI : i < length (calls y)) by (apply nth_error_Some; congruence). destruct I as [H1 H2 H3 H4 H5 H6].
  destruct (act_ok _ _ _ _ _ (H3 k (nth_error_In _ _ E)) H2 B AE) as [A1 [A2 [A3 _]]].
  assert (TI : timely (op k) (born k) a (now (sh y))).
  { destruct (blocked capacity (op k) (queue (sh y))) eqn:BL.
    - destruct (D eq_refl) as [d [L T]]. unfold timely. destruct (op k); auto; cbn in L; subst; destruct a as [|[]| [] | | | | |]; auto.
    - unfold timely. destruct (op k); auto; cbn in AE, BL.
      + apply negb_false_iff in BL. rewrite BL in AE. injection AE as <- <- <-. exact I.
      + destruct (queue (sh y)) as [|[v|] q0]; [discriminate| |]; injection AE as <- <- <-; exact I. }
  split; cbn [sh calls queue log now waiting].
  - eapply history_app; [exact H1|]. cbn. exists q. auto.
  - exact A2.
  - intros x X. apply put_In in X. destruct X as [->|X]; [apply (H3 k (nth_error_In _ _ E))|exact (H3 x X)].
  - intros x X. rewrite put_length by exact LI. apply in_app_iff in X. destruct X as [X|[<-|[]]]; [exact (H4 x X)|exact LI].
  - intros j x X. rewrite put_nth in X by exact LI. rewrite entries_app. cbn [idOf]. destruct (Nat.eqb_spec j i) as [->|N].
    + injection X as <-. rewrite Nat.eqb_refl, EN. cbn [at_ op born app]. destruct a; try contradiction; exists (now (sh y)); split; auto.
    + destruct (Nat.eqb_spec i j); [congruence|]. rewrite app_nil_r. exact (H5 j x X).
  - intros j J. assert (In j (waiting (sh y))) as J1 by (destruct n; [destruct J|exact J]). destruct (H6 j J1) as [x [b [u [X P]]]].
    rewrite put_nth by exact LI. destruct (Nat.eqb_spec j i) as [->|N]; [|eauto]. exfalso. assert (x = k) by congruence. subst. apply (NS b u P).
Qed.

Lemma inv_attempt y i k b r : inv y -> nth_error (calls y) i = Some k -> entries i (log (sh y)) = [] -> (forall b u, at_ k <> Sleep b u) ->
  (born k <= b <= now (sh y))%Z -> r = option_map (fun d => (d - (now (sh y) - b))%Z) (limitOf (op k)) ->
  inv {| sh := fst (attempt eqA capacity i (op k) b r (sh y)); calls := put (calls y) i {| op := op k; born := born k; at_ := snd (attempt eqA capacity i (op k) b r (sh y)) |} |}.
Proof.
  intros I E EN NS T R. unfold attempt. destruct (blocked capacity (op k) (queue (sh y))) eqn:B; cbn [andb].
  - destruct (left_ r) eqn:L.
    + unfold goSleep. destruct (mem i (interrupted (sh y))); cbn [fst snd]; apply inv_same; auto.
      * intros j J. left. split; [exact J|]. intros ->. destruct (iWait _ I i J) as [x [b1 [u [X P]]]]. assert (x = k) by congruence. subst x. apply (NS b1 u P).
      * cbn [waiting]. intros j [<-|J]; [right; eauto|]. left. split; [exact J|]. intros ->. destruct (iWait _ I i J) as [x [b1 [u [X P]]]]. assert (x = k) by congruence. subst x. apply (NS b1 u P).
      * split; [exact EN|]. split; [exact T|]. subst r. destruct (limitOf (op k)); cbn; [f_equal; lia|reflexivity].
    + apply inv_finish; auto.
      * intro L0. rewrite R, L0 in L. discriminate.
      * intros _. subst r. destruct (limitOf (op k)) as [d|]; [|discriminate]. exists d. split; [reflexivity|]. cbn in L. apply Z.ltb_ge in L. lia.
  - apply inv_finish; auto. rewrite B. discriminate.
Qed.

Lemma inv_next y e : inv y -> (match e with Begin c => noNull c | _ => True end) -> inv (next_ y e).
Proof.
  intros I N. destruct e as [c|i|i|i|d]; cbn [next_].
  - destruct I as [H1 H2 H3 H4 H5 H6]. split; cbn [sh calls]; auto.
    + intros k K. apply in_app_iff in K. destruct K as [K|[<-|[]]]; [exact (H3 k K)|exact N].
    + intros x X. rewrite app_length. specialize (H4 x X). lia.
    + intros i k K. destruct (Nat.lt_ge_cases i (length (calls y))) as [L|L].
      * rewrite nth_error_app1 in K by exact L. exact (H5 i k K).
      * rewrite nth_error_app2 in K by exact L. destruct (i - length (calls y)) as [|d] eqn:D; [|destruct d; discriminate]. injection K as <-. cbn. split; [|lia].
        apply entries_none. intros x X. specialize (H4 x X). lia.
    + intros i J. destruct (H6 i J) as [k [b [u [K P]]]]. exists k, b, u. split; [|exact P]. rewrite nth_error_app1; [exact K|]. apply nth_error_Some. congruence.
  - destruct (nth_error (calls y) i) as [k|] eqn:E; [|exact I]. pose proof (iCalls _ I i k E) as C. pose proof (iWait _ I) as W.
    destruct (at_ k) as [|b u|b| |a] eqn:P; cbn [step].
    + rewrite (surjective_pairing (attempt _ _ _ _ _ _ _)). destruct C as [C1 C2]. apply inv_attempt; auto; [congruence|lia|]. destruct (limitOf (op k)); cbn; [f_equal; lia|reflexivity].
    + destruct C as [C1 [C2 C3]]. destruct (mem i (interrupted (sh y))).
      { apply inv_same; auto. cbn. intros j J. apply del_In in J. auto. }
      destruct (mem i (waiting (sh y))) eqn:M; cbn [negb].
      * destruct u as [t|]; [|exact I]. destruct (t <=? now (sh y))%Z; [|exact I]. apply inv_same; auto. cbn. intros j J. apply del_In in J. auto.
      * apply inv_same; auto. intros j J. left. split; [exact J|]. intros ->. apply mem_In in J. congruence.
    + rewrite (surjective_pairing (attempt _ _ _ _ _ _ _)). destruct C as [C1 C2]. apply inv_attempt; auto. congruence.
    + apply inv_same; auto. intros j J. left. split; [exact J|]. intros ->. destruct (W i J) as [x [b [u [X Q]]]]. congruence.
    + exact I.
  - destruct I as [H1 H2 H3 H4 H5 H6]. split; cbn; auto.
  - destruct I as [H1 H2 H3 H4 H5 H6]. split; cbn; auto. intros j J. apply del_In in J. apply H6, J.
  - destruct I as [H1 H2 H3 H4 H5 H6]. split; cbn; auto. intros i k K. specialize (H5 i k K). destruct (at_ k) as [| | | |a]; auto.
    + split; [apply H5|lia].
    + destruct H5 as [G1 [G2 G3]]. repeat split; auto; lia.
    + split; [apply H5|lia].
Qed.
Lemma inv_start : inv {| sh := initial; calls := [] |}.
Proof. split; cbn; auto; try contradiction. intros [|i] k H; discriminate. Qed.
Lemma inv_fold : forall es y, inv y -> Forall noNull (callsOf es) -> inv (fold_left next_ es y).
Proof.
  induction es as [|e es IH]; intros y I F; [exact I|]. cbn [fold_left]. unfold callsOf in F. cbn [flat_map] in F. apply Forall_app in F. destruct F as [F1 F2]. apply IH; [|exact F2].
  apply inv_next; [exact I|]. destruct e; auto. inversion F1. assumption.
Qed.
Lemma inv_run es : Forall noNull (callsOf es) -> inv (run es).
Proof. intro F. apply inv_fold; [apply inv_start|exact F]. Qed.

(** *** Who waits *)
Lemma act_quiet c q q' a : quiet c -> ~ In None q -> act c q = (q', false, a) -> q' = q.
Proof.
  intros Q N E. destruct c; cbn [act quiet] in *; try contradiction.
  - destruct (hasRoom capacity q); congruence.
  - destruct (hasRoom capacity q); congruence.
  - congruence.
  - congruence.
  - destruct q as [|[v|] q]; cbn in E; try congruence. exfalso; apply N; left; reflexivity.
  - destruct q as [|[v|] q]; cbn in E; try congruence. exfalso; apply N; left; reflexivity.
  - destruct q as [|[v|] q]; cbn in E; try congruence. exfalso; apply N; left; reflexivity.
  - rewrite (drain_ok q max N) in E. injection E as <- H _. unfold BQueue_Model.elem in *. apply negb_false_iff, Z.eqb_eq in H.
    replace (Nat.min (Z.to_nat max) (length q)) with 0 by lia. reflexivity.
  - congruence.
  - congruence.
  - congruence.
  - destruct (removeOne eqA e q); congruence.
  - congruence.
Qed.
Definition sleepers (y : system A) : Prop := forall i k, In i (waiting (sh y)) -> nth_error (calls y) i = Some k -> blocked capacity (op k) (queue (sh y)) = true.
Lemma sleepers_same y i k s' p' : sleepers y -> nth_error (calls y) i = Some k -> queue s' = queue (sh y) ->
  (forall j, In j (waiting s') -> In j (waiting (sh y)) \/ j = i /\ blocked capacity (op k) (queue (sh y)) = true) ->
  sleepers {| sh := s'; calls := put (calls y) i {| op := op k; born := born k; at_ := p' |} |}.
Proof.
  intros S E Q W j x J X. cbn [sh calls] in *. assert (LI : i < length (calls y)) by (apply nth_error_Some; congruence). rewrite put_nth in X by exact LI. rewrite Q.
  destruct (Nat.eqb_spec j i) as [->|N].
  - injection X as <-. cbn [op]. destruct (W i J) as [J1|[_ J1]]; [exact (S i k J1 E)|exact J1].
  - destruct (W j J) as [J1|[J1 _]]; [exact (S j x J1 X)|contradiction].
Qed.
Lemma sleepers_attempt y i k b r : inv y -> sleepers y -> quiet (op k) -> nth_error (calls y) i = Some k ->
  sleepers {| sh := fst (attempt eqA capacity i (op k) b r (sh y)); calls := put (calls y) i {| op := op k; born := born k; at_ := snd (attempt eqA capacity i (op k) b r (sh y)) |} |}.
Proof.
  intros I SL QU E. unfold attempt. destruct (blocked capacity (op k) (queue (sh y)) && left_ r) eqn:B.
  - apply andb_true_iff in B. destruct B as [B _]. unfold goSleep. destruct (mem i (interrupted (sh y))); cbn [fst snd]; apply sleepers_same; auto.
    cbn. intros j [<-|J]; auto.
  - unfold finish. destruct (act (op k) (queue (sh y))) as [[q n] a] eqn:AE. cbn [fst snd]. destruct n.
    + intros j x J. destruct J.
    + apply sleepers_same; auto. cbn. apply (act_quiet _ _ _ _ QU (iNull _ I) AE).
Qed.
Lemma sleepers_next y e : inv y -> sleepers y -> (forall k, In k (calls y) -> quiet (op k)) -> sleepers (next_ y e).
Proof.
  intros I SL QU. destruct e as [c|i|i|i|d]; cbn [next_].
  - intros i k J K. cbn [sh calls] in *. destruct (iWait _ I i J) as [x [b [u [X P]]]]. rewrite nth_error_app1 in K by (apply nth_error_Some; congruence). exact (SL i k J K).
  - destruct (nth_error (calls y) i) as [k|] eqn:E; [|exact SL]. pose proof (QU k (nth_error_In _ _ E)) as QK.
    destruct (at_ k) as [|b u|b| |a] eqn:P; cbn [step].
    + rewrite (surjective_pairing (attempt _ _ _ _ _ _ _)). apply sleepers_attempt; auto.
    + destruct (mem i (interrupted (sh y))).
      { apply sleepers_same; auto. cbn. intros j J. apply del_In in J. left. apply J. }
      destruct (mem i (waiting (sh y))) eqn:M; cbn [negb].
      * destruct u as [t|]; [|exact SL]. destruct (t <=? now (sh y))%Z; [|exact SL]. apply sleepers_same; auto. cbn. intros j J. apply del_In in J. left. apply J.
      * apply sleepers_same; auto.
    + rewrite (surjective_pairing (attempt _ _ _ _ _ _ _)). apply sleepers_attempt; auto.
    + apply sleepers_same; auto.
    + exact SL.
  - exact SL.
  - intros j k J K. cbn [sh calls waiting queue] in *. apply del_In in J. exact (SL j k (proj1 J) K).
  - exact SL.
Qed.
Lemma ops_next y e k : In k (calls (next_ y e)) -> (exists k0, In k0 (calls y) /\ op k0 = op k) \/ e = Begin (op k).
Proof.
  intro K. destruct e as [c|i|i|i|d]; cbn [next_ calls] in K; eauto.
  - apply in_app_iff in K. destruct K as [K|[<-|[]]]; eauto.
  - left. destruct (nth_error (calls y) i) as [x|] eqn:E; [|eauto]. destruct (step i (op x) (at_ x) (sh y)) as [[s' p']|]; [|eauto]. cbn [calls] in K. apply put_In in K. destruct K as [->|K]; [|eauto].
    exists x. split; [exact (nth_error_In _ _ E)|reflexivity].
Qed.
Lemma sleepers_fold : forall es y, inv y -> sleepers y -> (forall k, In k (calls y) -> quiet (op k)) -> Forall noNull (callsOf es) -> Forall quiet (callsOf es) -> sleepers (fold_left next_ es y).
Proof.
  induction es as [|e es IH]; intros y I SL QU F G; [exact SL|]. cbn [fold_left]. unfold callsOf in F, G. cbn [flat_map] in F, G. apply Forall_app in F, G. destruct F as [F1 F2], G as [G1 G2].
  apply IH; auto.
  - apply inv_next; [exact I|]. destruct e; auto. inversion F1. assumption.
  - apply sleepers_next; auto.
  - intros k K. apply ops_next in K. destruct K as [[k0 [K E]]| ->]; [rewrite <- E; apply QU, K|]. inversion G1. assumption.
Qed.
Lemma sleepers_run es : Forall noNull (callsOf es) -> Forall quiet (callsOf es) -> sleepers (run es).
Proof. intros F G. apply sleepers_fold; auto; [apply inv_start|intros i k []|intros k []]. Qed.

(** *** The log only grows *)
Definition opOf (x : nat * operation A * answer A * Z) : operation A := match x with (_, c, _, _) => c end.
Lemma step_log i c p s s' p' : step i c p s = Some (s', p') -> exists m, log s' = log s ++ m /\ (forall x, In x m -> idOf x = i /\ opOf x = c).
Proof.
  assert (SAME : exists m, log s = log s ++ m /\ (forall x, In x m -> idOf x = i /\ opOf x = c)) by (exists []; rewrite app_nil_r; split; [reflexivity|intros x []]).
  assert (AT : forall b r, exists m, log (fst (attempt eqA capacity i c b r s)) = log s ++ m /\ (forall x, In x m -> idOf x = i /\ opOf x = c)).
  { intros b r. unfold attempt. destruct (blocked capacity c (queue s) && left_ r); [unfold goSleep; destruct (mem i (interrupted s)); exact SAME|].
    unfold finish. destruct (act c (queue s)) as [[q n] a]. exists [(i, c, a, now s)]. split; [reflexivity|]. intros x [<-|[]]. split; reflexivity. }
  intro E. destruct p as [|b u|b| |a]; cbn [step] in E.
  - injection E as E. specialize (AT (now s) (limitOf c)). rewrite E in AT. exact AT.
  - destruct (mem i (interrupted s)); [injection E as <- <-; exact SAME|]. destruct (negb (mem i (waiting s))); [injection E as <- <-; exact SAME|].
    destruct u as [t|]; [|discriminate]. destruct (t <=? now s)%Z; [|discriminate]. injection E as <- <-; exact SAME.
  - injection E as E. specialize (AT b (match limitOf c with Some d => Some (d - (now s - b))%Z | None => None end)). rewrite E in AT. exact AT.
  - injection E as <- <-. exact SAME.
  - discriminate.
Qed.
Lemma ended_stays y e i k a : nth_error (calls y) i = Some k -> at_ k = Ended a -> nth_error (calls (next_ y e)) i = Some k.
Proof.
  intros K E. assert (LI : i < length (calls y)) by (apply nth_error_Some; congruence). destruct e as [c|j|j|j|d]; cbn [next_ calls]; auto.
  - rewrite nth_error_app1 by exact LI. exact K.
  - destruct (nth_error (calls y) j) as [x|] eqn:X; [|exact K]. destruct (step j (op x) (at_ x) (sh y)) as [[s' p']|] eqn:ST; [|exact K]. cbn [calls].
    change (firstn j (calls y) ++ _ :: skipn (Datatypes.S j) (calls y)) with (put (calls y) j {| op := op x; born := born x; at_ := p' |}).
    rewrite put_nth by (apply nth_error_Some; congruence). destruct (Nat.eqb_spec i j) as [->|N]; [|exact K]. assert (x = k) by congruence. subst x. rewrite E in ST. discriminate.
Qed.
Lemma fold_log : forall es y, exists m, log (sh (fold_left next_ es y)) = log (sh y) ++ m /\
  (forall x, In x m -> forall k a, nth_error (calls y) (idOf x) = Some k -> at_ k <> Ended a).
Proof.
  induction es as [|e es IH]; intro y; [exists []; rewrite app_nil_r; split; [reflexivity|intros x []]|]. cbn [fold_left].
  destruct (IH (next_ y e)) as [m [E M]]. assert (ONE : exists m1, log (sh (next_ y e)) = log (sh y) ++ m1 /\ (forall x, In x m1 -> forall k a, nth_error (calls y) (idOf x) = Some k -> at_ k <> Ended a)).
  { assert (SAME : exists m1, log (sh y) = log (sh y) ++ m1 /\ (forall x, In x m1 -> forall k a, nth_error (calls y) (idOf x) = Some k -> at_ k <> Ended a)) by (exists []; rewrite app_nil_r; split; [reflexivity|intros x []]).
    destruct e as [c|i|i|i|d]; cbn [next_ sh log]; auto. destruct (nth_error (calls y) i) as [k|] eqn:K; [|exact SAME].
    destruct (step i (op k) (at_ k) (sh y)) as [[s' p']|] eqn:ST; [|exact SAME]. cbn [sh]. destruct (step_log _ _ _ _ _ _ ST) as [m1 [E1 M1]]. exists m1. split; [exact E1|].
    intros x X k1 a K1 D. rewrite (proj1 (M1 x X)) in K1. assert (k1 = k) by congruence. subst k1. rewrite D in ST. discriminate. }
  destruct ONE as [m1 [E1 M1]]. exists (m1 ++ m). split; [rewrite E, E1, app_assoc; reflexivity|]. intros x X k a K D. apply in_app_iff in X. destruct X as [X|X]; [exact (M1 x X k a K D)|].
  exact (M x X k a (ended_stays _ e _ _ _ K D) D).
Qed.

(** *** What is in the log was called *)
Lemma log_calls es i c a t : In (i, c, a, t) (log (sh (run es))) -> In c (callsOf es).
Proof.
  unfold run. assert (G : forall es y cs, (forall k, In k (calls y) -> In (op k) cs) -> (forall i c a t, In (i, c, a, t) (log (sh y)) -> In c cs) ->
    forall i c a t, In (i, c, a, t) (log (sh (fold_left next_ es y))) -> In c (cs ++ callsOf es)).
  { clear. induction es as [|e es IH]; intros y cs C L i c a t I; [rewrite app_nil_r; exact (L _ _ _ _ I)|]. cbn [fold_left] in I.
    unfold callsOf. cbn [flat_map]. fold (callsOf es). rewrite app_assoc. apply (IH (next_ y e)) with (i := i) (a := a) (t := t); [| |exact I].
    - intros k K. apply ops_next in K. apply in_app_iff. destruct K as [[k0 [K E]]| ->]; [left; rewrite <- E; apply C, K|right; left; reflexivity].
    - clear I i c a t. intros i c a t I. apply in_app_iff. left. destruct e as [c0|j|j|j|d]; cbn [next_ sh log] in I; try exact (L _ _ _ _ I).
      destruct (nth_error (calls y) j) as [k|] eqn:K; [|exact (L _ _ _ _ I)]. destruct (step j (op k) (at_ k) (sh y)) as [[s' p']|] eqn:ST; [|exact (L _ _ _ _ I)]. cbn [sh] in I.
      pose proof (C k (nth_error_In _ _ K)) as CK.
      destruct (step_log _ _ _ _ _ _ ST) as [m [E M]]. rewrite E in I. apply in_app_iff in I. destruct I as [I|I]; [exact (L _ _ _ _ I)|]. destruct (M _ I) as [_ M2]. cbn in M2. subst c. exact CK. }
  intro I. apply (G es {| sh := initial; calls := [] |} [] (fun k H => H) (fun _ _ _ _ H => H) i c a t I).
Qed.
End P.
