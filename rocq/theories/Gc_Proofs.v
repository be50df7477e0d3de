(** Proofs for [Gc_Model]. *)
From Coq Require Import List Bool Arith ZArith Lia Permutation FinFun.
From Verif Require Import Chain Gc_Model Gc_Spec.
Import ListNotations.

Lemma upd2_o : forall m o i w a j, (a <> o \/ j <> i) -> upd2 m o i w a j = m a j.
Proof. intros. unfold upd2. destruct (Nat.eqb_spec a o), (Nat.eqb_spec j i); cbn; auto; tauto. Qed.
Lemma upd2_s : forall m o i w, upd2 m o i w o i = w.
Proof. intros. unfold upd2. rewrite !Nat.eqb_refl. auto. Qed.

Section P.
Variable e : env.
Variable m0 : nat -> nat -> word.
Variable rt0 : nat -> word.
Variable offs : nat -> list nat.
Variable K : nat -> Prop.
Notation B := (base e).
Notation loc := (loc_ e).

Inductive cat_ := Move | Fix | Skip.
Definition cat (x : nat) : cat_ :=
  match loc x with
  | Fixed a => if major e || (a <? FixieTenureThreshold) then Fix else Skip
  | Gen2 => if major e then Move else Skip
  | _ => Move
  end.
Definition promoted (o : nat) : bool := match promote (loc o) with Gen2 => true | _ => false end.
Definition ten (y : nat) : bool := promoted y || match loc y with Fixed a => FixieTenureThreshold <=? a | _ => false end.
Definition trk (y : nat) : bool := promoted y || match loc y with Fixed a => FixieTenureThreshold <=? S a | _ => false end.

Definition isCopy (L : list nat) (x c : nat) : Prop := B <= c /\ nth_error L (c - B) = Some x.
Definition img (L : list nat) (M : nat -> bool) (y y' : nat) : Prop :=
  match cat y with Move => isCopy L y y' | Fix => y' = y /\ M y = true | Skip => y' = y end.
Definition imgw L M (w w' : word) : Prop :=
  match w with Ref (Some y) l => exists y', img L M y y' /\ w' = Ref (Some y') l | _ => w' = w end.
Definition get0 (l : slot) : word := match l with Root r => rt0 r | Field o i => m0 o i end.
(** slots outside copies: roots, and fields of objects that stay *)
Definition ext (l : slot) : Prop := match l with Root _ => True | Field o _ => o < B /\ cat o <> Move end.
Definition tgt (x i : nat) : nat := match ptr (m0 x i) with Some y => y | None => 0 end.

Hypothesis Hclosed : forall x i y, x < B -> K x -> In i (offs x) -> ptr (m0 x i) = Some y -> y < B.
Hypothesis Hoffs : forall x, K x -> NoDup (offs x).
Hypothesis HK : forall x i y, K x -> In i (offs x) -> ptr (m0 x i) = Some y -> K y.

Record Inv (L : list nat) (R D V : nat -> nat -> Prop) (Rl Dl : slot -> Prop) (W : list nat) (h : heap) : Prop := {
  i_next : next h = B + length L;
  i_nd : NoDup L;
  i_mv : forall x, In x L -> x < B /\ cat x = Move;
  i_fwd : forall x c, isCopy L x c -> mem h x 0 = Ref (Some c) 0;
  i_un : forall x i, x < B -> cat x = Move -> ~ In x L -> mem h x i = m0 x i;
  i_data : forall x c i, isCopy L x c -> ~ In i (offs x) -> mem h c i = m0 x i;
  i_raw : forall x c i, isCopy L x c -> In i (offs x) -> R x i -> mem h c i = m0 x i;
  i_dn : forall x c i, isCopy L x c -> In i (offs x) -> D x i -> imgw L (mk h) (m0 x i) (mem h c i);
  i_lraw : forall l, ext l -> Rl l -> get h l = get0 l;
  i_ldn : forall l, ext l -> Dl l -> imgw L (mk h) (get0 l) (get h l);
  i_lof : forall o i, o < B -> cat o <> Move -> ~ In i (offs o) -> mem h o i = m0 o i;
  i_mk : forall f, mk h f = true <-> In f (marked h ++ W);
  i_mknd : NoDup (marked h ++ W);
  i_mkf : forall f, mk h f = true -> f < B /\ cat f = Fix;
  i_home : forall x c, isCopy L x c -> home h c = promote (loc x);
  i_lay0 : forall x, x < B -> lay h x = offs x;
  i_layc : forall x c, isCopy L x c -> lay h c = offs x;
  i_rem : forall x c i y, isCopy L x c -> In i (offs x) -> V x i -> trk x = true -> ptr (m0 x i) = Some y -> ten y = false -> rem h c i = true;
  i_lrem : forall o i y, ext (Field o i) -> Dl (Field o i) -> trk o = true -> ptr (m0 o i) = Some y -> ten y = false -> rem h o i = true;
  i_KL : forall x, In x L -> K x;
  i_KM : forall f, mk h f = true -> K f
}.

Lemma copy_in : forall L x c, isCopy L x c -> In x L.
Proof. intros L x c [_ H]. eapply nth_error_In; eauto. Qed.
Lemma in_copy : forall L x, In x L -> exists c, isCopy L x c.
Proof. intros L x H. destruct (In_nth_error _ _ H) as [n Hn]. exists (B + n). split. lia. replace (B + n - B) with n by lia. auto. Qed.
Lemma copy_fun : forall L x c c', NoDup L -> isCopy L x c -> isCopy L x c' -> c = c'.
Proof.
  intros L x c c' N [H1 H2] [H3 H4]. rewrite NoDup_nth_error in N.
  assert (c - B = c' - B). { apply N. apply nth_error_Some. congruence. congruence. } lia.
Qed.
Lemma copy_inj : forall L x y c, isCopy L x c -> isCopy L y c -> x = y.
Proof. intros L x y c [_ H] [_ H']. congruence. Qed.
Lemma copy_lt : forall L x c, isCopy L x c -> B <= c < B + length L.
Proof. intros L x c [H H']. assert (c - B < length L). apply nth_error_Some; congruence. lia. Qed.
Lemma copy_app : forall L N x c, isCopy L x c -> isCopy (L ++ N) x c.
Proof. intros L N x c [H H']. split; auto. rewrite nth_error_app1; auto. apply nth_error_Some; congruence. Qed.
Lemma copy_snoc : forall L y x c, isCopy (L ++ [y]) x c -> isCopy L x c \/ (x = y /\ c = B + length L).
Proof.
  intros L y x c [H H']. destruct (lt_dec (c - B) (length L)) as [l|l].
  - rewrite nth_error_app1 in H' by auto. left; split; auto.
  - rewrite nth_error_app2 in H' by lia. destruct (c - B - length L) as [|k] eqn:E.
    cbn in H'. right. split. congruence. lia. cbn in H'. destruct k; discriminate.
Qed.
Lemma copy_last : forall L y, isCopy (L ++ [y]) y (B + length L).
Proof. intros. split. lia. rewrite nth_error_app2 by lia. replace (B + length L - B - length L) with 0 by lia. reflexivity. Qed.

Lemma img_mono : forall L N (M M' : nat -> bool) y y', (forall f, M f = true -> M' f = true) -> img L M y y' -> img (L ++ N) M' y y'.
Proof. intros L N M M' y y' HM H. unfold img in *. destruct (cat y); auto. apply copy_app; auto. destruct H; auto. Qed.
Lemma imgw_mono : forall L N (M M' : nat -> bool) w w', (forall f, M f = true -> M' f = true) -> imgw L M w w' -> imgw (L ++ N) M' w w'.
Proof. intros L N M M' w w' HM H. destruct w as [[y|] l|z]; cbn in *; auto. destruct H as (y' & H & ->). exists y'. split; auto. eapply img_mono; eauto. Qed.
Lemma imgw_mk : forall L (M M' : nat -> bool) w w', (forall f, M f = true -> M' f = true) -> imgw L M w w' -> imgw L M' w w'.
Proof. intros. rewrite <- (app_nil_r L). eapply imgw_mono; eauto. Qed.

Lemma Inv_weak : forall L (R D V R' D' V' : nat -> nat -> Prop) (Rl Dl Rl' Dl' : slot -> Prop) W h, Inv L R D V Rl Dl W h ->
  (forall x i, R' x i -> R x i) -> (forall x i, D' x i -> D x i) -> (forall x i, V' x i -> V x i) ->
  (forall l, Rl' l -> Rl l) -> (forall l, Dl' l -> Dl l) -> Inv L R' D' V' Rl' Dl' W h.
Proof. intros L R D V R' D' V' Rl Dl Rl' Dl' W h [] **. constructor; eauto. Qed.

Lemma Inv_weak2 : forall L (R D V R' D' V' : nat -> nat -> Prop) (Rl Dl Rl' Dl' : slot -> Prop) W h, Inv L R D V Rl Dl W h ->
  (forall x i, In i (offs x) -> R' x i -> R x i) -> (forall x i, In i (offs x) -> D' x i -> D x i) -> (forall x i, In i (offs x) -> V' x i -> V x i) ->
  (forall l, Rl' l -> Rl l) -> (forall l, Dl' l -> Dl l) -> Inv L R' D' V' Rl' Dl' W h.
Proof. intros L R D V R' D' V' Rl Dl Rl' Dl' W h [] **. constructor; eauto. Qed.

(** What a slot's owner is. *)
Definition own (L : list nat) (l : slot) (l0 : slot) : Prop :=
  match l0, l with
  | Field x i, Field c j => i = j /\ In i (offs x) /\ (isCopy L x c \/ (c = x /\ x < B /\ cat x <> Move))
  | Root r, Root r' => r = r'
  | _, _ => False
  end.

Lemma i_aged : forall L R D V Rl Dl W h, Inv L R D V Rl Dl W h -> forall x c, isCopy L x c -> aged h c = promoted x.
Proof. intros L R D V Rl Dl W h I x c H. unfold aged, promoted. erewrite i_home; eauto. Qed.
Lemma tenured_img : forall L R D V Rl Dl W h y y', Inv L R D V Rl Dl W h -> img L (mk h) y y' -> y < B -> tenured e h y' = ten y.
Proof.
  intros L R D V Rl Dl W h y y' I H Hy. unfold img in H. unfold tenured, fresh, ten.
  destruct (cat y) eqn:C.
  - pose proof (copy_lt _ _ _ H). rewrite (proj2 (Nat.leb_le _ _)) by lia. rewrite (i_aged _ _ _ _ _ _ _ _ I _ _ H).
    unfold cat in C. destruct (loc y); try (rewrite orb_false_r; reflexivity). destruct (major e || _); discriminate.
  - destruct H as [-> _]. rewrite (proj2 (Nat.leb_gt _ _)) by lia. unfold cat in C. unfold promoted. destruct (loc y); try discriminate; auto.
    destruct (major e); discriminate.
  - subst y'. rewrite (proj2 (Nat.leb_gt _ _)) by lia. unfold cat in C. unfold promoted. destruct (loc y); try discriminate; auto.
    destruct (major e); try discriminate. auto.
Qed.
Lemma tracked_copy : forall L R D V Rl Dl W h x c, Inv L R D V Rl Dl W h -> isCopy L x c -> tracked e h c = trk x.
Proof.
  intros L R D V Rl Dl W h x c I H. unfold tracked, fresh, trk.
  pose proof (copy_lt _ _ _ H). rewrite (proj2 (Nat.leb_le _ _)) by lia. rewrite (i_aged _ _ _ _ _ _ _ _ I _ _ H).
  destruct (i_mv _ _ _ _ _ _ _ _ I _ (copy_in _ _ _ H)) as [_ C].
  unfold cat in C. destruct (loc x); try (rewrite orb_false_r; reflexivity). destruct (major e || _); discriminate.
Qed.
Lemma tracked_ext : forall h x, x < B -> cat x <> Move -> tracked e h x = trk x.
Proof.
  intros h x H C. unfold tracked, fresh, trk. rewrite (proj2 (Nat.leb_gt _ _)) by lia. unfold cat in C. unfold promoted.
  destruct (loc x); try congruence. destruct (major e); try congruence. auto. auto.
Qed.

(** Setting a remembered bit is harmless. *)
Lemma Inv_setRem : forall L R D V Rl Dl W h o i, Inv L R D V Rl Dl W h -> Inv L R D V Rl Dl W (setRem h o i true).
Proof.
  intros L R D V Rl Dl W h o i []. constructor; auto; intros; cbn; destruct (_ && _) eqn:E; eauto.
Qed.

(** copy *)
Lemma copy_ok : forall L R D V Rl Dl W h y h' r, Inv L R D V Rl Dl W h -> y < B -> cat y = Move -> ~ In y L -> K y -> copy e h y = (h', r) ->
  r = B + length L /\ Inv (L ++ [y]) (fun x i => (R x i /\ x <> y) \/ x = y) (fun x i => D x i /\ x <> y) (fun x i => V x i /\ x <> y) Rl Dl W h' /\
  (forall x i, In x L -> mem h' x i = mem h x i) /\ pend h' = pend h /\ mk h' = mk h /\ marked h' = marked h.
Proof.
  intros L R D V Rl Dl W h y h' r I Hy Cy Ny Ky E. unfold copy in E. injection E as <- <-.
  pose proof (i_next _ _ _ _ _ _ _ _ I) as Hn. split; [exact Hn|].
  assert (Hr : forall x c, isCopy L x c -> c <> next h) by (intros x c H; pose proof (copy_lt _ _ _ H); lia).
  assert (HL : forall x, In x L -> x <> y /\ x <> next h) by (intros x H; split; [congruence|pose proof (proj1 (i_mv _ _ _ _ _ _ _ _ I _ H)); lia]).
  assert (Hm : forall a j, a <> y -> a <> next h -> upd2 (fun a0 j0 => if a0 =? next h then mem h y j0 else mem h a0 j0) y 0 (Ref (Some (next h)) 0) a j = mem h a j).
  { intros a j Ha Hb. unfold upd2. rewrite (proj2 (Nat.eqb_neq a y)) by auto. cbn. rewrite (proj2 (Nat.eqb_neq a _)) by auto. auto. }
  assert (Hc : forall x c, isCopy L x c -> c <> y) by (intros x c H; pose proof (copy_lt _ _ _ H); lia).
  assert (Hcx : forall x c, isCopy L x c -> x <> y) by (intros x c H; pose proof (copy_in _ _ _ H); congruence).
  assert (Hr' : forall j, upd2 (fun a0 j0 => if a0 =? next h then mem h y j0 else mem h a0 j0) y 0 (Ref (Some (next h)) 0) (next h) j = m0 y j).
  { intros j. unfold upd2. rewrite (proj2 (Nat.eqb_neq (next h) y)) by lia. cbn. rewrite Nat.eqb_refl. eapply i_un; eauto. }
  split.
  - destruct I. constructor; cbn [next mem mk marked home lay rem root].
    + rewrite app_length. cbn. lia.
    + apply nodup_snoc; auto.
    + intros x H. apply in_app_iff in H. destruct H as [H|[<-|[]]]; auto.
    + intros x c H. apply copy_snoc in H. destruct H as [H|[-> ->]].
      * rewrite Hm; auto. apply HL. eapply copy_in; eauto. apply HL. eapply copy_in; eauto.
      * unfold upd2. rewrite !Nat.eqb_refl. cbn. congruence.
    + intros x i H1 H2 H3. rewrite in_app_iff in H3. rewrite Hm; auto. intro; subst; apply H3; right; left; auto. lia.
    + intros x c i H H'. apply copy_snoc in H. destruct H as [H|[-> ->]]. rewrite Hm; eauto. rewrite <- Hn. auto.
    + intros x c i H H' H''. apply copy_snoc in H. destruct H as [H|[-> ->]]. rewrite Hm; eauto. destruct H'' as [[]|]; eauto. destruct (Hcx _ _ H H0). rewrite <- Hn. auto.
    + intros x c i H H' [H1 H2]. apply copy_snoc in H. destruct H as [H|[-> ->]]; [|congruence]. rewrite Hm; eauto. eapply imgw_mono; eauto.
    + intros l H H'. specialize (i_lraw0 _ H H'). destruct l; cbn in *; auto. rewrite Hm; auto. intro; subst; tauto. lia.
    + intros l H H'. specialize (i_ldn0 _ H H'). apply (imgw_mono _ [y] (mk h) (mk h)) in i_ldn0; auto. destruct l; cbn in *; auto. rewrite Hm; auto. intro; subst; tauto. lia.
    + intros o i H H' H''. rewrite Hm; auto. intro; subst; tauto. lia.
    + auto. + auto. + auto.
    + intros x c H. apply copy_snoc in H. unfold upd. destruct H as [H|[-> ->]]. rewrite (proj2 (Nat.eqb_neq c _)); eauto. rewrite <- Hn, Nat.eqb_refl. auto.
    + intros x H. unfold upd. rewrite (proj2 (Nat.eqb_neq x _)) by lia. auto.
    + intros x c H. apply copy_snoc in H. unfold upd. destruct H as [H|[-> ->]]. rewrite (proj2 (Nat.eqb_neq c _)); eauto. rewrite <- Hn, Nat.eqb_refl. auto.
    + intros x c i z H H0 [H1 H2] **. apply copy_snoc in H. destruct H as [H|[-> ->]]; [|congruence]. eauto.
    + auto.
    + intros x H. apply in_app_iff in H. destruct H as [H|[<-|[]]]; auto.
    + auto.
  - repeat split; auto. intros x i H. cbn. rewrite Hm; auto; apply HL; auto.
Qed.

Definition newR (R : nat -> nat -> Prop) (N : list nat) := fun x i => (R x i /\ ~ In x N) \/ In x N.
Definition oldP (D : nat -> nat -> Prop) (N : list nat) := fun x i => D x i /\ ~ In x N.

Lemma wasC : forall L R D V Rl Dl W h y, Inv L R D V Rl Dl W h -> y < B -> cat y = Move -> (forall w, ptr (m0 y 0) = Some w -> w < B) ->
  (wasCollected e h y = true /\ exists c, isCopy L y c /\ ptr (mem h y 0) = Some c) \/ (wasCollected e h y = false /\ ~ In y L).
Proof.
  intros L R D V Rl Dl W h y I Hy C H0. unfold wasCollected, fresh. rewrite (proj2 (Nat.leb_gt _ _)) by lia. cbn.
  destruct (in_dec Nat.eq_dec y L) as [i|i].
  - left. destruct (in_copy _ _ i) as [c Hc]. pose proof (i_fwd _ _ _ _ _ _ _ _ I _ _ Hc) as E. rewrite E. cbn.
    pose proof (copy_lt _ _ _ Hc). rewrite (proj2 (Nat.leb_le _ _)) by lia. split; eauto.
  - right. split; auto. rewrite (i_un _ _ _ _ _ _ _ _ I) by auto. destruct (ptr (m0 y 0)) as [w|] eqn:E; auto.
    apply Nat.leb_gt. auto.
Qed.
Hypothesis H0c : forall y w, y < B -> K y -> ptr (m0 y 0) = Some w -> w < B.

(** update2: copy, mark or leave *)
Ltac sp := cbv zeta; cbn iota; repeat match goal with |- _ /\ _ => split end.
Lemma update2_ok : forall L R D V Rl Dl W h y h' r v, Inv L R D V Rl Dl W h -> y < B -> K y -> update2 e h y = (h', r, v) ->
  exists N, (if v then N = [y] /\ ~ In y L else N = []) /\ Inv (L ++ N) (newR R N) (oldP D N) (oldP V N) Rl Dl W h' /\
  img (L ++ N) (mk h') y r /\ (v = true -> cat y = Move) /\
  (forall x i, In x L -> mem h' x i = mem h x i) /\ pend h' = pend h.
Proof.
  intros L R D V Rl Dl W h y h' r v I Hy Ky E. unfold update2 in E.
  assert (HI : Inv (L ++ []) (newR R []) (oldP D []) (oldP V []) Rl Dl W h).
  { rewrite app_nil_r. eapply Inv_weak; eauto; unfold newR, oldP; cbn; tauto. }
  assert (Hmv : cat y = Move -> match loc y with Fixed _ => False | _ => True end -> update2 e h y = update3 e h y /\ update3 e h y = if wasCollected e h y then (h, match ptr (mem h y 0) with Some c => c | None => 0 end, false)
      else let '(h', r) := copy e h y in (h', r, true)).
  { intros C F. unfold update2, update3. unfold cat in C. destruct (loc y); try tauto.
    rewrite andb_false_r; auto. rewrite andb_false_r; auto. destruct (major e); try discriminate. auto. }
  destruct (cat y) eqn:C.
  - assert (F : match loc y with Fixed _ => False | _ => True end). { unfold cat in C. destruct (loc y); auto. destruct (_ || _); discriminate. }
    destruct (Hmv eq_refl F) as [_ E3].
    assert (E2 : (if wasCollected e h y then (h, match ptr (mem h y 0) with Some c => c | None => 0 end, false)
      else let '(h', r) := copy e h y in (h', r, true)) = (h', r, v)).
    { rewrite <- E3, <- E. unfold cat in C. destruct (loc y); try tauto; rewrite ?andb_false_r; auto. destruct (major e); auto; discriminate. }
    clear E E3. destruct (wasC _ _ _ _ _ _ _ _ y I Hy C (fun w => H0c y w Hy Ky)) as [[W1 (c & Hc & Ec)]|[W1 N1]]; auto; rewrite W1 in E2.
    + injection E2 as <- <- <-. rewrite Ec. exists []. sp; auto; try discriminate. unfold img. rewrite C. rewrite app_nil_r. auto.
    + destruct (copy e h y) as [h1 r1] eqn:EC. injection E2 as <- <- <-.
      destruct (copy_ok _ _ _ _ _ _ _ _ _ _ _ I Hy C N1 Ky EC) as (-> & I' & U & P1 & P2 & P3).
      exists [y]. sp; auto.
      * eapply Inv_weak; eauto; unfold newR, oldP; cbn; intros; intuition congruence.
      * unfold img. rewrite C. apply copy_last.
  - assert (F : exists a, loc y = Fixed a /\ (major e || (a <? FixieTenureThreshold)) = true).
    { unfold cat in C. destruct (loc y); try discriminate. destruct (major e); discriminate. exists age. destruct (_ || _); auto; discriminate. }
    destruct F as (a & F & F'). rewrite F in E. rewrite andb_false_r in E. unfold update3 in E. rewrite F, F', andb_true_r in E.
    destruct (mk h y) eqn:M; cbn in E; injection E as <- <- <-; exists [].
    + sp; auto; try discriminate. unfold img. rewrite C. auto.
    + assert (HM : forall f, mk h f = true -> upd (mk h) y true f = true) by (intros f Hf; unfold upd; destruct (f =? y); auto).
      sp; auto; try discriminate.
      * clear HI. rewrite app_nil_r. destruct I. constructor; cbn [next mem mk marked home lay rem root app]; auto.
        -- unfold newR. intros x c i H H' [[]|[]]; eauto.
        -- intros x c i H H' []. eapply imgw_mk; eauto.
        -- intros l H H'. destruct l; eapply (imgw_mk L (mk h)); eauto; apply i_ldn0; auto.
        -- intros f. specialize (i_mk0 f). unfold upd. cbn. destruct (Nat.eqb_spec f y). split; auto. rewrite i_mk0. intuition congruence.
        -- constructor; auto. intro. rewrite <- i_mk0 in H. congruence.
        -- intros f. unfold upd. destruct (Nat.eqb_spec f y); subst; auto.
        -- intros x c i z H HH [] **; eauto.
        -- intros f. unfold upd. destruct (Nat.eqb_spec f y); subst; auto.
      * unfold img. rewrite C. split; auto. cbn. unfold upd. rewrite Nat.eqb_refl. auto.
  - assert (F : update2 e h y = (h, y, false)).
    { unfold update2, update3. unfold cat in C. destruct (loc y); try discriminate.
      - destruct (major e); [discriminate|auto].
      - rewrite andb_false_r. destruct (_ || _); try discriminate. rewrite andb_false_r. auto. }
    unfold update2 in F. rewrite F in E. injection E as <- <- <-. exists []. sp; auto; try discriminate.
    unfold img. rewrite C. auto.
Qed.

(** update of a slot that holds a reference *)
Lemma update_ok : forall L R D V Rl Dl W h l y h' r v, Inv L R D V Rl Dl W h -> ptr (get h l) = Some y -> y < B -> K y -> update e h l = (h', r, v) ->
  exists N y', r = Some y' /\ (if v then N = [y] /\ ~ In y L else N = []) /\ Inv (L ++ N) (newR R N) (oldP D N) (oldP V N) Rl Dl W h' /\
  img (L ++ N) (mk h') y y' /\
  (forall t i, l = Field t i -> tracked e h' t = true -> ten y = false -> rem h' t i = true) /\
  (forall x i, In x L -> mem h' x i = mem h x i) /\ pend h' = pend h.
Proof.
  intros L R D V Rl Dl W h l y h' r v I Hp Hy Ky E. unfold update in E. rewrite Hp in E.
  destruct (update2 e h y) as [[h1 y'] v1] eqn:E1. injection E as <- <- <-.
  destruct (update2_ok _ _ _ _ _ _ _ _ _ _ _ _ I Hy Ky E1) as (N & A & I' & Im & _ & U & P).
  exists N, y'. sp; auto.
  - unfold updateHeapMap. destruct l; auto. destruct (_ && _); auto. apply Inv_setRem; auto.
  - unfold updateHeapMap. destruct l; auto. destruct (_ && _); auto.
  - intros t i -> Ht HT. rewrite <- (tenured_img _ _ _ _ _ _ _ _ _ _ I' Im Hy) in HT. unfold updateHeapMap in *.
    destruct (negb (tenured e h1 y') && tracked e h1 t) eqn:EE. cbn. rewrite !Nat.eqb_refl. auto.
    rewrite HT in EE. cbn in EE. congruence.
  - unfold updateHeapMap. destruct l; auto. destruct (_ && _); auto.
  - unfold updateHeapMap. destruct l; auto. destruct (_ && _); auto.
Qed.

Lemma put_copy : forall L (R D V : nat -> nat -> Prop) Rl Dl W h x c i w, Inv L R D V Rl Dl W h -> isCopy L x c -> In i (offs x) -> imgw L (mk h) (m0 x i) w ->
  Inv L (fun a j => R a j /\ ~ (a = x /\ j = i)) (fun a j => D a j \/ (a = x /\ j = i)) V Rl Dl W (put h (Field c i) w).
Proof.
  intros L R D V Rl Dl W h x c i w I Hc Hi Hw. pose proof (copy_lt _ _ _ Hc) as Hlt.
  assert (Hlo : forall a j, a < B -> upd2 (mem h) c i w a j = mem h a j) by (intros; apply upd2_o; lia).
  assert (HLlt : forall a d, isCopy L a d -> a < B) by (intros; eapply i_mv; eauto; eapply copy_in; eauto).
  destruct I. constructor; cbn [put setMem next mem mk marked home lay rem root]; auto.
  - intros a d H. rewrite Hlo; eauto.
  - intros a j H H1 H2. rewrite Hlo; eauto.
  - intros a d j H H1. rewrite upd2_o; eauto. destruct (Nat.eq_dec d c); auto. subst. right. intro. subst. apply H1. rewrite (copy_inj _ _ _ _ H Hc). auto.
  - intros a d j H H1 [H2 H3]. rewrite upd2_o; eauto. destruct (Nat.eq_dec d c); auto. subst. right. intro. subst. apply H3. split; auto. eapply copy_inj; eauto.
  - intros a d j H H1 H2. destruct (Nat.eq_dec d c). destruct (Nat.eq_dec j i).
    + subst. rewrite upd2_s. rewrite (copy_inj _ _ _ _ H Hc). auto.
    + subst. rewrite upd2_o by auto. destruct H2 as [H2|[]]; eauto. congruence.
    + rewrite upd2_o by auto. destruct H2 as [H2|[]]; eauto. subst a. destruct n. exact (copy_fun _ _ _ _ i_nd0 H Hc).
  - intros [r|a j] H H1; cbn in *. apply (i_lraw0 (Root r)); auto. rewrite Hlo by tauto. apply (i_lraw0 (Field a j)); auto.
  - intros [r|a j] H H1; cbn in *. apply (i_ldn0 (Root r)); auto. rewrite Hlo by tauto. apply (i_ldn0 (Field a j)); auto.
  - intros a j H H1 H2. rewrite Hlo; eauto.
Qed.

Lemma put_loc : forall L (R D V : nat -> nat -> Prop) (Rl Dl : slot -> Prop) W h l w, Inv L R D V Rl Dl W h -> ext l -> (forall o i, l = Field o i -> In i (offs o)) -> imgw L (mk h) (get0 l) w ->
  (forall o i y, l = Field o i -> trk o = true -> ptr (m0 o i) = Some y -> ten y = false -> rem h o i = true) ->
  Inv L R D V (fun l' => Rl l' /\ l' <> l) (fun l' => Dl l' \/ l' = l) W (put h l w).
Proof.
  intros L R D V Rl Dl W h l w I He Hi Hw Hrem.
  assert (HLlt : forall a d, isCopy L a d -> a < B /\ cat a = Move) by (intros; eapply i_mv; eauto; eapply copy_in; eauto).
  assert (HC : forall a d, isCopy L a d -> B <= d) by (intros a d H; apply (copy_lt _ _ _ H)).
  assert (Hm : forall a j, l <> Field a j -> mem (put h l w) a j = mem h a j).
  { intros a j H. destruct l as [|o i]; cbn; auto. apply upd2_o. destruct (Nat.eq_dec a o), (Nat.eq_dec j i); auto; subst; tauto. }
  assert (Hmc : forall a d j, isCopy L a d -> mem (put h l w) d j = mem h d j).
  { intros a d j H. apply Hm. intros ->. cbn in He. pose proof (HC _ _ H). lia. }
  assert (Hmm : forall a j, cat a = Move -> mem (put h l w) a j = mem h a j).
  { intros a j H. apply Hm. intros ->. cbn in He. tauto. }
  assert (HE : forall l' w', l' <> l -> get (put h l w') l' = get h l').
  { intros l' w' H. destruct l as [r|o i], l' as [r'|o' i']; cbn; auto. unfold upd. destruct (Nat.eqb_spec r' r); congruence.
    apply upd2_o. destruct (Nat.eq_dec o' o), (Nat.eq_dec i' i); auto; subst; tauto. }
  assert (HS : get (put h l w) l = w).
  { destruct l; cbn. unfold upd. rewrite Nat.eqb_refl. auto. apply upd2_s. }
  assert (HF : next (put h l w) = next h /\ mk (put h l w) = mk h /\ marked (put h l w) = marked h /\ home (put h l w) = home h /\ rem (put h l w) = rem h /\ lay (put h l w) = lay h) by (destruct l; cbn; tauto).
  destruct HF as (F1 & F2 & F3 & F4 & F5 & F6).
  destruct I. constructor; rewrite ?F1, ?F2, ?F3, ?F4, ?F5, ?F6; auto.
  - intros a d H. rewrite Hmm; eauto. apply (HLlt _ _ H).
  - intros. rewrite Hmm; eauto.
  - intros. erewrite Hmc; eauto.
  - intros. erewrite Hmc; eauto.
  - intros. erewrite Hmc; eauto.
  - intros l' H [H1 H2]. rewrite HE; auto.
  - intros l' H H1.
    assert (l' = l \/ l' <> l) as [-> |n]. { destruct l as [r|o i], l' as [r'|o' i']; try (right; congruence). destruct (Nat.eq_dec r r'); [left|right]; congruence.
        destruct (Nat.eq_dec o o'); [|right; congruence]. destruct (Nat.eq_dec i i'); [left|right]; congruence. }
    rewrite HS; auto. rewrite HE; auto. destruct H1; [auto|congruence].
  - intros o i H H1 H2. rewrite Hm; auto; intros ->; apply H2; eauto.
  - intros o i y H [H1|H1]; eauto.
Qed.

Lemma addV : forall L (R D V : nat -> nat -> Prop) Rl Dl W h x c i, Inv L R D V Rl Dl W h -> isCopy L x c ->
  (forall y, trk x = true -> ptr (m0 x i) = Some y -> ten y = false -> rem h c i = true) ->
  Inv L R D (fun a j => V a j \/ (a = x /\ j = i)) Rl Dl W h.
Proof.
  intros L R D V Rl Dl W h x c i I Hc H. destruct I. constructor; auto.
  intros a d j y Hd Hj [Hv|[-> ->]] **; eauto. rewrite (copy_fun _ _ _ _ i_nd0 Hd Hc). eauto.
Qed.

Lemma imgw_set : forall L M w y y', ptr w = Some y -> img L M y y' -> imgw L M w (setPtr w (Some y')).
Proof. intros L M [[z|] l|z] y y' H H'; cbn in *; try discriminate. injection H as ->. eauto. Qed.
Lemma imgw_null : forall L M w, ptr w = None -> imgw L M w (setPtr w None).
Proof. intros L M [[z|] l|z] H; cbn in *; auto; discriminate. Qed.

Lemma walk_ok : forall o c Rl Dl W l h L (R D V : nat -> nat -> Prop) h' q, Inv L R D V Rl Dl W h -> isCopy L o c -> NoDup l -> incl l (offs o) ->
  (forall i, In i l -> R o i) -> walk e h c l = (h', q) ->
  let N := map (tgt o) q in
  Inv (L ++ N) (fun x i => (R x i /\ ~ In x N /\ ~ (x = o /\ In i l /\ ~ In i q)) \/ In x N)
    (fun x i => (D x i /\ ~ In x N) \/ (x = o /\ In i l /\ ~ In i q))
    (fun x i => (V x i /\ ~ In x N) \/ (x = o /\ In i l)) Rl Dl W h' /\
  (forall x, In x N -> ~ In x L) /\ incl q l /\ NoDup q /\ (forall i, In i q -> ptr (m0 o i) = Some (tgt o i)) /\
  (forall x i, In x L -> mem h' x i = mem h x i) /\ pend h' = pend h.
Proof.
  intros o c Rl Dl W. induction l as [|i l IH]; intros h L R D V h' q I Hc Hnd Hin HR E; cbn [walk] in E.
  - injection E as <- <-. cbn. rewrite app_nil_r. sp; auto.
    eapply Inv_weak; eauto; cbn; tauto.
    all: try apply incl_refl; try constructor; try (intros ? []).
  - destruct (update e h (Field c i)) as [[h1 r] v] eqn:EU.
    assert (Hi : In i (offs o)) by (apply Hin; left; auto).
    inversion Hnd as [|? ? Hni Hnd']; subst.
    assert (Ho : In o L) by (eapply copy_in; eauto).
    assert (HoB : o < B) by (eapply i_mv; eauto).
    assert (Hraw : mem h c i = m0 o i) by (eapply i_raw; eauto; apply HR; left; auto).
    assert (Hil : incl l (offs o)) by (intros z Hz; apply Hin; right; auto).
    destruct (ptr (m0 o i)) as [y|] eqn:Ep.
    + assert (Hy : y < B) by (apply (Hclosed o i); auto; eapply i_KL; eauto).
      assert (Ky : K y) by (eapply HK; eauto; eapply i_KL; eauto).
      assert (Eg : ptr (get h (Field c i)) = Some y) by (cbn; rewrite Hraw; auto).
      destruct (update_ok _ _ _ _ _ _ _ _ _ _ _ _ _ I Eg Hy Ky EU) as (N1 & y' & -> & HN & I1 & Im & Hrem & U & P).
      assert (HoN : ~ In o N1). { destruct v; [destruct HN as [-> HN]|subst N1]; cbn; [intros [-> |[]]; tauto|tauto]. }
      assert (Hc1 : isCopy (L ++ N1) o c) by (apply copy_app; auto).
      apply (addV _ _ _ _ _ _ _ _ o c i) in I1; auto.
      2:{ intros z Ht Hz Hten. eapply Hrem; eauto. rewrite (tracked_copy _ _ _ _ _ _ _ _ _ _ I1 Hc1). auto. congruence. }
      destruct v.
      * destruct HN as [-> HN]. destruct (walk e h1 c l) as [h3 q3] eqn:EW. injection E as <- <-.
        eapply IH in EW; eauto.
        2:{ intros j Hj. left. split; auto. apply HR; right; auto. }
        destruct EW as (I3 & D3 & S3 & ND3 & P3 & U3 & PE3).
        assert (Et : tgt o i = y) by (unfold tgt; rewrite Ep; auto).
        assert (HoN3 : ~ In o (map (tgt o) q3)) by (intro H; apply (D3 _ H), in_app_iff; auto).
        cbn [map]. rewrite Et. sp.
        -- replace (L ++ y :: map (tgt o) q3) with ((L ++ [y]) ++ map (tgt o) q3) by (rewrite <- app_assoc; auto).
           assert (Hyn : ~ In y (map (tgt o) q3)) by (intro H; apply (D3 _ H), in_app_iff; right; left; auto).
           assert (Hyo : y <> o) by congruence.
           eapply Inv_weak; eauto; cbn [In]; unfold newR, oldP; cbn [In].
           ++ intros x j [(A & A1 & A2)|A].
              ** left. repeat split; [left; intuition|intuition|]. intros (-> & A3 & A4). apply A2. repeat split; auto. intros [<-|]; tauto.
              ** destruct A as [<-|A]; [|auto]. left. split; [right; auto|]. split; auto. intros (A3 & _). congruence.
           ++ intros x j [(A & A1)|(-> & A1 & A2)].
              ** left. intuition.
              ** right. repeat split; auto. destruct A1; auto. subst. destruct A2; auto.
           ++ intros x j [(A & A1)|(-> & A1)].
              ** left. intuition.
              ** destruct A1 as [<-|A1]; auto.
        -- intros x [<-|Hx]; auto. intro Hx'. apply (D3 _ Hx), in_app_iff; auto.
        -- intros z [<-|Hz]; [left; auto|right; auto].
        -- constructor; auto.
        -- intros j [<-|Hj]; auto. congruence.
        -- intros x j Hx. rewrite U3. auto. apply in_app_iff; auto.
        -- congruence.
      * subst N1. rewrite app_nil_r in *.
        assert (Hraw1 : mem h1 c i = m0 o i). { eapply i_raw; eauto. left. split; auto. apply HR; left; auto. }
        set (h2 := put h1 (Field c i) (setPtr (get h1 (Field c i)) (Some y'))) in *.
        assert (Im2 : imgw L (mk h1) (m0 o i) (setPtr (get h1 (Field c i)) (Some y'))) by (cbn; rewrite Hraw1; eapply imgw_set; eauto).
        assert (I2 := put_copy _ _ _ _ _ _ _ _ o c i _ I1 Hc Hi Im2). fold h2 in I2.
        destruct (walk e h2 c l) as [h3 q3] eqn:EW. injection E as <- <-.
        eapply IH in EW.
        2:{ exact I2. } 2:auto. 2:auto. 2:auto.
        2:{ intros j Hj. split. left. split; auto. apply HR; right; auto. intros [_ ->]. tauto. }
        destruct EW as (I3 & D3 & S3 & ND3 & P3 & U3 & PE3).
        assert (HoN3 : ~ In o (map (tgt o) q3)) by (intro H; apply (D3 _ H); auto).
        assert (Hiq : ~ In i q3) by (intro H; apply S3 in H; tauto).
        sp; auto.
        -- eapply Inv_weak; eauto; cbn [In]; unfold newR, oldP; cbn [In].
           ++ intros x j [(A & A1 & A2)|A]; [|auto]. left. repeat split; auto.
              intros [-> ->]. apply A2. auto. tauto.
           ++ intros x j [(A & A1)|(-> & A1 & A2)]. tauto. destruct A1 as [<-|A1]; [|tauto]. left. tauto.
           ++ intros x j [(A & A1)|(-> & A1)]. tauto. destruct A1 as [<-|A1]; tauto.
        -- intros z Hz; right; auto.
        -- intros x j Hx. rewrite U3 by auto. rewrite <- U by auto. unfold h2. cbn. apply upd2_o.
           pose proof (proj1 (i_mv _ _ _ _ _ _ _ _ I _ Hx)). pose proof (copy_lt _ _ _ Hc). lia.
        -- unfold h2 in PE3. cbn in PE3. congruence.
    + unfold update in EU. cbn in EU. rewrite Hraw, Ep in EU. injection EU as <- <- <-.
      assert (Im2 : imgw L (mk h) (m0 o i) (setPtr (mem h c i) None)) by (rewrite Hraw; eapply imgw_null; eauto).
      assert (I2 := put_copy _ _ _ _ _ _ _ _ o c i _ I Hc Hi Im2).
      apply (addV _ _ _ _ _ _ _ _ o c i) in I2; auto.
      2:{ intros z _ Hz. congruence. }
      cbn [get] in *. set (h2 := put h (Field c i) (setPtr (mem h c i) None)) in *.
      destruct (walk e h2 c l) as [h3 q3] eqn:EW. injection E as <- <-.
      eapply IH in EW.
      2:{ exact I2. } 2:auto. 2:auto. 2:auto.
      2:{ intros j Hj. split. apply HR; right; auto. intros [_ ->]. tauto. }
      destruct EW as (I3 & D3 & S3 & ND3 & P3 & U3 & PE3).
      assert (HoN3 : ~ In o (map (tgt o) q3)) by (intro H; apply (D3 _ H); auto).
      assert (Hiq : ~ In i q3) by (intro H; apply S3 in H; tauto).
      sp; auto.
      * eapply Inv_weak; eauto; cbn [In].
        ++ intros x j [(A & A1 & A2)|A]; [|auto]. left. repeat split; auto.
           intros [-> ->]. apply A2. auto. tauto.
        ++ intros x j [(A & A1)|(-> & A1 & A2)]. tauto. destruct A1 as [<-|A1]; [|tauto]. left. tauto.
        ++ intros x j [(A & A1)|(-> & A1)]. tauto. destruct A1 as [<-|A1]; tauto.
      * intros z Hz; right; auto.
      * intros x j Hx. rewrite U3 by auto. unfold h2. cbn. apply upd2_o.
        pose proof (proj1 (i_mv _ _ _ _ _ _ _ _ I _ Hx)). pose proof (copy_lt _ _ _ Hc). lia.
Qed.

Lemma Inv_setPend : forall L R D V Rl Dl W h o l, Inv L R D V Rl Dl W h -> Inv L R D V Rl Dl W (setPend h o l).
Proof. intros L R D V Rl Dl W h o l []. constructor; auto. Qed.
Lemma Inv_parent : forall L R D V Rl Dl W h o w, Inv L R D V Rl Dl W h -> In o L -> Inv L R D V Rl Dl W (setMem h (upd2 (mem h) o 1 w)).
Proof.
  intros L R D V Rl Dl W h o w I Ho. destruct (i_mv _ _ _ _ _ _ _ _ I _ Ho) as [Hb Hm].
  assert (Hc : forall x c j, isCopy L x c -> upd2 (mem h) o 1 w c j = mem h c j) by (intros x c j H; pose proof (copy_lt _ _ _ H); apply upd2_o; lia).
  destruct I. constructor; cbn [setMem mem next mk marked home lay rem root]; auto.
  - intros. rewrite upd2_o by auto. auto.
  - intros x i H1 H2 H3. rewrite upd2_o by (left; congruence). auto.
  - intros. erewrite Hc; eauto.
  - intros. erewrite Hc; eauto.
  - intros. erewrite Hc; eauto.
  - intros [r|a j] H H1; [apply (i_lraw0 (Root r)); auto|]. cbn in *. rewrite upd2_o by (left; intros ->; tauto). apply (i_lraw0 (Field a j)); auto.
  - intros [r|a j] H H1; [apply (i_ldn0 (Root r)); auto|]. cbn in *. rewrite upd2_o by (left; intros ->; tauto). apply (i_ldn0 (Field a j)); auto.
  - intros a j H H1 H2. rewrite upd2_o by (left; congruence). auto.
Qed.
Lemma Inv_len : forall L R D V Rl Dl W h, Inv L R D V Rl Dl W h -> length L <= B.
Proof.
  intros L R D V Rl Dl W h I. rewrite <- (seq_length B 0). apply NoDup_incl_length. eapply i_nd; eauto.
  intros x Hx. apply in_seq. pose proof (i_mv _ _ _ _ _ _ _ _ I _ Hx). lia.
Qed.
Lemma follow_in : forall L R D V Rl Dl W h x, Inv L R D V Rl Dl W h -> In x L -> exists c, isCopy L x c /\ follow h x = Some c.
Proof. intros L R D V Rl Dl W h x I Hx. destruct (in_copy _ _ Hx) as [c Hc]. exists c. split; auto. unfold follow. rewrite (i_fwd _ _ _ _ _ _ _ _ I _ _ Hc). auto. Qed.

(** rewriting a pending slot *)
Lemma into_ok : forall L (R D V : nat -> nat -> Prop) Rl Dl W h p cp i, Inv L R D V Rl Dl W h -> isCopy L p cp -> In i (offs p) -> R p i ->
  ptr (m0 p i) = Some (tgt p i) -> In (tgt p i) L ->
  exists h', into h cp i = (h', Some (tgt p i)) /\
  Inv L (fun a j => R a j /\ ~ (a = p /\ j = i)) (fun a j => D a j \/ (a = p /\ j = i)) V Rl Dl W h' /\
  (forall x j, In x L -> mem h' x j = mem h x j) /\ pend h' = pend h.
Proof.
  intros L R D V Rl Dl W h p cp i I Hc Hi HR Hp Ht. unfold into.
  assert (E : mem h cp i = m0 p i) by (eapply i_raw; eauto). rewrite E, Hp.
  destruct (follow_in _ _ _ _ _ _ _ _ _ I Ht) as (ct & Hct & Ef). rewrite Ef.
  eexists. split; [reflexivity|]. split; [|split].
  - apply put_copy; auto. apply imgw_set with (tgt p i); auto. unfold img. destruct (i_mv _ _ _ _ _ _ _ _ I _ Ht) as [_ ->]. auto.
  - intros x j Hx. cbn. apply upd2_o. pose proof (proj1 (i_mv _ _ _ _ _ _ _ _ I _ Hx)). pose proof (copy_lt _ _ _ Hc). lia.
  - reflexivity.
Qed.

Definition kids (pd : nat -> list nat) (st : list nat) : list nat := flat_map (fun p => map (tgt p) (pd p)) st.
Lemma kids_ext : forall pd pd' st, (forall p, In p st -> pd p = pd' p) -> kids pd st = kids pd' st.
Proof. intros pd pd' st. induction st as [|p st IH]; intros H; [auto|]. unfold kids in *. cbn [flat_map]. rewrite (H p) by (left; auto). rewrite IH; auto. intros; apply H; right; auto. Qed.

Record VI L o par st Rl Dl W h : Prop := {
  v_inv : Inv L (fun x i => In x (o :: kids (pend h) st) \/ (In x st /\ In i (pend h x)))
     (fun x i => ~ In x (o :: kids (pend h) st) /\ ~ (In x st /\ In i (pend h x)))
     (fun x i => ~ In x (o :: kids (pend h) st)) Rl Dl W h;
  v_nd : NoDup (o :: kids (pend h) st);
  v_in : incl (o :: kids (pend h) st) L;
  v_snd : NoDup st;
  v_sin : incl st L;
  v_dis : forall p, In p st -> ~ In p (o :: kids (pend h) st);
  v_chain : chain (fun x => ptr (mem h x 1)) par st;
  v_pend : forall p, In p st -> pend h p <> [] /\ NoDup (pend h p) /\ incl (pend h p) (offs p) /\ forall i, In i (pend h p) -> ptr (m0 p i) = Some (tgt p i)
}.
Definition T2 := fun _ _ : nat => True.
Definition F2 := fun _ _ : nat => False.

Lemma NoDup_app_dis : forall (A : list nat) C, NoDup A -> NoDup C -> (forall x, In x A -> ~ In x C) -> NoDup (A ++ C).
Proof.
  intros A C. induction A as [|a A IH]; intros H1 H2 H3; cbn; auto. inversion H1; subst. constructor.
  rewrite in_app_iff. intros [|]; auto. eapply H3; eauto. left; auto. apply IH; auto. intros; apply H3; right; auto.
Qed.

Lemma visit_ok : forall fuel L o par st Rl Dl W h, VI L o par st Rl Dl W h -> (B - length L) + S (length (kids (pend h) st)) <= fuel ->
  exists h' N, visit e fuel h o par = Some h' /\ Inv (L ++ N) F2 T2 T2 Rl Dl W h'.
Proof.
  induction fuel as [|fuel IH]; intros L o par st Rl Dl W h HV Hf. lia.
  destruct HV as [I Hnd Hin Hsnd Hsin Hdis Hch Hpend]. cbn [visit].
  assert (Ho : In o L) by (apply Hin; left; auto).
  destruct (follow_in _ _ _ _ _ _ _ _ _ I Ho) as (c & Hc & Ef). rewrite Ef, (i_layc _ _ _ _ _ _ _ _ I _ _ Hc).
  destruct (walk e h c (offs o)) as [h1 q] eqn:EW.
  eapply walk_ok in EW; eauto using incl_refl.
  2:{ apply Hoffs. eapply i_KL; eauto. }
  2:{ intros. left. left. auto. }
  destruct EW as (I1 & Hnew1 & Hq & Hqnd & Hqp & Hmem & Hpd).
  assert (Ndk : ~ In o (kids (pend h) st) /\ NoDup (kids (pend h) st)) by (inversion Hnd; auto). destruct Ndk as [Hok Hknd].
  assert (Host : ~ In o st) by (intro H; apply (Hdis _ H); left; auto).
  set (N := map (tgt o) q) in *.
  assert (HkL : forall x, In x (kids (pend h) st) -> In x L) by (intros; apply Hin; right; auto).
  assert (Hch1 : chain (fun x => ptr (mem h1 x 1)) par st) by (eapply chain_ext; [|exact Hch]; intros x Hx; cbn; rewrite Hmem; auto).
  destruct q as [|i q'].
  - (* ascend *)
    cbn in N. subst N. rewrite app_nil_r in I1. cbn [In map] in I1.
    (* o's slots are done, the others are as before *)
    assert (I2 : Inv L (fun x i => In x (kids (pend h) st) \/ (In x st /\ In i (pend h x)))
       (fun x i => ~ In x (kids (pend h) st) /\ ~ (In x st /\ In i (pend h x))) (fun x i => ~ In x (kids (pend h) st)) Rl Dl W h1).
    { destruct I1. constructor; auto.
      - intros x cx i H H1 H2. apply (i_raw0 x cx i); auto. left. split; [tauto|]. split; [tauto|]. intros (-> & _). destruct H2 as [H2|[H2 _]]; tauto.
      - intros x cx i H H1 [H2 H3]. apply i_dn0; auto. destruct (Nat.eq_dec x o). subst; auto. left. intuition.
      - intros x cx i y H H1 H2 H3 H4 H5. eapply i_rem0; eauto. destruct (Nat.eq_dec x o). subst; auto. left. intuition. }
    clear I1. destruct st as [|p st'].
    + cbn in Hch1. subst par. exists h1, []. split; auto. rewrite app_nil_r. eapply Inv_weak; eauto; unfold F2, T2; cbn; tauto.
    + destruct Hch1 as [-> Hch1].
      assert (Hp : In p L) by (apply Hsin; left; auto).
      destruct (follow_in _ _ _ _ _ _ _ _ _ I2 Hp) as (cp & Hcp & Efp). rewrite Efp, Hpd.
      destruct (Hpend p (or_introl eq_refl)) as (Hne & Hpnd & Hpin & Hpp).
      destruct (pend h p) as [|i q'] eqn:Epd; [congruence|].
      assert (Hps : ~ In p st') by (inversion Hsnd; auto).
      assert (Ek : kids (pend h) (p :: st') = tgt p i :: map (tgt p) q' ++ kids (pend h) st') by (unfold kids; cbn [flat_map]; rewrite Epd; auto).
      rewrite Ek in *.
      set (h2 := setPend h1 p q').
      assert (I3 : Inv L _ _ _ Rl Dl W h2) by (eapply Inv_setPend; exact I2).
      destruct (into_ok _ _ _ _ _ _ _ _ p cp i I3 Hcp) as (h3 & Ein & I4 & Hm3 & Hp3).
      { apply Hpin; left; auto. } { right. split. left; auto. rewrite Epd. left; auto. } { apply Hpp; left; auto. } { apply HkL. left; auto. }
      rewrite Ein.
      set (st2 := match q' with [] => st' | _ => p :: st' end).
      assert (Epd3 : forall z, pend h3 z = if z =? p then q' else pend h z) by (intro z; rewrite Hp3; cbn; unfold upd; rewrite Hpd; auto).
      assert (Ek2 : kids (pend h3) st2 = map (tgt p) q' ++ kids (pend h) st').
      { assert (Ek3 : kids (pend h3) st' = kids (pend h) st'). { apply kids_ext. intros z Hz. rewrite Epd3. destruct (Nat.eqb_spec z p); congruence. }
        unfold st2. destruct q'. rewrite Ek3. auto. unfold kids at 1. cbn [flat_map]. fold (kids (pend h3) st'). rewrite Ek3, Epd3, Nat.eqb_refl. auto. }
      assert (Hst2 : forall z, In z st2 <-> (z = p /\ q' <> []) \/ In z st').
      { intro z. unfold st2. destruct q'; cbn; intuition congruence. }
      destruct (IH L (tgt p i) (match q' with [] => ptr (mem h2 p 1) | _ => Some p end) st2 Rl Dl W h3) as (h4 & N4 & E4 & I5).
      * assert (Hpn : ~ In p (tgt p i :: map (tgt p) q' ++ kids (pend h) st')) by (intro H; apply (Hdis p); [left; auto|right; auto]).
        assert (Hin' : ~ In i q') by (inversion Hpnd; auto).
        constructor; rewrite ?Ek2.
        -- eapply Inv_weak; eauto.
           ++ intros x j [H|[H H1]].
              ** split; auto. intros [-> ->]. tauto.
              ** apply Hst2 in H. rewrite Epd3 in H1. destruct (Nat.eqb_spec x p).
                 --- subst x. split. right. split. left; auto. rewrite Epd. right; auto. intros [_ ->]. tauto.
                 --- split. right. split; auto. right. tauto. tauto.
           ++ intros x j [H H1]. destruct (Nat.eq_dec x p).
              ** subst x. destruct (Nat.eq_dec j i). right; auto. left. split; auto. intros [_ H2]. rewrite Epd in H2. destruct H2; [congruence|].
                 apply H1. rewrite Hst2, Epd3, Nat.eqb_refl. split; auto. left. split; auto. intros ->. destruct H0.
              ** left. split; auto. intros [[|H2] H3]; [congruence|]. apply H1. rewrite Hst2, Epd3. destruct (Nat.eqb_spec x p); [congruence|]. auto.
        -- inversion Hnd; auto.
        -- intros x Hx. apply HkL; auto.
        -- unfold st2. destruct q'; inversion Hsnd; auto.
        -- intros x Hx. apply Hst2 in Hx. destruct Hx as [[-> _]|Hx]; auto. apply Hsin. right; auto.
        -- intros x Hx. apply Hst2 in Hx. intro Hx'. destruct Hx as [[-> _]|Hx]; auto. apply (Hdis x); right; auto.
        -- assert (HC : chain (fun x => ptr (mem h3 x 1)) (ptr (mem h2 p 1)) st').
           { eapply chain_ext; [|exact Hch1]. intros x Hx. cbn. rewrite Hm3; auto. apply Hsin; right; auto. }
           unfold st2. destruct q'. exact HC. split; auto. rewrite Hm3; auto.
        -- intros x Hx. rewrite Epd3. destruct (Nat.eqb_spec x p).
           ++ subst x. apply Hst2 in Hx. destruct Hx as [[_ Hx]|Hx]; [|tauto]. inversion Hpnd; subst. sp; auto. intros z Hz; apply Hpin; right; auto. intros z Hz; apply Hpp; right; auto.
           ++ apply Hpend. apply Hst2 in Hx. right. tauto.
      * rewrite Ek2. cbn [length] in Hf. lia.
      * exists h4, N4. split; auto.
  - (* descend *)
    assert (Hx : In (tgt o i) N) by (left; auto).
    set (h2 := setPend h1 o q').
    set (st2 := match q' with [] => st | _ => o :: st end).
    set (par2 := match q' with [] => par | _ => Some o end).
    set (h3 := match q' with [] => h2 | _ => setMem h2 (upd2 (mem h2) o 1 (Ref par 0)) end).
    assert (E3 : match q' with [] => (h2, par) | _ => (setMem h2 (upd2 (mem h2) o 1 (Ref par 0)), Some o) end = (h3, par2)) by (unfold h3, par2; destruct q'; auto).
    rewrite E3. clear E3.
    assert (HoN : ~ In o N) by (intro H; apply (Hnew1 _ H); auto).
    assert (HNnd : NoDup (L ++ N)) by (eapply i_nd; eauto).
    assert (I3 : forall R D V, Inv (L ++ N) R D V Rl Dl W h1 -> Inv (L ++ N) R D V Rl Dl W h3).
    { intros R D V I2. unfold h3. apply (Inv_setPend _ _ _ _ _ _ _ _ o q') in I2. destruct q'. exact I2. eapply Inv_parent. exact I2. apply in_app_iff; auto. }
    apply I3 in I1. clear I3. rename I1 into I3.
    assert (Hc' : isCopy (L ++ N) o c) by (apply copy_app; auto).
    destruct (into_ok _ _ _ _ _ _ _ _ o c i I3 Hc') as (h4 & Ein & I4 & Hm4 & Hp4).
    { apply Hq; left; auto. } { left. split. left; left; auto. split; auto. intros (_ & _ & H). apply H. left; auto. } { apply Hqp; left; auto. } { apply in_app_iff; auto. }
    rewrite Ein.
    assert (Epd4 : forall z, pend h4 z = if z =? o then q' else pend h z).
    { intro z. rewrite Hp4. assert (E : pend h3 = upd (pend h1) o q') by (unfold h3; destruct q'; auto). rewrite E. unfold upd. rewrite Hpd. auto. }
    assert (Ek2 : kids (pend h4) st2 = map (tgt o) q' ++ kids (pend h) st).
    { assert (Ek3 : kids (pend h4) st = kids (pend h) st). { apply kids_ext. intros z Hz. rewrite Epd4. destruct (Nat.eqb_spec z o); congruence. }
      unfold st2. destruct q'. rewrite Ek3. auto. unfold kids at 1. cbn [flat_map]. fold (kids (pend h4) st). rewrite Ek3, Epd4, Nat.eqb_refl. auto. }
    assert (EU : tgt o i :: kids (pend h4) st2 = N ++ kids (pend h) st) by (rewrite Ek2; reflexivity).
    assert (Hst2 : forall z, In z st2 <-> (z = o /\ q' <> []) \/ In z st).
    { intro z. unfold st2. destruct q'; cbn; intuition congruence. }
    assert (Hin' : ~ In i q') by (inversion Hqnd; auto).
    destruct (IH (L ++ N) (tgt o i) par2 st2 Rl Dl W h4) as (h5 & N5 & E5 & I5).
    + constructor; rewrite ?EU.
      * eapply Inv_weak2; eauto.
        -- intros x j Hj [H|[H H1]].
           ++ apply in_app_iff in H. destruct H as [H|H].
              ** split; auto. intros [-> _]. auto.
              ** assert (x <> o) by (intros ->; auto). split. left. split. left; right; auto. split. intro H1. apply (Hnew1 _ H1). auto. tauto. tauto.
           ++ apply Hst2 in H. rewrite Epd4 in H1. destruct (Nat.eqb_spec x o).
              ** subst x. split. left. split. left; left; auto. split. auto. intros (_ & _ & H2). apply H2. right; auto. intros [_ ->]. auto.
              ** split. left. split. right. split; auto. tauto. split. intro H2. apply (Hnew1 _ H2). apply Hsin. tauto. tauto. tauto.
        -- intros x j Hj [H H1]. rewrite in_app_iff in H. destruct (Nat.eq_dec x o).
           ++ subst x. destruct (Nat.eq_dec j i). right; auto.
              destruct (in_dec Nat.eq_dec j q').
              ** exfalso. apply H1. rewrite Hst2, Epd4, Nat.eqb_refl. split; auto. left. split; auto. intros ->. auto.
              ** left. right. sp; auto. intros [|]; congruence.
           ++ left. left. split; [|tauto]. split. intros [|]; [congruence|tauto]. intros [H2 H3]. apply H1. rewrite Hst2, Epd4. destruct (Nat.eqb_spec x o); [congruence|]. auto.
        -- intros x j Hj H. rewrite in_app_iff in H. destruct (Nat.eq_dec x o). subst; right; split; auto. left. split; [|tauto]. intros [|]; [congruence|tauto].
      * apply NoDup_app_dis; auto. apply nodup_app_r in HNnd. auto. intros x H1 H2. apply (Hnew1 _ H1). auto.
      * intros x H. apply in_app_iff. apply in_app_iff in H. destruct H; auto.
      * unfold st2. destruct q'; auto. constructor; auto.
      * intros x H. apply in_app_iff. apply Hst2 in H. left. destruct H as [[-> _]|H]; auto.
      * intros x H. rewrite in_app_iff. apply Hst2 in H. destruct H as [[-> _]|H]. tauto. intros [H1|H1]. apply (Hnew1 _ H1). auto. apply (Hdis x); auto. right; auto.
      * assert (HL4 : forall x j, In x L -> mem h4 x j = mem h3 x j) by (intros; apply Hm4; apply in_app_iff; auto).
        assert (HC : chain (fun x => ptr (mem h4 x 1)) par st).
        { eapply chain_ext; [|exact Hch1]. intros x Hx'. cbn. rewrite HL4 by auto. unfold h3. destruct q'; auto. cbn. rewrite upd2_o; auto. left. intros ->. auto. }
        unfold st2, par2. destruct q' eqn:Eq'. exact HC. split; auto. rewrite HL4 by auto. unfold h3. cbn. rewrite upd2_s. cbn. exact HC.
      * intros x H. rewrite Epd4. destruct (Nat.eqb_spec x o).
        -- subst x. apply Hst2 in H. destruct H as [[_ H]|H]; [|tauto]. inversion Hqnd; subst. sp; auto. intros z Hz; apply Hq; right; auto. intros z Hz; apply Hqp; right; auto.
        -- apply Hpend. apply Hst2 in H. tauto.
    + rewrite Ek2. pose proof (Inv_len _ _ _ _ _ _ _ _ I4) as HL. rewrite app_length in *. unfold N in *. cbn [map length] in *. rewrite ?app_length, !map_length in *. lia.
    + exists h5, (N ++ N5). rewrite app_assoc. auto.
Qed.

(** collect of one location *)
Definition Cl L Rl Dl W h := Inv L F2 T2 T2 Rl Dl W h.
Definition good (l : slot) : Prop := ext l /\ (forall o i, l = Field o i -> In i (offs o)) /\ (forall y, ptr (get0 l) = Some y -> y < B /\ K y).
Lemma slot_dec : forall a b : slot, a = b \/ a <> b.
Proof.
  intros [r|o i] [r'|o' i']; try (right; congruence). destruct (Nat.eq_dec r r'); [left|right]; congruence.
  destruct (Nat.eq_dec o o'); [|right; congruence]. destruct (Nat.eq_dec i i'); [left|right]; congruence.
Qed.
Lemma collect_ok : forall fuel L (Rl Dl : slot -> Prop) W h l, Cl L Rl Dl W h -> good l -> Rl l -> B < fuel ->
  exists h' N, collect e fuel h l = Some h' /\ Cl (L ++ N) (fun l' => Rl l' /\ l' <> l) (fun l' => Dl l' \/ l' = l) W h'.
Proof.
  intros fuel L Rl Dl W h l I (He & Ho & Hk) HR Hf. unfold collect.
  assert (Eg : get h l = get0 l) by (eapply i_lraw; eauto). rewrite Eg.
  destruct (update e h l) as [[h1 r] v] eqn:EU.
  destruct (ptr (get0 l)) as [y|] eqn:Ep.
  - destruct (Hk y eq_refl) as [Hy Ky].
    assert (Eg' : ptr (get h l) = Some y) by (rewrite Eg; auto).
    destruct (update_ok _ _ _ _ _ _ _ _ _ _ _ _ _ I Eg' Hy Ky EU) as (N & y' & -> & HN & I1 & Im & Hrem & U & P).
    assert (Eg1 : get h1 l = get0 l) by (eapply i_lraw; eauto).
    assert (I2 := put_loc _ _ _ _ _ _ _ _ l (setPtr (get h1 l) (Some y')) I1 He Ho).
    specialize (I2 ltac:(rewrite Eg1; eapply imgw_set; eauto)).
    specialize (I2 ltac:(intros o i z -> Ht Hz Hten; apply Hrem; auto; [rewrite tracked_ext; auto; cbn in He; tauto|cbn in Ep; congruence])).
    destruct v.
    + destruct HN as [-> HN].
      destruct (visit_ok fuel (L ++ [y]) y None [] (fun l' => Rl l' /\ l' <> l) (fun l' => Dl l' \/ l' = l) W (put h1 l (setPtr (get h1 l) (Some y')))) as (h' & N' & E & I3).
      * constructor; cbn [kids flat_map].
        -- eapply Inv_weak; eauto; unfold newR, oldP, F2, T2; cbn; tauto.
        -- constructor; auto. constructor.
        -- intros x [<-|[]]. apply in_app_iff; right; left; auto.
        -- constructor.
        -- intros x [].
        -- intros x [].
        -- reflexivity.
        -- intros x [].
      * cbn. rewrite app_length. cbn. lia.
      * exists h', ([y] ++ N'). rewrite app_assoc. auto.
    + subst N. exists (put h1 l (setPtr (get h1 l) (Some y'))), []. split; auto.
      eapply Inv_weak; eauto; unfold newR, oldP, F2, T2; cbn; tauto.
  - unfold update in EU. rewrite Eg, Ep in EU. injection EU as <- <- <-.
    exists (put h l (setPtr (get h l) None)), []. rewrite app_nil_r. split; auto.
    apply put_loc; auto. rewrite Eg. apply imgw_null; auto. intros o i y -> _ Hz. cbn in Ep. congruence.
Qed.

Lemma collectAll_ok : forall fuel ls L (Rl Dl : slot -> Prop) W h, Cl L Rl Dl W h -> NoDup ls -> (forall l, In l ls -> good l /\ Rl l) -> B < fuel ->
  exists h' N, collectAll e fuel h ls = Some h' /\ Cl (L ++ N) (fun l' => Rl l' /\ ~ In l' ls) (fun l' => Dl l' \/ In l' ls) W h'.
Proof.
  intros fuel. induction ls as [|l ls IH]; intros L Rl Dl W h I Hnd Hg Hf; cbn [collectAll].
  - exists h, []. rewrite app_nil_r. split; auto. eapply Inv_weak; eauto; cbn; tauto.
  - destruct (Hg l (or_introl eq_refl)) as [G R]. inversion Hnd as [|? ? Hni Hnd']; subst.
    destruct (collect_ok fuel _ _ _ _ _ _ I G R Hf) as (h1 & N1 & E1 & I1). rewrite E1.
    eapply IH in I1; auto.
    2:{ intros l' Hl'. destruct (Hg l' (or_intror Hl')). sp; auto. congruence. }
    destruct I1 as (h2 & N2 & E2 & I2). exists h2, (N1 ++ N2). rewrite app_assoc. split; auto.
    eapply Inv_weak; eauto; cbn; auto. intros l' [A1 A2]. split; [split; [auto|intros ->; apply A2; auto]|intro; apply A2; auto]. intros l' [A|[A|A]]; auto.
Qed.

Lemma Inv_pop : forall L R D V Rl Dl W h f l, Inv L R D V Rl Dl W h -> marked h = f :: l -> Inv L R D V Rl Dl (f :: W) (setMarked h l).
Proof.
  intros L R D V Rl Dl W h f l [] E. rewrite E in *. constructor; auto; cbn [setMarked mk marked mem].
  - intros g. rewrite i_mk0. cbn. rewrite !in_app_iff. cbn. tauto.
  - apply (Permutation_NoDup (l := (f :: l) ++ W)); auto. cbn. apply Permutation_middle.
Qed.
Definition RF (W : list nat) (Rl : slot -> Prop) (l : slot) : Prop := Rl l \/ exists f i, l = Field f i /\ cat f = Fix /\ ~ In f W.
Definition DF (W : list nat) (Dl : slot -> Prop) (l : slot) : Prop := Dl l \/ exists f i, l = Field f i /\ In f W /\ In i (offs f).

Lemma visitMarked_ok : forall fuel (Rl Dl : slot -> Prop), (forall f i, cat f = Fix -> ~ Rl (Field f i)) -> B < fuel ->
  forall n L W h, Cl L (RF W Rl) (DF W Dl) W h -> B - length W < n ->
  exists h' N W', visitMarked e n fuel h = Some h' /\ Cl (L ++ N) (RF W' Rl) (DF W' Dl) W' h' /\ marked h' = [].
Proof.
  intros fuel Rl Dl HRl Hf. induction n as [|n IH]; intros L W h I Hn. lia. cbn [visitMarked].
  destruct (marked h) as [|f l] eqn:Em.
  - exists h, [], W. rewrite app_nil_r. auto.
  - assert (Hmk : mk h f = true) by (eapply i_mk; eauto; rewrite Em; left; auto).
    destruct (i_mkf _ _ _ _ _ _ _ _ I _ Hmk) as [HfB HfC].
    assert (HfW : ~ In f W). { pose proof (i_mknd _ _ _ _ _ _ _ _ I) as H. rewrite Em in H. cbn in H. inversion H; subst. rewrite in_app_iff in H2. tauto. }
    assert (I1 := Inv_pop _ _ _ _ _ _ _ _ _ _ I Em).
    rewrite (i_lay0 _ _ _ _ _ _ _ _ I f HfB).
    destruct (collectAll_ok fuel (map (Field f) (offs f)) _ _ _ _ _ I1) as (h2 & N2 & E2 & I2); auto.
    { apply Injective_map_NoDup; [|apply Hoffs; eapply i_KM; eauto]. intros a b H. congruence. }
    { intros x Hx. apply in_map_iff in Hx. destruct Hx as (i & <- & Hi). split.
      - split; [|split].
        + split; auto. congruence.
        + intros o j E. injection E as <- <-. auto.
        + cbn. intros y Hy. assert (Kf : K f) by (eapply i_KM; eauto). split; [eapply (Hclosed f); eauto|]. eapply HK; eauto.
      - right. exists f, i. auto. }
    rewrite E2.
    assert (HW : length (f :: W) <= B).
    { rewrite <- (seq_length B 0). apply NoDup_incl_length.
      - pose proof (i_mknd _ _ _ _ _ _ _ _ I1) as H. apply nodup_app_r in H. auto.
      - intros x Hx. apply in_seq. assert (mk h x = true). { apply (i_mk _ _ _ _ _ _ _ _ I). rewrite Em. destruct Hx as [<-|Hx]; [left; auto|]. apply in_app_iff; auto. }
        pose proof (proj1 (i_mkf _ _ _ _ _ _ _ _ I _ H)). lia. }
    destruct (IH (L ++ N2) (f :: W) h2) as (h3 & N3 & W3 & E3 & I3 & M3).
    + eapply Inv_weak; eauto.
      * intros x [Hx|(g & i & -> & Hg & HgW)].
        -- split. left; auto. intro Hx'. apply in_map_iff in Hx'. destruct Hx' as (j & <- & _). eapply HRl; eauto.
        -- split. right. exists g, i. split; auto. split; auto. intro; apply HgW; right; auto.
           intro Hx'. apply in_map_iff in Hx'. destruct Hx' as (j & E & _). injection E as -> ->. apply HgW; left; auto.
      * intros x [Hx|(g & i & -> & Hg & Hi)].
        -- left. left. auto.
        -- destruct Hg as [<-|Hg]. right. apply in_map; auto. left. right. exists g, i. auto.
    + cbn [length] in *. lia.
    + exists h3, (N2 ++ N3), W3. rewrite app_assoc. auto.
Qed.

Definition RR (rs : list nat) (l : slot) : Prop := exists r, l = Root r /\ In r rs.
Lemma collectRoots_ok : forall fuel (Sk : slot -> Prop), (forall f i, cat f = Fix -> ~ Sk (Field f i)) -> (forall r, ~ Sk (Root r)) -> B < fuel ->
  forall rs L Dl W h, NoDup rs -> (forall r y, In r rs -> ptr (rt0 r) = Some y -> y < B /\ K y) ->
  Cl L (RF W (fun l => Sk l \/ RR rs l)) (DF W Dl) W h ->
  exists h' N W', collectRoots e fuel h rs = Some h' /\ Cl (L ++ N) (RF W' Sk) (DF W' (fun l => Dl l \/ RR rs l)) W' h' /\ (rs <> [] \/ marked h = [] -> marked h' = []).
Proof.
  intros fuel Sk HS1 HS2 Hf. induction rs as [|r rs IH]; intros L Dl W h Hnd Hg I; cbn [collectRoots].
  - exists h, [], W. rewrite app_nil_r. split; auto. split; [|intros [|]; congruence]. eapply Inv_weak; eauto.
    + intros l [H|H]; [left; left; auto|right; auto].
    + intros l [[H|(r & _ & [])]|H]; [left; auto|right; auto].
  - inversion Hnd as [|? ? Hni Hnd']; subst.
    destruct (collect_ok fuel _ _ _ _ _ (Root r) I) as (h1 & N1 & E1 & I1); auto.
    { split; [exact Logic.I|]. split; [intros; discriminate|]. cbn. intros y. apply Hg. left; auto. }
    { left. right. exists r. split; auto. left; auto. }
    rewrite E1.
    destruct (visitMarked_ok fuel (fun l => Sk l \/ RR rs l) (fun l => Dl l \/ l = Root r)) with (n := fuel) (L := L ++ N1) (W := W) (h := h1) as (h2 & N2 & W2 & E2 & I2 & M2); auto.
    { intros f i Hc [H|(x & E & _)]; [eapply HS1; eauto|discriminate]. }
    { eapply Inv_weak; eauto.
      - intros l [[H|(x & -> & Hx)]|(f & i & -> & Hc & HW)].
        + split. left; left; auto. intros ->. eapply HS2; eauto.
        + split. left. right. exists x. split; auto. right; auto. intros E. injection E as ->. auto.
        + split. right. exists f, i. auto. discriminate.
      - intros l [[H|H]|H]; [left; left; auto|right; auto|left; right; auto]. }
    { lia. }
    rewrite E2.
    destruct (IH _ _ _ _ Hnd' (fun r' y H => Hg r' y (or_intror H)) I2) as (h3 & N3 & W3 & E3 & I3 & M3).
    exists h3, (N1 ++ N2 ++ N3), W3. rewrite !app_assoc. split; auto. split; [|auto].
    eapply Inv_weak; eauto. intros l [[H|(x & -> & [<-|Hx])]|H].
    + left. left. auto. + left. left. right. auto. + left. right. exists x. auto. + right. auto.
Qed.

(** remembered slots *)
Lemma Inv_clear : forall L R D V (Rl Dl : slot -> Prop) W h o i, Inv L R D V Rl Dl W h -> o < B -> ~ Dl (Field o i) -> Inv L R D V Rl Dl W (setRem h o i false).
Proof.
  intros L R D V Rl Dl W h o i I Ho Hd. destruct I. constructor; auto; cbn.
  - intros x c j y H H1 **. pose proof (copy_lt _ _ _ H). rewrite (proj2 (Nat.eqb_neq c o)) by lia. cbn. eauto.
  - intros a j y H H1 **. destruct (Nat.eqb_spec a o), (Nat.eqb_spec j i); cbn; eauto. subst. tauto.
Qed.
Lemma Inv_addDl : forall L R D V (Rl Dl : slot -> Prop) W h l, Inv L R D V Rl Dl W h -> imgw L (mk h) (get0 l) (get h l) ->
  (forall o i y, l = Field o i -> trk o = true -> ptr (m0 o i) = Some y -> ten y = false -> rem h o i = true) ->
  Inv L R D V Rl (fun l' => Dl l' \/ l' = l) W h.
Proof.
  intros L R D V Rl Dl W h l I Hi Hr. destruct I. constructor; auto.
  - intros l' H [H1| ->]; auto.
  - intros o i y H [H1|H1]; eauto.
Qed.
Lemma collectRemembered_ok : forall fuel L (Rl Dl : slot -> Prop) W h o i, Cl L Rl Dl W h -> good (Field o i) -> Rl (Field o i) -> ~ Dl (Field o i) -> B < fuel ->
  exists h' N, collectRemembered e fuel h (o, i) = Some h' /\ Cl (L ++ N) (fun l' => Rl l' /\ l' <> Field o i) (fun l' => Dl l' \/ l' = Field o i) W h'.
Proof.
  intros fuel L Rl Dl W h o i I G HR HD Hf. unfold collectRemembered.
  assert (Ho : o < B) by (destruct G as ([G _] & _); auto).
  assert (I1 := Inv_clear _ _ _ _ _ _ _ _ o i I Ho HD).
  destruct (collect_ok fuel _ _ _ _ _ _ I1 G HR Hf) as (h2 & N2 & E2 & I2).
  assert (HG : exists h' N, match ptr (mem (setRem h o i false) o i) with
    | Some c => if fresh e c && negb (aged (setRem h o i false) c) then Some (setRem (setRem h o i false) o i true) else
        match collect e fuel (setRem h o i false) (Field o i) with
        | Some h2 => Some (match ptr (mem h2 o i) with
            | Some c => if (if fresh e c then aged h2 c else match loc_ e c with Gen2 => true | _ => false end) then h2 else setRem h2 o i true
            | None => setRem h2 o i true end)
        | None => None end
    | None => Some (setRem (setRem h o i false) o i true)
    end = Some h' /\ Cl (L ++ N) (fun l' => Rl l' /\ l' <> Field o i) (fun l' => Dl l' \/ l' = Field o i) W h').
  { assert (Eg : mem (setRem h o i false) o i = m0 o i) by (apply (i_lraw _ _ _ _ _ _ _ _ I1 (Field o i)); auto; apply G).
    rewrite Eg. destruct (ptr (m0 o i)) as [y|] eqn:Ep.
    - destruct G as (_ & _ & G). destruct (G y Ep) as [Hy _]. unfold fresh at 1. rewrite (proj2 (Nat.leb_gt _ _)) by lia. cbn [andb].
      rewrite E2. eexists _, N2. split; [reflexivity|]. destruct (ptr (mem h2 o i)); [|apply Inv_setRem; auto]. destruct (if fresh e n then _ else _); auto. apply Inv_setRem; auto.
    - eexists _, []. split; [reflexivity|]. rewrite app_nil_r. apply Inv_setRem. apply Inv_addDl.
      + eapply Inv_weak; eauto. tauto.
      + cbn [get get0]. rewrite Eg. destruct (m0 o i) as [[y|] l|z]; cbn in *; auto. discriminate.
      + intros a j y E. injection E as <- <-. congruence. }
  destruct (loc o); auto. exists h2, N2. auto.
Qed.
Lemma collectDirty_ok : forall fuel ls L (Rl Dl : slot -> Prop) W h, Cl L Rl Dl W h -> NoDup ls ->
  (forall o i, In (o, i) ls -> good (Field o i) /\ Rl (Field o i) /\ ~ Dl (Field o i)) -> B < fuel ->
  exists h' N, collectDirty e fuel h ls = Some h' /\
    Cl (L ++ N) (fun l' => Rl l' /\ ~ (exists o i, l' = Field o i /\ In (o, i) ls)) (fun l' => Dl l' \/ exists o i, l' = Field o i /\ In (o, i) ls) W h'.
Proof.
  intros fuel. induction ls as [|[o i] ls IH]; intros L Rl Dl W h I Hnd Hg Hf; cbn [collectDirty].
  - exists h, []. rewrite app_nil_r. split; auto. eapply Inv_weak; eauto; cbn; try tauto. intros l [H|(o & i & _ & [])]; auto.
  - destruct (Hg o i (or_introl eq_refl)) as (G & R & D). inversion Hnd as [|? ? Hni Hnd']; subst.
    destruct (collectRemembered_ok fuel _ _ _ _ _ _ _ I G R D Hf) as (h1 & N1 & E1 & I1). rewrite E1.
    eapply IH in I1; auto.
    2:{ intros a j Hl'. destruct (Hg a j (or_intror Hl')) as (A1 & A2 & A3). sp; auto. congruence. intros [A|A]; congruence. }
    destruct I1 as (h2 & N2 & E2 & I2). exists h2, (N1 ++ N2). rewrite app_assoc. split; auto.
    eapply Inv_weak; eauto; cbn; auto.
    + intros l' [A1 A2]. split; [split; [auto|intros ->; apply A2; eauto 6]|]. intros (a & j & -> & Ha). apply A2. exists a, j. auto.
    + intros l' [A|(a & j & -> & [E|Ha])]; auto. left; right; congruence. right. exists a, j. auto.
Qed.

(** The whole collection. *)
Definition SK (dirty : list (nat * nat)) (l : slot) : Prop := exists o i, l = Field o i /\ o < B /\ cat o = Skip /\ ~ In (o, i) dirty.
Definition DD (dirty : list (nat * nat)) (l : slot) : Prop := exists o i, l = Field o i /\ In (o, i) dirty.
Lemma collect2_ok : forall fuel h0 dirty rs, mem h0 = m0 -> root h0 = rt0 -> lay h0 = offs -> next h0 = B -> marked h0 = [] -> (forall f, mk h0 f = false) ->
  NoDup rs -> (forall r y, In r rs -> ptr (rt0 r) = Some y -> y < B /\ K y) -> rs <> [] ->
  (if major e then dirty = [] else NoDup dirty /\ forall o i, In (o, i) dirty -> o < B /\ cat o = Skip /\ In i (offs o) /\ K o) -> B < fuel ->
  exists h' L W, collect2 e fuel h0 dirty rs = Some h' /\ Cl L (RF W (SK dirty)) (DF W (fun l => DD dirty l \/ RR rs l)) W h' /\ marked h' = [].
Proof.
  intros fuel h0 dirty rs Em Er El En Emk Emk0 Hnd Hg Hne Hd Hf.
  assert (I0 : Cl [] (fun l => True) (fun l => False) [] h0).
  { assert (HN : forall x c, isCopy [] x c -> False) by (intros x c H; apply copy_in in H; destruct H).
    assert (HM : forall f, mk h0 f = true -> False) by (intros f H; rewrite Emk0 in H; discriminate).
    constructor; try (intros; exfalso; eauto; fail).
    - cbn. lia.
    - constructor.
    - intros; rewrite Em; reflexivity.
    - intros [r|o i] _ _; cbn [get get0]; congruence.
    - intros; rewrite Em; reflexivity.
    - intros f. rewrite Emk, Emk0. cbn. split; [discriminate|intros []].
    - rewrite Emk. constructor.
    - intros. rewrite El. auto. }
  assert (H1 : exists h1 N1, (if major e then Some h0 else collectDirty e fuel h0 dirty) = Some h1 /\
    Cl ([] ++ N1) (fun l' => True /\ ~ DD dirty l') (fun l' => False \/ DD dirty l') [] h1).
  { destruct (major e) eqn:Ej.
    - subst dirty. exists h0, []. split; auto. eapply Inv_weak; eauto; cbn; try tauto. intros l [[]|(o & i & _ & [])].
    - destruct Hd as [Hd1 Hd2]. eapply collectDirty_ok; eauto. intros o i H. destruct (Hd2 _ _ H) as (A1 & A2 & A3 & A4). sp; auto.
      split; [|split].
      + split; auto. congruence.
      + intros a j E. injection E as <- <-. auto.
      + intros y Hy. split. eapply (Hclosed o); eauto. eapply HK; eauto. }
  destruct H1 as (h1 & N1 & E1 & I1). unfold collect2. rewrite E1. cbn [app] in I1.
  destruct (collectRoots_ok fuel (SK dirty)) with (rs := rs) (L := N1) (Dl := DD dirty) (W := @nil nat) (h := h1) as (h2 & N2 & W & E2 & I2 & M2); auto.
  - intros f i Hc (o & j & E & _ & Hs & _). congruence.
  - intros r (o & j & E & _). discriminate.
  - eapply Inv_weak; eauto.
    + intros l [[(o & i & -> & Ho & Hs & Hn)|(r & -> & Hr)]|(f & i & -> & Hc & _)]; split; auto.
      * intros (a & j & E & Ha). congruence.
      * intros (a & j & E & Ha). discriminate.
      * intros (a & j & E & Ha). injection E as <- <-. destruct (major e) eqn:Ej. subst dirty; destruct Ha. destruct Hd as [_ Hd]. apply Hd in Ha. destruct Ha as (_ & Ha & _). congruence.
    + intros l [H|(f & i & _ & [] & _)]. auto.
  - exists h2, (N1 ++ N2), W. split; auto.
  Unshelve. all: exact 0.
Qed.
End P.
