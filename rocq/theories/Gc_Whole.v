(** From the invariant of [Gc_Proofs] to the theorems: one collection, and a program with collections. *)
From Coq Require Import List Bool Arith ZArith Lia.
From Verif Require Import Chain Gc_Model Gc_Spec Gc_Proofs.
Import ListNotations.

Ltac sp := cbv zeta; cbn iota; repeat match goal with |- _ /\ _ => split end.
Section One.
Variable e : env.
Variable h0 : heap.
Variable dirty : list (nat * nat).
Variable rs : list nat.
Hypothesis HR : Ready e h0 dirty rs.
Notation B := (base e).
Notation K := (live e h0 rs).
Notation m0 := (mem h0).
Notation offs := (lay h0).

Lemma skip_old : forall x, cat e x = Skip <-> (major e = false /\ old (loc_ e x) = true).
Proof.
  intros x. unfold cat, old. destruct (loc_ e x), (major e); cbn [orb]; try (split; [discriminate|intros []; discriminate]); try (split; [auto|intros []; discriminate]); try tauto.
  rewrite Nat.ltb_antisym. destruct (FixieTenureThreshold <=? age); cbn; split; auto; try discriminate. intros []; discriminate.
Qed.
Lemma KK : forall x i y, K x -> In i (offs x) -> ptr (m0 x i) = Some y -> K y.
Proof. intros. eapply live_field; eauto. Qed.
Lemma Kroot : forall r y, In r rs -> ptr (root h0 r) = Some y -> K y.
Proof. intros r y H E. eapply live_root; eauto. cbn. apply in_map. auto. Qed.

Definition fw (h' : heap) (x : nat) : nat := match cat e x with Move => match ptr (mem h' x 0) with Some c => c | None => 0 end | _ => x end.
Lemma imgw_moved : forall L M h' w w', (forall x c, isCopy e L x c -> mem h' x 0 = Ref (Some c) 0) -> imgw e L M w w' -> moved (fw h') w w'.
Proof.
  intros L M h' w w' Hf H. destruct w as [[y|] l|z]; cbn in *; auto. destruct H as (y' & H & ->). f_equal. f_equal.
  unfold fw, img in *. destruct (cat e y). rewrite (Hf _ _ H). auto. destruct H; auto. auto.
Qed.

Theorem one : forall fuel, B < fuel -> exists h' L W, collect2 e fuel h0 dirty rs = Some h' /\
  Cl e m0 (root h0) offs K L (RF e W (SK e dirty)) (DF offs W (fun l => DD dirty l \/ RR rs l)) W h' /\ marked h' = [] /\
  (forall x, K x -> match cat e x with Move => In x L | Fix => mk h' x = true | Skip => True end) /\
  (forall x i, K x -> In i (offs x) -> imgw e L (mk h') (m0 x i) (mem h' (fw h' x) i)) /\
  (forall x i, K x -> ~ In i (offs x) -> mem h' (fw h' x) i = m0 x i) /\
  (forall r, In r rs -> imgw e L (mk h') (root h0 r) (root h' r)) /\
  (forall x i y, K x -> In i (offs x) -> trk e x = true -> ptr (m0 x i) = Some y -> ten e y = false -> (cat e x = Skip -> cat e y <> Skip) -> rem h' (fw h' x) i = true).
Proof.
  intros fuel Hf.
  assert (Hcl : forall x i y, x < B -> K x -> In i (offs x) -> ptr (m0 x i) = Some y -> y < B).
  { intros x i y _ Hx Hi Hy. apply (r_live _ _ _ _ HR). eapply KK; eauto. }
  assert (Hnd : forall x, K x -> NoDup (offs x)) by (intros x Hx; apply (r_live _ _ _ _ HR x Hx)).
  assert (H0c : forall y w, y < B -> K y -> ptr (m0 y 0) = Some w -> w < B).
  { intros y w Hy Ky Hw. eapply Hcl; eauto. apply (r_live _ _ _ _ HR y Ky). }
  destruct (r_roots _ _ _ _ HR) as [Hrs Hne]. destruct (r_marks _ _ _ _ HR) as [Hm1 Hm2].
  destruct (collect2_ok e m0 (root h0) offs K Hcl Hnd KK H0c fuel h0 dirty rs) as (h' & L & W & E & I & M); auto.
  { apply (r_next _ _ _ _ HR). }
  { intros r y Hr Hy. pose proof (Kroot _ _ Hr Hy). split; auto. apply (r_live _ _ _ _ HR y). auto. }
  { pose proof (r_dirty _ _ _ _ HR) as Hd. destruct (major e) eqn:Ej; auto. destruct Hd as (D1 & D2 & _). split; auto.
    intros o i Hi. destruct (D2 _ _ Hi) as (A1 & A2 & A3). assert (cat e o = Skip) by (apply skip_old; auto).
    sp; auto. apply live_kept. split; auto. }
  exists h', L, W. split; auto. split; auto. split; auto.
  assert (Hfw : forall x c, isCopy e L x c -> fw h' x = c).
  { intros x c Hc. unfold fw. destruct (i_mv _ _ _ _ _ _ _ _ _ _ _ _ _ I _ (copy_in _ _ _ _ Hc)) as [_ ->]. rewrite (i_fwd _ _ _ _ _ _ _ _ _ _ _ _ _ I _ _ Hc). auto. }
  assert (HW : forall f, mk h' f = true -> In f W).
  { intros f H. apply (i_mk _ _ _ _ _ _ _ _ _ _ _ _ _ I) in H. rewrite M in H. auto. }
  assert (Hroot : forall r, In r rs -> imgw e L (mk h') (root h0 r) (root h' r)).
  { intros r Hr. apply (i_ldn _ _ _ _ _ _ _ _ _ _ _ _ _ I (Root r)). exact Logic.I. left. right. exists r. auto. }
  assert (Hext : forall x, K x -> cat e x <> Move -> x < B /\ cat e x <> Move).
  { intros x Kx Hc. split; auto. apply (r_live _ _ _ _ HR x Kx). }
  assert (Hst : forall x, K x -> (match cat e x with Move => In x L | Fix => mk h' x = true | Skip => True end) ->
     forall i, In i (offs x) -> imgw e L (mk h') (m0 x i) (mem h' (fw h' x) i)).
  { intros x Kx Hx i Hi. destruct (cat e x) eqn:C.
    - destruct (in_copy e _ _ Hx) as [c Hc]. rewrite (Hfw _ _ Hc). eapply i_dn; eauto. exact Logic.I.
    - replace (fw h' x) with x by (unfold fw; rewrite C; auto).
      apply (i_ldn _ _ _ _ _ _ _ _ _ _ _ _ _ I (Field x i)). apply Hext; auto; congruence. right. exists x, i. auto.
    - replace (fw h' x) with x by (unfold fw; rewrite C; auto).
      pose proof (proj1 (skip_old x) C) as [Ej Eo]. pose proof (r_dirty _ _ _ _ HR) as Hd. rewrite Ej in Hd. destruct Hd as (_ & _ & D3).
      destruct (in_dec (fun a b : nat * nat => ltac:(decide equality; apply Nat.eq_dec)) (x, i) dirty) as [k|k].
      + apply (i_ldn _ _ _ _ _ _ _ _ _ _ _ _ _ I (Field x i)). apply Hext; auto; congruence. left. left. exists x, i. auto.
      + assert (HxB : x < B) by (apply (r_live _ _ _ _ HR x Kx)).
        assert (Eg : mem h' x i = m0 x i). { apply (i_lraw _ _ _ _ _ _ _ _ _ _ _ _ _ I (Field x i)). split; auto; congruence. left. exists x, i. auto. }
        rewrite Eg. destruct (m0 x i) as [[y|] l|z] eqn:Ew; cbn; auto. exists y. split; auto.
        unfold img. assert (Cy : cat e y = Skip). { apply skip_old. split; auto. destruct (old (loc_ e y)) eqn:Ey; auto. destruct k. apply (D3 x i y); auto. rewrite Ew. auto. }
        rewrite Cy. auto. }
  assert (Hall : forall x, K x -> match cat e x with Move => In x L | Fix => mk h' x = true | Skip => True end).
  { assert (Him : forall w w' y, imgw e L (mk h') w w' -> ptr w = Some y -> match cat e y with Move => In y L | Fix => mk h' y = true | Skip => True end).
    { intros [[z|] l|z] w' y H Ey; cbn in *; try discriminate. injection Ey as ->. destruct H as (y' & H & _). unfold img in H. destruct (cat e y); auto. eapply copy_in; eauto. tauto. }
    intros x Hx. induction Hx as [x Hk|w x Hw Hp|x i y Hx IH Hi Hp].
    - destruct Hk as (Ej & _ & Eo). rewrite (proj2 (skip_old x)); auto.
    - cbn in Hw. apply in_map_iff in Hw. destruct Hw as (r & <- & Hr). eapply Him; eauto.
    - eapply Him; eauto. }
  split; [exact Hall|]. split; [intros x i Kx Hi; apply Hst; auto; apply Hall; auto|]. split; [|split; [exact Hroot|]].
  - intros x i Kx Hi. specialize (Hall x Kx). destruct (cat e x) eqn:C.
    + destruct (in_copy e _ _ Hall) as [c Hc]. rewrite (Hfw _ _ Hc). eapply i_data; eauto.
    + replace (fw h' x) with x by (unfold fw; rewrite C; auto). eapply i_lof; eauto. apply (r_live _ _ _ _ HR x Kx). congruence.
    + replace (fw h' x) with x by (unfold fw; rewrite C; auto). eapply i_lof; eauto. apply (r_live _ _ _ _ HR x Kx). congruence.
  - intros x i y Kx Hi Ht Hp Hten Hsk. specialize (Hall x Kx).
    assert (HxB : x < B) by (apply (r_live _ _ _ _ HR x Kx)). destruct (cat e x) eqn:C.
    + destruct (in_copy e _ _ Hall) as [c Hc]. rewrite (Hfw _ _ Hc). eapply i_rem; eauto. exact Logic.I.
    + replace (fw h' x) with x by (unfold fw; rewrite C; auto). eapply i_lrem; eauto. split; auto; congruence. right. exists x, i. auto.
    + replace (fw h' x) with x by (unfold fw; rewrite C; auto).
      pose proof (proj1 (skip_old x) C) as [Ej Eo]. pose proof (r_dirty _ _ _ _ HR) as Hd. rewrite Ej in Hd. destruct Hd as (_ & _ & D3).
      eapply i_lrem; eauto. split; auto; congruence. left. left. exists x, i. split; auto. eapply D3; eauto.
      destruct (old (loc_ e y)) eqn:Ey; auto. destruct (Hsk eq_refl). apply skip_old. auto.
Qed.

(** fw is injective, onto the copies *)
Lemma fw_copy : forall L Rl Dl W h' x, Cl e m0 (root h0) offs K L Rl Dl W h' -> In x L -> isCopy e L x (fw h' x).
Proof.
  intros L Rl Dl W h' x I H. destruct (in_copy e _ _ H) as [c Hc]. unfold fw. destruct (i_mv _ _ _ _ _ _ _ _ _ _ _ _ _ I _ H) as [_ ->].
  rewrite (i_fwd _ _ _ _ _ _ _ _ _ _ _ _ _ I _ _ Hc). auto.
Qed.
End One.

Lemma old_promote : forall p, old (promote p) = match promote p with Gen2 => true | _ => false end.
Proof. intros [|a| |a]; cbn; auto. destruct a as [|[|[|[|a]]]]; reflexivity. Qed.
Lemma old_sweep : forall a, old (Fixed (sweepAge a)) = (FixieTenureThreshold <=? S a).
Proof.
  intros a. unfold old, sweepAge. destruct (Nat.eqb_spec a (S FixieTenureThreshold)).
  - subst. reflexivity.
  - destruct (Nat.ltb_spec FixieTenureThreshold (S a)).
    + rewrite Nat.leb_refl. symmetry. apply Nat.leb_le. lia.
    + reflexivity.
Qed.
Lemma ten_trk : forall e y, trk e y = false -> ten e y = false.
Proof.
  intros e y. unfold trk, ten. destruct (promoted e y); cbn [orb]; auto. destruct (loc_ e y); auto. rewrite !Nat.leb_gt. lia.
Qed.

(** One collection. *)
Theorem collection : forall e h dirty rs fuel, Ready e h dirty rs -> base e < fuel ->
  exists h' f, collect2 e fuel h dirty rs = Some h' /\ Preserves f (live e h rs) (graphOf h rs) (graphOf h' rs) /\
  (forall x, live e h rs x -> lay h' (f x) = lay h x) /\
  (forall x, live e h rs x -> match loc_ e x with
     | Fixed a => f x = x /\ (mk h' x = true \/ stays e x) | Gen2 => if major e then base e <= f x < next h' /\ home h' (f x) = Gen2 else f x = x
     | p => base e <= f x < next h' /\ home h' (f x) = promote p end) /\
  (forall c, base e <= c < next h' -> exists x, live e h rs x /\ f x = c) /\
  (forall x, mk h' x = true -> live e h rs x) /\
  (let (e', h2) := finish e h' in
   (forall x, live e h rs x -> f x < base e') /\
   (forall x', x' < base e' -> old (loc_ e' x') = true -> exists x, live e h rs x /\ f x = x') /\
   (forall x i y, live e h rs x -> In i (lay h x) -> ptr (mem h x i) = Some y -> old (loc_ e' (f x)) = true -> old (loc_ e' (f y)) = false -> rem h2 (f x) i = true)).
Proof.
  intros e h dirty rs fuel HR Hf. destruct (one e h dirty rs HR fuel Hf) as (h' & L & W & E & I & M & Hall & Hw & Hd & Hr & Hrem).
  exists h', (fw e h'). split; auto.
  assert (HfL : forall x, In x L -> isCopy e L x (fw e h' x)) by (intros x Hx; eapply fw_copy; eauto).
  assert (Hlt : forall x, live e h rs x -> x < base e) by (intros x Hx; apply (r_live _ _ _ _ HR x Hx)).
  assert (Hfwd : forall x c, isCopy e L x c -> mem h' x 0 = Ref (Some c) 0) by (intros; eapply i_fwd; eauto).
  assert (Hcase : forall x, live e h rs x -> (cat e x = Move /\ isCopy e L x (fw e h' x)) \/ (cat e x <> Move /\ fw e h' x = x)).
  { intros x Hx. specialize (Hall x Hx). destruct (cat e x) eqn:C. left; auto. right; split; [congruence|]. unfold fw; rewrite C; auto. right; split; [congruence|]. unfold fw; rewrite C; auto. }
  assert (Hnext : next h' = base e + length L) by (eapply i_next; eauto).
  split; [|split; [|split; [|split; [|split]]]].
  - constructor.
    + intros x y Hx Hy Exy. destruct (Hcase x Hx) as [[C1 H1]|[C1 H1]], (Hcase y Hy) as [[C2 H2]|[C2 H2]].
      * rewrite Exy in H1. eapply copy_inj; eauto.
      * pose proof (copy_lt _ _ _ _ H1). specialize (Hlt y Hy). lia.
      * pose proof (copy_lt _ _ _ _ H2). specialize (Hlt x Hx). lia.
      * congruence.
    + intros x i Hx Hi. eapply imgw_moved; eauto; apply Hw; auto.
    + intros x i Hx Hi. cbn. apply Hd; auto.
    + cbn. clear - Hr Hfwd. induction rs as [|r l IH]; cbn; constructor.
      * eapply imgw_moved; eauto; apply Hr; left; auto.
      * apply IH. intros. apply Hr. right; auto.
  - intros x Hx. destruct (Hcase x Hx) as [[C1 H1]|[C1 H1]]. eapply i_layc; eauto. rewrite H1. eapply i_lay0; eauto.
  - intros x Hx. destruct (Hcase x Hx) as [[C1 H1]|[C1 H1]].
    + pose proof (copy_lt _ _ _ _ H1). rewrite (i_home _ _ _ _ _ _ _ _ _ _ _ _ _ I _ _ H1). rewrite Hnext.
      unfold cat in C1. destruct (loc_ e x) eqn:El; auto.
      destruct (major e); auto. discriminate. destruct (major e || _); discriminate.
    + specialize (Hall x Hx). assert (HS := proj1 (skip_old e x)). unfold stays. specialize (Hlt x Hx). unfold cat in *. destruct (loc_ e x) eqn:El; try congruence.
      destruct (major e); try congruence. auto.
      split; auto. destruct (major e || _). left; auto. right. destruct (HS eq_refl). auto.
  - intros c Hc. assert (exists x, isCopy e L x c).
    { destruct (nth_error L (c - base e)) as [x|] eqn:En. exists x. split; auto; lia. apply nth_error_None in En. lia. }
    destruct H as [x Hx]. exists x. split. eapply i_KL; eauto. eapply copy_in; eauto.
    pose proof (HfL x (copy_in _ _ _ _ Hx)) as H1. eapply copy_fun; eauto. eapply i_nd; eauto.
  - intros x Hx. eapply i_KM; eauto.
  - assert (Hcp : forall c, base e <= c < next h' -> exists x, live e h rs x /\ isCopy e L x c /\ fw e h' x = c).
    { intros c Hc. assert (exists x, isCopy e L x c).
      { destruct (nth_error L (c - base e)) as [x|] eqn:En. exists x. split; auto; lia. apply nth_error_None in En. lia. }
      destruct H as [x Hx]. exists x. split. eapply i_KL; eauto. eapply copy_in; eauto. split; auto.
      pose proof (HfL x (copy_in _ _ _ _ Hx)) as H1. eapply copy_fun; eauto. eapply i_nd; eauto. }
    assert (Hold : forall x, live e h rs x -> old (loc_ (fst (finish e h')) (fw e h' x)) = trk e x).
    { intros x Hx. cbn [finish fst loc_]. destruct (Hcase x Hx) as [[C1 H1]|[C1 H1]].
      - pose proof (copy_lt _ _ _ _ H1). unfold fresh. rewrite (proj2 (Nat.leb_le _ _)) by lia.
        rewrite (i_home _ _ _ _ _ _ _ _ _ _ _ _ _ I _ _ H1). rewrite old_promote. unfold trk, promoted.
        unfold cat in C1. destruct (loc_ e x); try (rewrite orb_false_r; reflexivity). destruct (major e || _); discriminate.
      - rewrite H1. unfold fresh. rewrite (proj2 (Nat.leb_gt _ _)) by auto. specialize (Hall x Hx). assert (Hmk : cat e x = Skip -> mk h' x = false).
        { intros Cs. destruct (mk h' x) eqn:Em; auto. apply (i_mkf _ _ _ _ _ _ _ _ _ _ _ _ _ I) in Em. destruct Em. congruence. }
        unfold trk, promoted, cat in *. destruct (loc_ e x); try congruence.
        + destruct (major e); try congruence. reflexivity.
        + cbn [promote orb]. destruct (major e || (age <? FixieTenureThreshold)) eqn:Ea.
          * rewrite Hall. apply old_sweep.
          * rewrite Hmk by auto. apply orb_false_iff in Ea. destruct Ea as [_ Ea]. apply Nat.ltb_ge in Ea. cbn [old]. rewrite (proj2 (Nat.leb_le _ _) Ea). symmetry. apply Nat.leb_le. lia. }
    cbn [finish fst base loc_] in *. split; [|split].
    + intros x Hx. destruct (Hcase x Hx) as [[C1 H1]|[C1 H1]]. pose proof (copy_lt _ _ _ _ H1). lia. rewrite H1. specialize (Hlt x Hx). lia.
    + intros x' Hx' Ho. unfold fresh in Ho. destruct (Nat.leb_spec (base e) x').
      * destruct (Hcp x') as (x & A1 & _ & A2); eauto.
      * assert (Hs : mk h' x' = true \/ cat e x' = Skip).
        { unfold cat. destruct (loc_ e x'); try discriminate. destruct (major e); auto; discriminate. destruct (mk h' x'); auto. destruct (major e || _); auto; discriminate. }
        assert (HKx : live e h rs x'). { destruct Hs as [Hs|Hs]. eapply i_KM; eauto. apply live_kept. apply (skip_old e) in Hs. destruct Hs. split; auto. }
        exists x'. split; auto. destruct (Hcase x' HKx) as [[C1 H1]|[C1 H1]]; auto. destruct Hs as [Hs|Hs]; [|congruence].
        apply (i_mkf _ _ _ _ _ _ _ _ _ _ _ _ _ I) in Hs. destruct Hs; congruence.
    + intros x i y Hx Hi Hp Ho Hy. cbn [rem]. pose proof (KK e h rs x i y Hx Hi Hp) as Hy'. rewrite Hold in Ho by auto. rewrite Hold in Hy by auto.
      eapply Hrem; eauto. apply ten_trk; auto. intros Cx Cy. apply (skip_old e) in Cy. destruct Cy as [_ Cy]. revert Hy. unfold trk, promoted, old in *. destruct (loc_ e y); try discriminate.
      apply Nat.leb_le in Cy. cbn [promote orb]. rewrite Nat.leb_gt. lia.
Qed.
