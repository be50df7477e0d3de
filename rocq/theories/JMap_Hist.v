(** Proofs about the hash map: loops over the entries, and whole histories. *)
From Coq Require Import List ZArith Bool Lia Permutation.
From Verif Require Import Res Chain JNum_Model JMap_Model JMap_Spec JMap_Proofs JMap_Iter.
Import ListNotations.
Local Open Scope Z_scope.
Local Arguments Z.add : simpl never.
Local Arguments Z.mul : simpl never.
Local Arguments Z.pow : simpl never.
Local Arguments Z.sub : simpl never.
Local Arguments Z.div : simpl never.

Section Map.
Context {K V : Type} (hash : K -> Z) (equal : K -> K -> bool) (equalV : V -> V -> bool).
Hypothesis L : lawful hash equal.
Local Notation lists := (@JMap_Spec.lists K V). Notation map := (@map K V). Notation store := (@store K V). Notation cell := (@cell K V).
Notation good := (good hash). Notation shape := (shape hash). Notation alloc := (alloc hash).

Definition keep (cs : store) (p : K -> V -> bool) (j : nat) : bool :=
  match dat cs j with Some d => negb (p (fst (fst d)) (snd (fst d))) | None => true end.

Lemma keep_ext : forall (cs cs' : store) p l, (forall j, dat cs' j = dat cs j) -> filter (keep cs' p) l = filter (keep cs p) l.
Proof. intros cs cs' p l H. apply filter_ext. intros j. unfold keep. rewrite H. reflexivity. Qed.

Lemma walkLoop_ok : forall fuel peek p (m : map) a bs it done rem seen, good m (concat bs) -> array m = Some a ->
  isPow2 (capacityOf a) -> Rch (nx (cells m)) a bs -> placed (cells m) (capacityOf a) bs ->
  pos it bs done rem -> (length rem < fuel)%nat ->
  exists m', walkLoop fuel peek p m it seen = Ok (seen ++ ents (cells m) rem, m') /\
    good m' (done ++ filter (keep (cells m) p) rem) /\ (forall j, dat (cells m') j = dat (cells m) j).
Proof.
  induction fuel as [|fuel IH]; intros peek p m a bs it done rem seen G Ea P R Pl Ps Hf; [lia|]. cbn [walkLoop].
  destruct (hasNext_ok _ _ _ _ _ _ Ea R Ps) as [it1 [E1 [P1 [_ N1]]]]. rewrite E1. cbn [bind fst snd].
  destruct rem as [|n rem].
  - exists m. cbn. rewrite !app_nil_r. split; [reflexivity|]. split; [|reflexivity].
    pose proof (pos_concat _ _ _ _ Ps) as Q. rewrite app_nil_r in Q. rewrite <- Q. exact G.
  - destruct (next_ok hash _ _ _ _ _ _ _ (proj1 G) Ea R P1 ltac:(apply N1; discriminate)) as [it2 [E2 [P2 C2]]].
    rewrite E2. cbn [bind fst snd].
    assert (Hin : In n (concat bs)). { rewrite (pos_concat _ _ _ _ Ps). apply in_or_app. right. left. reflexivity. }
    destruct (s_al _ _ _ (proj1 G) n Hin) as [d [Hd _]]. destruct (dat_cell _ _ _ Hd) as [x [Ex Edx]].
    rewrite Ex. cbn [of_option bind]. rewrite (ents_cons _ _ _ _ Hd).
    assert (Kn : keep (cells m) p n = negb (p (ckey x) (cval x))) by (unfold keep; rewrite Hd, Edx; reflexivity).
    cbn [filter]. rewrite Kn.
    assert (Fd : fst d = (ckey x, cval x)) by (rewrite Edx; reflexivity). rewrite Fd.
    replace (seen ++ (ckey x, cval x) :: ents (cells m) rem) with ((seen ++ [(ckey x, cval x)]) ++ ents (cells m) rem)
      by (rewrite <- app_assoc; reflexivity).
    cbn [length] in Hf. destruct (p (ckey x) (cval x)); cbn [negb].
    + assert (Q : exists it3, (if peek then bind (hasNext m it2) (fun h => Ok (snd h)) else Ok it2) = Ok it3 /\
                pos it3 bs (done ++ [n]) rem /\ curCell it3 = Some n).
      { destruct peek; [|eauto]. destruct (hasNext_ok _ _ _ _ _ _ Ea R P2) as [it3 [E3 [P3 [C3 _]]]]. rewrite E3.
        exists it3. cbn. rewrite C3. auto. }
      destruct Q as [it3 [E3 [P3 C3]]]. rewrite E3. cbn [bind].
      destruct (iterRemove_ok hash _ _ _ _ _ _ _ (proj1 G) Ea R P Pl (proj2 G) P3 C3)
        as [m' [it4 [a' [bs' [E4 [P4 [G4 [Ea4 [Pw4 [R4 [Pl4 [D4 F4]]]]]]]]]]]].
      rewrite E4. cbn [bind fst snd].
      destruct (IH peek p m' a' bs' it4 done rem (seen ++ [(ckey x, cval x)]) G4 Ea4 Pw4 R4 Pl4 P4 ltac:(lia)) as [m'' [E5 [G5 D5]]].
      exists m''. rewrite E5. rewrite (ents_dat (cells m') (cells m)) by (intros; apply D4).
      split; [reflexivity|]. split; [rewrite <- (keep_ext (cells m) (cells m')) by exact D4; exact G5|].
      intros j. rewrite D5. apply D4.
    + destruct (IH peek p m a bs it2 (done ++ [n]) rem (seen ++ [(ckey x, cval x)]) G Ea P R Pl P2 ltac:(lia)) as [m'' [E5 [G5 D5]]].
      exists m''. split; [exact E5|]. split; [|exact D5]. rewrite <- app_assoc in G5. exact G5.
Qed.

Lemma walk_ok : forall peek p (m : map) ids, good m ids ->
  exists m', walk peek p m = Ok (ents (cells m) ids, m') /\ good m' (filter (keep (cells m) p) ids) /\
    (forall j, dat (cells m') j = dat (cells m) j).
Proof.
  intros peek p m ids G. unfold walk, iterator. pose proof (s_arr _ _ _ (proj1 G)) as Sa.
  destruct (array m) as [a|] eqn:Ea.
  - destruct Sa as [bs [-> [P [R Pl]]]].
    assert (P0 : pos (Iter (-1) (-1) None None None) bs [] (concat bs)).
    { apply Between; cbn; auto; lia. }
    destruct (hasNext_ok _ _ _ _ _ _ Ea R P0) as [it1 [E1 [P1 _]]]. rewrite E1. cbn [bind snd].
    destruct (walkLoop_ok (S (fresh m)) peek p m a bs it1 [] (concat bs) [] G Ea P R Pl P1) as [m' [E [G' D]]].
    { pose proof (nodup_bound _ _ (s_nd _ _ _ (proj1 G)) (s_fr _ _ _ (proj1 G))). lia. }
    exists m'. auto.
  - subst ids. unfold hasNext. rewrite Ea. cbn [bind nextCell snd walkLoop]. unfold hasNext. rewrite Ea. cbn.
    exists m. auto.
Qed.

Lemma ents_filter : forall (cs : store) p ids, alloc cs ids ->
  ents cs (filter (keep cs p) ids) = filter (fun e => negb (p (fst e) (snd e))) (ents cs ids).
Proof.
  induction ids as [|i ids IH]; intros A; [reflexivity|].
  destruct (A i (or_introl eq_refl)) as [d [Hd _]]. rewrite (ents_cons _ _ _ _ Hd). cbn [filter].
  assert (Kn : keep cs p i = negb (p (fst (fst d)) (snd (fst d)))) by (unfold keep; rewrite Hd; reflexivity). rewrite Kn.
  assert (A' : alloc cs ids) by (intros j Hj; apply A; simpl; auto).
  destruct (negb _); [rewrite (ents_cons _ _ _ _ Hd)|]; rewrite (IH A'); reflexivity.
Qed.

Lemma fop_filter : forall {A} (R : A -> A -> Prop) q l, ForallOrdPairs R l -> ForallOrdPairs R (filter q l).
Proof.
  intros A R q l H. induction H as [|a l Ha H IH]; cbn; [constructor|]. destruct (q a); [|exact IH].
  constructor; [|exact IH]. apply Forall_forall. intros x Hx. apply filter_In in Hx.
  eapply Forall_forall in Ha; [exact Ha|apply Hx].
Qed.

Lemma fop_uniq : forall l (e e' : K * V), ForallOrdPairs (fun a b => equal (fst a) (fst b) = false) l -> In e l -> In e' l ->
  equal (fst e) (fst e') = true -> e = e'.
Proof.
  intros l e e' F H H' E. destruct (ForallOrdPairs_In F e e' H H') as [X|[X|X]]; [exact X|congruence|].
  apply (eq_sym_ _ _ L) in E. congruence.
Qed.

Lemma lists_filter : forall l f p, lists equal l f -> lists equal (filter (fun e => negb (p (fst e) (snd e))) l)
  (fun x => if existsb (fun e => equal x (fst e) && p (fst e) (snd e)) l then None else f x).
Proof.
  intros l f p [F H]. split; [apply fop_filter; exact F|]. intros k v.
  destruct (existsb _ l) eqn:Ex.
  - split; [discriminate|]. intros [k' [H1 H2]]. apply filter_In in H1. destruct H1 as [H1 H3]. cbn in H3.
    apply existsb_exists in Ex. destruct Ex as [e [H4 H5]]. apply andb_true_iff in H5. destruct H5 as [H5 H6].
    assert (Q : e = (k', v)).
    { eapply fop_uniq; eauto. cbn. eapply (eq_trans_ _ _ L); [apply (eq_sym_ _ _ L); exact H5|exact H2]. }
    subst e. cbn in H6. rewrite H6 in H3. discriminate.
  - rewrite H. split; intros [k' [H1 H2]]; exists k'; (split; [|exact H2]).
    + apply filter_In. split; [exact H1|]. cbn. destruct (p k' v) eqn:E; [|reflexivity]. exfalso.
      assert (X : existsb (fun e => equal k (fst e) && p (fst e) (snd e)) l = true).
      { apply existsb_exists. exists (k', v). split; [exact H1|]. cbn. rewrite H2, E. reflexivity. }
      congruence.
    + apply filter_In in H1. apply H1.
Qed.

(** ** Histories *)
Definition holds (m : map) (f : K -> option V) : Prop := exists ids, good m ids /\ lists equal (ents (cells m) ids) f.

Lemma wrap_small : forall z, 0 <= z < 2 ^ 31 -> wrap32 z = z.
Proof. intros. unfold wrap32. rewrite Z.mod_small; lia. Qed.

Lemma clear_ok : forall m f, holds m f -> holds (clear m) (fun _ => None).
Proof.
  intros m f _. exists []. split; [|apply lists_nil]. split; [|reflexivity].
  constructor; cbn; auto; [constructor|intros i []|intros i []].
Qed.

Lemma apply_ok : forall m f o, holds m f -> exists r m' f', apply hash equal equalV m o = Ok (r, m') /\
  step equal equalV f o r f' /\ holds m' f'.
Proof.
  intros m f o [ids [G F]]. destruct o as [k v|k|k|k|v| | |peek p]; cbn [apply].
  - destruct (put_ok hash equal L m ids f k v G F) as [m' [ids' [E [G' F']]]]. rewrite E. cbn [bind fst snd].
    eexists _, _, _. split; [reflexivity|]. split; [|exists ids'; split; [exact G'|exact F']]. cbn. split; reflexivity.
  - destruct (get_ok hash equal L m ids f k G F) as [E _]. rewrite E. cbn [bind].
    eexists _, _, f. split; [reflexivity|]. split; [cbn; auto|exists ids; auto].
  - destruct (remove_ok hash equal L m ids f k G F) as [m' [ids' [E [G' F']]]]. rewrite E. cbn [bind fst snd].
    eexists _, _, _. split; [reflexivity|]. split; [|exists ids'; split; [exact G'|exact F']]. cbn. split; reflexivity.
  - destruct (get_ok hash equal L m ids f k G F) as [_ E]. rewrite E. cbn [bind].
    eexists _, _, f. split; [reflexivity|]. split; [cbn; auto|exists ids; auto].
  - destruct (containsValue_ok hash equal equalV L m ids f v G F) as [b [E H]]. rewrite E. cbn [bind].
    eexists _, _, f. split; [reflexivity|]. split; [cbn; split; [eauto|auto]|exists ids; auto].
  - eexists _, _, f. split; [reflexivity|]. split; [|exists ids; auto]. cbn. split; [|auto].
    exists (ents (cells m) ids). split; [exact F|]. intros B. destruct G as [S Sz]. rewrite Sz.
    rewrite (ents_length hash) in * by apply (s_al _ _ _ S). rewrite wrap_small by lia. reflexivity.
  - eexists _, _, (fun _ => None). split; [reflexivity|]. split; [cbn; auto|]. eapply clear_ok. exists ids. eauto.
  - destruct (walk_ok peek p m ids G) as [m' [E [G' D]]]. rewrite E. cbn [bind fst snd].
    eexists _, _, _. split; [reflexivity|].
    split; [cbn; exists (ents (cells m) ids); split; [reflexivity|]; split; [exact F|intros x; reflexivity]|].
    exists (filter (keep (cells m) p) ids). split; [exact G'|].
    rewrite (ents_dat (cells m') (cells m)) by (intros; apply D).
    rewrite ents_filter by apply (s_al _ _ _ (proj1 G)). apply lists_filter. exact F.
Qed.

Lemma run_ok : forall os m f, holds m f -> exists rs m' f', run hash equal equalV m os = Ok (rs, m') /\
  history equal equalV f os rs f' /\ holds m' f'.
Proof.
  induction os as [|o os IH]; intros m f H; cbn [run].
  - exists [], m, f. cbn. auto.
  - destruct (apply_ok m f o H) as [r [m1 [f1 [E1 [S1 H1]]]]]. rewrite E1. cbn [bind fst snd].
    destruct (IH m1 f1 H1) as [rs [m2 [f2 [E2 [S2 H2]]]]]. rewrite E2. cbn [bind fst snd].
    exists (r :: rs), m2, f2. split; [reflexivity|]. split; [|exact H2]. cbn. eauto.
Qed.

Lemma newMap_ok : forall fuel capacity, (31 < fuel)%nat -> capacity <= 2 ^ 30 ->
  exists m, newMap fuel capacity = Ok m /\ holds m (fun _ => None).
Proof.
  intros fuel capacity Hf Hc. unfold newMap. destruct (0 <? capacity).
  - destruct (nextPow2_ok fuel capacity Hf Hc) as [c [E P]]. rewrite E. cbn [bind].
    pose proof (pow2_pos _ P) as Pp. destruct (Z.ltb_spec c 0); [lia|]. eexists. split; [reflexivity|].
    exists []. split; [|apply lists_nil]. split; [|reflexivity].
    constructor; cbn; [|constructor|intros i []|intros i []].
    exists (repeat [] (Z.to_nat c)). split; [symmetry; apply concat_empty|].
    split; [unfold capacityOf; rewrite repeat_length; rewrite Z2Nat.id by lia; exact P|].
    split; [apply rch_empty|apply placed_empty].
  - eexists. split; [reflexivity|]. exists []. split; [|apply lists_nil]. split; [|reflexivity].
    constructor; cbn; auto; [constructor|intros i []|intros i []].
Qed.
End Map.
