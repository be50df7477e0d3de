(** C23: JNI global and weak global references. *)
From Coq Require Import ZArith List Bool Lia.
From Verif Require Import Res Jref_Model Jref_Spec Jref_Proofs.
Import ListNotations.
Local Open Scope Z_scope.

(** Every outstanding reference is valid and denotes its object, which is live. *)
Theorem C23_valid : forall w h, reachable w -> In h (out w) ->
  valid w h /\ (forall i, denotes h = Some i -> live w i = true).
Proof.
  intros w h R Hi. apply reachable_good in R. destruct (g_held _ R h Hi) as (c&Ec&_&Ht).
  split; [split|].
  - intros E. destruct (g_list _ R) as [l W]. apply (wf_zero _ _ W). apply (wf_cells _ _ W).
    rewrite <- E, Ec. discriminate.
  - unfold deref. rewrite Ec. simpl. congruence.
  - intros i Hd. exact (g_live _ R h i Hi Hd).
Qed.

(** References that denote different objects are different. *)
Theorem C23_distinct : forall w h k i j, reachable w -> In h (out w) -> In k (out w) ->
  denotes h = Some i -> denotes k = Some j -> value h = value k -> i = j.
Proof.
  intros w h k i j R Hh Hk Di Dj E.
  destruct (C23_valid _ _ R Hh) as [[_ Vh] Lh]. destruct (C23_valid _ _ R Hk) as [[_ Vk] Lk].
  rewrite E, Vk, Di, Dj in Vh. inversion Vh.
  destruct (g_placed _ (reachable_good _ R)) as [_ P]. apply P; auto.
Qed.

Lemma held_eq_dec : forall x y : held, {x = y} + {x <> y}.
Proof. decide equality; [decide equality; apply Nat.eq_dec|apply bool_dec|apply Z.eq_dec]. Qed.

(** Until it is deleted, a global reference stays outstanding with the same value and the same
    object, whatever else happens. *)
Theorem C23_stays : forall w e w' h l1 l2, reachable w -> step w e w' ->
  Z.of_nat (length (out w')) < 2 ^ 32 - 1 ->
  out w = l1 ++ h :: l2 -> isWeak h = false ->
  e <> Delete h \/ In h (l1 ++ l2) -> In h (out w') /\ valid w' h.
Proof.
  intros w e w' h l1 l2 R S Few El Hw He.
  assert (Hin : In h (out w)) by (rewrite El; apply in_or_app; simpl; auto).
  assert (In h (out w')) as Hi.
  { destruct S; cbn [out].
    - now right.
    - destruct (drop_split _ _ H) as (m1&m2&Em&Ed). rewrite Ed.
      assert (D : h = h0 \/ In h (m1 ++ m2)).
      { rewrite Em in Hin. apply in_app_or in Hin. rewrite in_app_iff. simpl in Hin. intuition congruence. }
      destruct D as [<-|]; auto. destruct He as [He|He]; [congruence|].
      apply (count_occ_In held_eq_dec) in He.
      apply (f_equal (fun l => count_occ held_eq_dec l h)) in Em. rewrite El in Em.
      rewrite count_occ_app in He. rewrite !count_occ_app in Em.
      rewrite !count_occ_cons_eq in Em by auto.
      apply <- (count_occ_In held_eq_dec). rewrite count_occ_app. lia.
    - auto.
    - apply in_map_iff. exists h. split; auto. unfold afterGc. rewrite Hw. destruct (denotes h); auto. }
  split; auto. apply C23_valid; auto. eapply re_step; eauto.
Qed.

(** A weak reference likewise, except that a collection may turn it into a reference to null. *)
Theorem C23_weak_stays : forall w e w' h, reachable w -> step w e w' ->
  Z.of_nat (length (out w')) < 2 ^ 32 - 1 ->
  In h (out w) -> (forall d, e <> Delete d) ->
  exists h', In h' (out w') /\ valid w' h' /\ value h' = value h /\ isWeak h' = isWeak h /\
    (h' = h \/ e = Collect /\ isWeak h = true /\ denotes h' = None).
Proof.
  intros w e w' h R S Few Hin He.
  assert (exists h', In h' (out w') /\ value h' = value h /\ isWeak h' = isWeak h /\
    (h' = h \/ e = Collect /\ isWeak h = true /\ denotes h' = None)) as (h'&Hi&H1&H2&H3).
  { destruct S; cbn [out].
    - exists h. simpl. intuition.
    - destruct (He h0 eq_refl).
    - exists h; auto.
    - exists (afterGc gone h). split; [apply in_map; auto|]. unfold afterGc.
      destruct (denotes h); auto. destruct (isWeak h) eqn:Ew; simpl; auto.
      destruct (gone n); simpl; auto 10. }
  exists h'. repeat split; auto; apply (C23_valid w' h'); auto; eapply re_step; eauto.
Qed.

(** A weak reference is cleared only if its object was found dead or finalizable, and one that
    is not cleared still denotes a live object: see C23_valid. *)
Theorem C23_cleared : forall w fuel dead final move s h i, reachable w ->
  dead 0 = false -> final 0 = false -> move 0 = 0 ->
  gcRefs fuel dead final move (st w) = Ok s ->
  In h (out w) -> denotes h = Some i ->
  deref s (value h) =
    Some (if isWeak h && (final (where_ w i) || dead (where_ w i)) then 0 else move (where_ w i)).
Proof.
  intros w fuel dead final move s h i R D0 F0 M0 E Hi Hd. apply reachable_good in R.
  destruct (g_list _ R) as [l W].
  destruct (gc_ok _ l (fuel + S (length l)) dead final move W) as (s'&E'&_&A); [lia|].
  unfold gcRefs in *. rewrite (gcList_more _ _ _ _ _ _ _ E) in E'. inversion E'; subst s'.
  destruct (g_held _ R h Hi) as (c&Ec&Hw&Ht). unfold deref. rewrite A, Ec. simpl.
  rewrite Hw, Ht, Hd. simpl. destruct (isWeak h); reflexivity.
Qed.

(** Deleting a reference leaves all others as they are. *)
Theorem C23_delete_others : forall w h w', reachable w -> step w (Delete h) w' ->
  exists l1 l2, out w = l1 ++ h :: l2 /\ out w' = l1 ++ l2 /\
    forall k, In k (out w') -> valid w' k /\ deref (st w') (value k) = deref (st w) (value k).
Proof.
  intros w h w' R S. remember (Delete h) as e. pose proof S as S'. destruct S; try discriminate.
  inversion Heqe; subst h0. cbn [out].
  destruct (drop_split _ _ H) as (l1&l2&El&Ed). exists l1, l2. rewrite Ed. split; auto. split; auto.
  intros k Hk.
  assert (V : valid (World s (where_ w) (live w) (drop (value h) (isWeak h) (denotes h) (out w))) k).
  { apply C23_valid; [|cbn [out]; now rewrite Ed]. eapply re_step; [exact R|exact S'|].
    cbn [out]. rewrite Ed. pose proof (g_few _ (reachable_good _ R)). rewrite El, app_length in H1.
    simpl in H1. rewrite app_length. lia. }
  split; auto. destruct V as [_ V]. cbn [st where_] in *. rewrite V.
  assert (Hk' : In k (out w)) by (rewrite El; apply in_app_or in Hk; apply in_or_app; simpl; tauto).
  destruct (C23_valid _ _ R Hk') as [[_ V'] _]. rewrite V'. reflexivity.
Qed.

(** Storage: a cell is allocated exactly while a reference with that value is outstanding. *)
Theorem C23_storage : forall w a, reachable w ->
  (cells (st w) a <> None <-> exists h, In h (out w) /\ value h = a).
Proof.
  intros w a R. apply reachable_good in R. split.
  - destruct (cells (st w) a) as [c|] eqn:E; [|congruence]. intros _.
    destruct (g_count _ R _ _ E). apply held_at_pos. lia.
  - intros (h&Hi&<-). destruct (g_held _ R h Hi) as (c&->&_). discriminate.
Qed.

(** Progress: from a reachable world every operation succeeds. *)
Theorem C23_new_works : forall w o wk a, reachable w ->
  (forall i, o = Some i -> live w i = true) -> a <> 0 -> cells (st w) a = None ->
  exists r w', step w (New o wk r) w'.
Proof.
  intros w o wk a R Ho Ha Ea. pose proof (reachable_good _ R) as G. destruct (g_list _ G) as [l W].
  destruct (new_ok w l (addressOf (where_ w) o) wk a (S (length l)) G W Ha Ea) as (r&s&_&E&_); [lia|].
  eexists r, _. eapply st_new; eauto.
Qed.
Theorem C23_delete_works : forall w h, reachable w -> In h (out w) ->
  exists s, deleteGlobalRef (st w) (value h) = Ok s.
Proof.
  intros w h R Hi. destruct (delete_ok w h (reachable_good _ R) Hi) as (s&_&E&_). eauto.
Qed.
Theorem C23_collect_works : forall w dead final move, reachable w ->
  exists fuel s, gcRefs fuel dead final move (st w) = Ok s.
Proof.
  intros w dead final move R. destruct (g_list _ (reachable_good _ R)) as [l W].
  destruct (gc_ok _ l (S (length l)) dead final move W) as (s&E&_); eauto.
Qed.

(** The hypotheses are met: two objects, a strong reference to each, a second one to the first
    object, a weak one to the second, then the reference to the second object is deleted. *)
Definition p0 : placement := fun i => 100 + 8 * Z.of_nat i.
Definition w0 : world := World (Refs 0 (fun _ => None)) p0 (fun i => Nat.ltb i 5) [].
Definition grow (w : world) (i : nat) (wk : bool) (a : Z) : world :=
  match newGlobalRef 9 (st w) (where_ w i) wk a with
  | Ok (r, s) => World s (where_ w) (live w) (Held r wk (Some i) :: out w)
  | _ => w
  end.
Lemma grow_reachable : forall w i wk a, reachable w -> live w i = true -> a <> 0 ->
  cells (st w) a = None -> Z.of_nat (length (out (grow w i wk a))) < 2 ^ 32 - 1 ->
  reachable (grow w i wk a).
Proof.
  intros w i wk a R L Ha Ea Few. unfold grow in *.
  destruct (newGlobalRef 9 (st w) (where_ w i) wk a) as [[r s]| | |] eqn:E; auto.
  eapply re_step; [exact R| |exact Few].
  eapply st_new with (o := Some i) (fuel := 9%nat); eauto. intros j Hj; inversion Hj; now subst.
Qed.
Definition w1 := grow w0 1 false 1000.
Definition w2 := grow w1 2 false 2000.
Definition w3 := grow w2 1 false 3000.
Definition w4 := grow w3 2 true 3000.
Example C23_world4 :
  out w4 = [Held 3000 true (Some 2%nat); Held 1000 false (Some 1%nat);
            Held 2000 false (Some 2%nat); Held 1000 false (Some 1%nat)] /\
  reachable w4 /\ exists s, deleteGlobalRef (st w4) 2000 = Ok s /\
    deref s 2000 = None /\ deref s 1000 = Some 108 /\ deref s 3000 = Some 116.
Proof.
  assert (P : placed p0 (fun i => Nat.ltb i 5)) by (split; unfold p0; intros; lia).
  split; [reflexivity|]. split.
  - apply grow_reachable; try discriminate; try reflexivity.
    apply grow_reachable; try discriminate; try reflexivity.
    apply grow_reachable; try discriminate; try reflexivity.
    apply grow_reachable; try discriminate; try reflexivity.
    apply re_start. exact P.
  - eexists. split; [reflexivity|]. repeat split.
Qed.

Definition C23_theorems := (C23_valid, C23_distinct, C23_stays, C23_weak_stays, C23_cleared,
  C23_delete_others, C23_storage, C23_new_works, C23_delete_works, C23_collect_works).
Print Assumptions C23_theorems.
