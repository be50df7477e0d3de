From Coq Require Import List ZArith Bool Lia Permutation.
From Verif Require Import Zone_Model Zone_Spec.
Import ListNotations.
Local Open Scope Z_scope.
Local Arguments Z.add : simpl never.
Local Arguments Z.sub : simpl never.
Local Arguments Z.mul : simpl never.
Local Arguments Z.modulo : simpl never.
Ltac dm := Z.div_mod_to_equations; lia.

Lemma u32_id : forall x, 0 <= x < 2 ^ 32 -> u32 x = x.
Proof. intros. unfold u32. apply Z.mod_small. auto. Qed.
Lemma pad_ok : forall n r, 0 <= n -> rounded n r -> r <= 2 ^ 31 -> pad n = r.
Proof. intros n r H [H1 H2] H3. unfold pad. change (2^31) with 2147483648 in *. rewrite (u32_id n) by (change (2^32) with 4294967296; lia). rewrite u32_id by (change (2^32) with 4294967296; lia). dm. Qed.
Lemma pad_id : forall r, 0 <= r <= 2 ^ 31 -> r mod 8 = 0 -> pad r = r.
Proof. intros. apply pad_ok; try lia. unfold rounded. lia. Qed.
Lemma page_ok : forall n, 0 <= n <= 2 ^ 31 + 2 ^ 30 -> n <= padToPage n < n + 4096 /\ padToPage n mod 4096 = 0.
Proof. intros n H. unfold padToPage. change (2^31 + 2^30) with 3221225472 in *. rewrite (u32_id n) by (change (2^32) with 4294967296; lia). rewrite u32_id by (change (2^32) with 4294967296; lia). dm. Qed.

(** The segments, newest first, are tiled by the blocks, newest first. *)
Inductive Tiled : list segment -> list block -> Prop :=
| t_nil : Tiled [] []
| t_empty : forall i sz rl ss bs, Tiled ss bs -> Tiled (Seg i sz 0 rl :: ss) bs
| t_block : forall i sz rl p l ss bs, Tiled (Seg i sz p rl :: ss) bs -> 0 < l -> Tiled (Seg i sz (p + l) rl :: ss) ((i, p, l) :: bs).
Definition good (s : segment) : Prop := 0 <= position s <= size s /\ position s mod 8 = 0 /\ real s = header + size s /\ 0 <= size s.

Record Inv (z : zone) (bs : list block) : Prop := {
  i_tiled : Tiled (segs z) bs;
  i_good : Forall good (segs z);
  i_ids : NoDup (map id (segs z));
  i_fresh : forall s, In s (segs z) -> (id s < fresh z)%nat;
  i_mf : 0 <= minimumFootprint z <= 2 ^ 30;
  i_pos : Forall (fun b => 0 < len b /\ len b mod 8 = 0) bs
}.
(** Bookkeeping with the allocator: every segment ever obtained is live or freed, once, with its size. *)
Record Log (z : zone) : Prop := {
  l_got : forall i, (exists n, In (i, n) (got z)) <-> (i < fresh z)%nat;
  l_uniq : NoDup (map fst (got z));
  l_perm : forall i n, In (i, n) (got z) <-> In (i, n) (freed z) \/ exists s, In s (segs z) /\ id s = i /\ header + size s = n;
  l_once : NoDup (map fst (freed z) ++ map id (segs z))
}.

Lemma total_nn : forall bs, Forall (fun b => 0 < len b /\ len b mod 8 = 0) bs -> 0 <= total bs /\ total bs mod 8 = 0.
Proof. induction 1 as [|b bs [A B] F [C D]]. cbn. split; auto with zarith. change (total (b :: bs)) with (len b + total bs). split. lia. rewrite Z.add_mod, B, D by lia. auto. Qed.
Lemma tiled_nn : forall ss bs, Tiled ss bs -> 0 <= total bs.
Proof. induction 1 as [| |i sz rl p l ss bs]; auto; try (cbn; lia). change (total ((i, p, l) :: bs)) with (l + total bs). lia. Qed.
Lemma tiled_head : forall ss bs, Tiled ss bs -> match ss with [] => True | s :: _ => 0 <= position s <= total bs end.
Proof. induction 1 as [|i sz rl ss bs H IH|i sz rl p l ss bs H IH]; auto. pose proof (tiled_nn _ _ H). cbn [position]. lia. change (total ((i, p, l) :: bs)) with (l + total bs). cbn [position] in *. lia. Qed.
Lemma tiled_in : forall ss bs, Tiled ss bs -> Forall (fun s => position s mod 8 = 0) ss -> Forall (fun b => 0 < len b /\ len b mod 8 = 0) bs ->
  forall q o l, In (q, o, l) bs -> exists s, In s ss /\ id s = q /\ 0 <= o /\ o + l <= position s /\ o mod 8 = 0.
Proof.
  induction 1 as [|i sz rl ss bs H IH|i sz rl p m ss bs H IH]; intros F G q o l Hin. destruct Hin.
  - inversion F; subst. destruct (IH H3 G q o l Hin) as (s & A & B). exists s. split; auto. cbn; auto.
  - inversion F; subst. inversion G; subst. unfold len in *. cbn in *. assert (Hp : p mod 8 = 0) by (destruct H5; dm).
    assert (F' : Forall (fun s => position s mod 8 = 0) (Seg i sz p rl :: ss)) by (constructor; auto). destruct Hin as [E|Hin].
    + injection E as <- <- <-. exists (Seg i sz (p + m) rl). pose proof (tiled_head _ _ H) as T. cbn in *. repeat split; auto; lia.
    + destruct (IH F' H6 q o l Hin) as (s & [<-|A] & B & C & D & E). cbn in *. exists (Seg i sz (p + m) rl). cbn. repeat split; auto; lia. exists s. auto 6.
Qed.
Lemma tiled_disjoint : forall ss bs, Tiled ss bs -> NoDup (map id ss) -> Forall (fun s => position s mod 8 = 0) ss -> Forall (fun b => 0 < len b /\ len b mod 8 = 0) bs ->
  ForallOrdPairs disjoint bs.
Proof.
  induction 1 as [|i sz rl ss bs H IH|i sz rl p m ss bs H IH]; intros N F G. constructor.
  - inversion F; subst. inversion N; subst. auto.
  - inversion F; subst. inversion G; subst. unfold len in *. cbn in *. assert (Hp : p mod 8 = 0) by (destruct H5; dm).
    assert (F' : Forall (fun s => position s mod 8 = 0) (Seg i sz p rl :: ss)) by (constructor; auto). constructor; auto.
    apply Forall_forall. intros [[q o] l] Hin. destruct (tiled_in _ _ H F' H6 q o l Hin) as (s & [<-|A] & B & C & D & _); cbn in *.
    right. right. auto. left. inversion N; subst. intro E. apply H7. subst. apply in_map. auto.
Qed.

Lemma tiled_pos8 : forall ss bs, Tiled ss bs -> Forall (fun b => 0 < len b /\ len b mod 8 = 0) bs -> Forall (fun s => position s mod 8 = 0) ss.
Proof.
  induction 1 as [|i sz rl ss bs H IH|i sz rl p l ss bs H IH]; intros F; auto.
  inversion F as [|? ? [F1 F2] F3]; subst. specialize (IH F3). inversion IH; subst. constructor; auto. unfold len in *. cbn in *. dm.
Qed.
(** What dropping does. *)
Lemma drop_shape : forall ss n fr ss' fr', drop ss n fr = Some (ss', fr') -> exists pre s rest m, ss = pre ++ s :: rest /\
  ss' = Seg (id s) (size s) (position s - m) (real s) :: rest /\ fr' = rev (map (fun s => (id s, header + size s)) pre) ++ fr /\ m <= position s /\ (0 <= n -> 0 <= m).
Proof.
  induction ss as [|s ss IH]; cbn; intros n fr ss' fr' E. discriminate. destruct (Z.ltb_spec (position s) n).
  - destruct (IH _ _ _ _ E) as (pre & s0 & rest & m & -> & -> & -> & Hm & Hm0). exists (s :: pre), s0, rest, m. cbn. rewrite <- app_assoc. repeat (split; auto). intros _. apply Hm0. lia.
  - injection E as <- <-. exists [], s, ss, n. auto 6.
Qed.
Lemma drop_drop : forall ss m n fr ss1 fr1, 0 <= m -> 0 <= n -> drop ss m fr = Some (ss1, fr1) -> drop ss1 n fr1 = drop ss (m + n) fr.
Proof.
  induction ss as [|s ss IH]; cbn; intros m n fr ss1 fr1 Hm Hn E. discriminate. destruct (Z.ltb_spec (position s) m).
  - rewrite (proj2 (Z.ltb_lt (position s) (m + n))) by lia. rewrite (IH (m - position s) n _ _ _ ltac:(lia) Hn E). f_equal. lia.
  - injection E as <- <-. cbn. destruct (Z.ltb_spec (position s - m) n), (Z.ltb_spec (position s) (m + n)); try lia. f_equal. lia. replace (position s - (m + n)) with (position s - m - n) by lia. auto.
Qed.
Lemma drop_one : forall ss i p l bs, Tiled ss ((i, p, l) :: bs) -> forall fr, exists ss1 fr1 sz rl, drop ss l fr = Some (ss1, fr1) /\ Tiled ss1 bs /\ hd_error ss1 = Some (Seg i sz p rl).
Proof.
  intros ss i p l bs T. remember ((i, p, l) :: bs) as bs0. induction T as [|j sz rl ss bs0 T IH|j sz rl q m ss bs0 T IH]; intros fr. discriminate.
  - subst. cbn. destruct (IH eq_refl ((j, header + sz) :: fr)) as (ss1 & fr1 & sz1 & rl1 & E & T1 & Hd). rewrite Z.sub_0_r. exists ss1, fr1, sz1, rl1. split; auto.
    rewrite (proj2 (Z.ltb_lt 0 l)); auto. inversion T; subst. clear - T. assert (forall ss bs, Tiled ss bs -> Forall (fun b => 0 < len b) bs) as X. { induction 1; auto. } apply X in T. inversion T; subst. auto.
    auto.
  - injection Heqbs0 as -> -> -> ->. pose proof (tiled_head _ _ T) as Hh. cbn in *. rewrite (proj2 (Z.ltb_ge (p + l) l)) by lia. exists (Seg i sz p rl :: ss), fr, sz, rl. split; [|auto]. repeat f_equal. lia.
Qed.
Lemma total_split : forall k (bs : list block) b, nth_error bs k = Some b -> total (firstn (S k) bs) = total (firstn k bs) + len b.
Proof. induction k as [|k IH]; intros [|c bs] b E; try discriminate. injection E as ->. cbn. lia. cbn [nth_error] in E. specialize (IH bs b E). cbn [firstn total fold_right] in *. fold (total (firstn k bs)) in *. cbn in *. unfold total in *. lia. Qed.
Lemma skipn_nth : forall k (bs : list block) b, nth_error bs k = Some b -> skipn k bs = b :: skipn (S k) bs.
Proof. induction k as [|k IH]; intros [|c bs] b E; try discriminate. injection E as ->. auto. cbn. apply IH. auto. Qed.
Lemma drop_k : forall k ss bs fr, Tiled ss bs -> (k <= length bs)%nat -> ss <> [] -> Forall (fun b => 0 < len b) bs ->
  exists ss1 fr1, drop ss (total (firstn k bs)) fr = Some (ss1, fr1) /\ Tiled ss1 (skipn k bs) /\
    forall j b, k = S j -> nth_error bs j = Some b -> exists sz rl, hd_error ss1 = Some (Seg (fst (fst b)) sz (snd (fst b)) rl).
Proof.
  induction k as [|k IH]; intros ss bs fr T Hk Hne F.
  - exists ss, fr. cbn. destruct ss as [|s ss]; [congruence|]. pose proof (tiled_head _ _ T) as Hh. cbn in *. rewrite (proj2 (Z.ltb_ge _ _)) by lia. rewrite Z.sub_0_r. destruct s. repeat split; auto. intros; discriminate.
  - destruct (nth_error bs k) as [[[i p] l]|] eqn:Eb. 2:{ apply nth_error_None in Eb. lia. }
    rewrite (total_split _ _ _ Eb). destruct (IH ss bs fr T ltac:(lia) Hne F) as (ss1 & fr1 & E & T1 & _). rewrite (skipn_nth _ _ _ Eb) in T1.
    destruct (drop_one _ _ _ _ _ T1 fr1) as (ss2 & fr2 & sz & rl & E2 & T2 & Hd).
    assert (0 <= total (firstn k bs)). { clear - F. revert k. induction F as [|b bs Hb F IH]; intros [|k]; cbn [firstn]; try (cbn; lia). specialize (IH k). change (total (b :: firstn k bs)) with (len b + total (firstn k bs)). lia. }
    assert (0 < l). { rewrite Forall_forall in F. apply (F (i, p, l)). eapply nth_error_In; eauto. }
    rewrite (drop_drop ss (total (firstn k bs)) l fr ss1 fr1 H (Z.lt_le_incl _ _ H0) E) in E2. exists ss2, fr2. split; auto. split; auto. intros j b Ej Hb. injection Ej as <-. rewrite Eb in Hb. injection Hb as <-. eauto.
Qed.
Lemma walk_drop : forall ss n fr ss' fr' s, drop ss n fr = Some (ss', fr') -> hd_error ss' = Some s -> walk ss n = Some (id s, position s).
Proof.
  induction ss as [|s0 ss IH]; cbn; intros n fr ss' fr' s E Hd. discriminate. destruct (position s0 <? n). eapply IH; eauto. injection E as <- <-. cbn in Hd. injection Hd as <-. auto.
Qed.

Lemma Forall_firstn : forall k (bs : list block) {P}, Forall P bs -> Forall P (firstn k bs).
Proof. intros k bs P H. revert k. induction H; intros [|k]; cbn; auto. Qed.
Lemma pop_inv : forall z bs k n, Inv z bs -> Log z -> (k <= length bs)%nat -> total bs <= 2 ^ 30 -> 0 <= n -> rounded n (total (firstn k bs)) -> segs z <> [] ->
  exists z', pop n z = Some z' /\ Inv z' (skipn k bs) /\ Log z' /\ forall j b, k = S j -> nth_error bs j = Some b -> peek n z = Some (fst b).
Proof.
  intros z bs k n [IT IG IN IF IM IP] [LG LU LP LO] Hk Ht Hn0 Hn Hne.
  assert (Fp : Forall (fun b => 0 < len b) bs) by (eapply Forall_impl; [|exact IP]; cbn; tauto).
  assert (Hle : total (firstn k bs) <= total bs).
  { clear - Fp. revert k. induction Fp as [|b bs Hb F IH]; intros [|k]; cbn [firstn]; try (cbn; lia). pose proof (IH 0%nat) as H0. cbn [firstn] in H0. change (total (b :: bs)) with (len b + total bs). change (total []) with 0 in *. lia.
    change (len b + total (firstn k bs) <= len b + total bs). specialize (IH k). lia. }
  assert (Ep : pad n = total (firstn k bs)) by (apply pad_ok; auto; change (2^31) with (2 * 2^30); lia).
  destruct (drop_k k (segs z) bs (freed z) IT Hk Hne Fp) as (ss1 & fr1 & E & T1 & Hpk). unfold pop, peek. rewrite Ep, E. eexists. split; [reflexivity|].
  destruct (drop_shape _ _ _ _ _ E) as (pre & s & rest & m & Es & -> & -> & Hm & Hm0). pose proof (tiled_head _ _ T1) as Hh. cbn in Hh.
  rewrite Es in IG, IN, IF, LP, LO. apply Forall_app in IG. destruct IG as [G1 G2]. inversion G2 as [|? ? Gs Gr]; subst.
  rewrite map_app in IN. cbn in IN. apply NoDup_remove in IN as IN'.
  assert (Fl : Forall (fun b => 0 < len b /\ len b mod 8 = 0) (skipn k bs)). { apply Forall_forall. intros b Hb. rewrite Forall_forall in IP. apply IP. rewrite <- (firstn_skipn k bs). apply in_or_app. auto. }
  pose proof (tiled_pos8 _ _ T1 Fl) as P8. inversion P8 as [|? ? P8a P8b]; subst. cbn in P8a.
  assert (Hm1 : 0 <= m). { apply Hm0. destruct (total_nn bs IP). apply (proj1 (total_nn _ (Forall_firstn k bs IP))). }
  split; [|split].
  - constructor; cbn; auto.
    + constructor; auto. destruct Gs as (A & B & C & D). unfold good. cbn. repeat split; auto; lia.
    + clear - IN. induction (map id pre); auto. inversion IN; auto.
    + intros s' [<-|Hs']; cbn. apply (IF s). apply in_or_app; cbn; auto. apply IF. apply in_or_app; cbn; auto.
  - constructor; cbn; auto.
    + intros i x. rewrite LP. rewrite in_app_iff, <- in_rev, in_map_iff. split.
      * intros [H|(s' & H & <- & <-)]; auto. apply in_app_or in H. destruct H as [H|[<-|H]].
        -- left. left. exists s'. auto.
        -- right. exists (Seg (id s) (size s) (position s - m) (real s)). auto.
        -- right. exists s'. auto.
      * intros [[(s' & E1 & H)|H]|(s' & [<-|H] & <- & <-)]; auto.
        -- cbn in E1. injection E1 as <- <-. right. exists s'. split; auto. apply in_or_app; auto.
        -- cbn. right. exists s. split; auto. apply in_or_app; cbn; auto.
        -- right. exists s'. split; auto. apply in_or_app; cbn; auto.
    + rewrite map_app, map_rev, map_map. cbn. rewrite map_app in LO. cbn in LO.
      apply (Permutation_NoDup (l := map fst (freed z) ++ map id pre ++ id s :: map id rest)); auto.
      rewrite app_assoc. apply Permutation_app_tail. rewrite Permutation_app_comm. apply Permutation_app_tail. apply Permutation_rev.
  - intros j b Ej Hb. destruct (Hpk j b Ej Hb) as (sz & rl & Hd). rewrite (walk_drop _ _ _ _ _ _ E Hd). cbn. destruct b as [[? ?] ?]; auto.
Qed.

(** Allocation. *)
Lemma push_inv : forall z bs n, Inv z bs -> Log z -> header <= n < 2 ^ 32 -> Inv (push z n) bs /\ Log (push z n).
Proof.
  intros z bs n [IT IG IN IF IM IP] [LG LU LP LO] Hn. unfold header in *. assert (E : u32 (n - header) = n - 24) by (apply u32_id; unfold header; lia).
  split; constructor; cbn; auto.
  - constructor; auto.
  - constructor; auto. unfold good. cbn. rewrite E. unfold header. repeat split; auto; lia.
  - constructor; auto. intro Hin. apply in_map_iff in Hin. destruct Hin as (s & Es & Hs). specialize (IF s Hs). lia.
  - intros s [<-|Hs]; cbn. lia. specialize (IF s Hs). lia.
  - intros i. split.
    + intros (x & [H|H]). injection H as <- <-. lia. assert ((i < fresh z)%nat) by (apply LG; eauto). lia.
    + intros H. destruct (Nat.eq_dec i (fresh z)). subst; eauto. destruct (proj2 (LG i) ltac:(lia)) as [x Hx]. eauto.
  - constructor; auto. intro Hin. apply in_map_iff in Hin. destruct Hin as ([j x] & Es & Hs). cbn in Es. subst. assert ((fresh z < fresh z)%nat) by (apply LG; eauto). lia.
  - intros i x. rewrite LP. rewrite E. unfold header. split.
    + intros [H|[H|(s & H & <- & <-)]]; auto.
      * injection H as <- <-. right. exists (Seg (fresh z) (n - 24) 0 n). cbn. repeat split; auto; lia.
      * right. exists s. auto.
    + intros [H|(s & [<-|H] & <- & <-)]; auto. cbn. left. f_equal; lia. right; right. exists s. auto.
  - apply (Permutation_NoDup (l := fresh z :: map fst (freed z) ++ map id (segs z))). apply Permutation_middle. constructor; auto.
    intro Hin. apply in_app_or in Hin. destruct Hin as [Hin|Hin].
    + apply in_map_iff in Hin. destruct Hin as ([j x] & Es & Hs). cbn in Es. subst. assert ((fresh z < fresh z)%nat) by (apply LG; exists x; apply LP; auto). lia.
    + apply in_map_iff in Hin. destruct Hin as (s & Es & Hs). specialize (IF s Hs). lia.
Qed.
Definition room (z : zone) (r : Z) : Prop := exists s ss, segs z = s :: ss /\ position s + r <= size s.
Lemma push_room : forall z n r, header + r <= n < 2 ^ 32 -> 0 <= r -> room (push z n) r.
Proof. intros z n r H Hr. unfold room, push. cbn. eexists _, _. split; [reflexivity|]. cbn. rewrite u32_id; unfold header in *; lia. Qed.
Lemma try_inv : forall z bs r a1 a2, Inv z bs -> Log z -> 0 < r -> total bs + r <= 2 ^ 30 ->
  match tryEnsure a1 a2 r z with Some z' => Inv z' bs /\ Log z' /\ room z' r | None => True end.
Proof.
  intros z bs r a1 a2 I L Hr Ht. unfold tryEnsure, full. destruct (total_nn bs (i_pos _ _ I)) as [Hnn _].
  assert (B : 2 ^ 30 = 1073741824) by reflexivity. assert (B' : 2 ^ 31 + 2 ^ 30 = 3221225472) by reflexivity. assert (B2 : 2 ^ 32 = 4294967296) by reflexivity.
  assert (P2 : let n := padToPage (r + header) in Inv (push z n) bs /\ Log (push z n) /\ room (push z n) r).
  { cbv zeta. destruct (page_ok (r + header)) as [A _]; unfold header in *. lia. destruct (push_inv z bs (padToPage (r + 24)) I L); unfold header in *; [lia|]. repeat (split; auto). apply push_room; unfold header; lia. }
  assert (P1 : forall m, 0 <= m <= 2 ^ 31 -> let n := padToPage (umax r (umax (minimumFootprint z) m) + header) in Inv (push z n) bs /\ Log (push z n) /\ room (push z n) r).
  { intros m Hm. cbv zeta. pose proof (i_mf _ _ I) as Hf. change (2^31) with 2147483648 in Hm. unfold umax. rewrite (u32_id r), (u32_id (minimumFootprint z)), (u32_id m) by lia.
    rewrite u32_id by lia. set (x := Z.max r (Z.max (minimumFootprint z) m)). assert (r <= x <= 2147483648) by lia. unfold header. destruct (page_ok (x + 24)) as [A _]. lia.
    destruct (push_inv z bs (padToPage (x + 24)) I L); unfold header in *; [lia|]. repeat (split; auto). apply push_room; unfold header; lia. }
  destruct (segs z) as [|s ss] eqn:Es.
  - destruct a1. apply P1. lia. destruct a2; auto.
  - pose proof (tiled_head _ _ (i_tiled _ _ I)) as Hh. rewrite Es in Hh. pose proof (i_good _ _ I) as Hg. rewrite Es in Hg. inversion Hg as [|? ? (G1 & G2 & G3 & G4) _]; subst.
    destruct (Z.ltb_spec (size s) (position s + r)).
    + destruct a1. apply P1. change (2^31) with 2147483648. lia. destruct a2; auto.
    + split; auto. split; auto. exists s, ss. auto.
Qed.
Lemma ensure_inv : forall z bs r, Inv z bs -> Log z -> 0 < r -> total bs + r <= 2 ^ 30 -> Inv (ensure r z) bs /\ Log (ensure r z) /\ room (ensure r z) r.
Proof.
  intros z bs r I L Hr Ht. pose proof (try_inv z bs r false true I L Hr Ht) as H. unfold tryEnsure in H. unfold ensure. destruct (full z r); auto.
Qed.
Lemma bump_inv : forall z bs r, Inv z bs -> Log z -> 0 < r -> r mod 8 = 0 -> room z r ->
  exists p off z', bump r z = (Some (p, off), z') /\ Inv z' ((p, off, r) :: bs) /\ Log z'.
Proof.
  intros z bs r [IT IG IN IF IM IP] [LG LU LP LO] Hr H8 (s & ss & Es & Hs). unfold bump. rewrite Es in *. eexists _, _, _. split; [reflexivity|].
  inversion IG as [|? ? (G1 & G2 & G3 & G4) IG']; subst. split; constructor; cbn; auto.
  - constructor; auto. destruct s; auto.
  - constructor; auto. unfold good. cbn. repeat split; auto; try lia. dm.
  - intros s' [<-|H']; cbn. apply (IF s); cbn; auto. apply IF; cbn; auto.
  - intros i x. rewrite LP. split; intros [H|(s' & [<-|H] & <- & <-)]; auto; right; try (exists s'; cbn; auto; fail).
    + eexists. split. left; reflexivity. auto.
    + exists s. cbn. auto.
Qed.
Lemma alloc_inv : forall z bs a1 a2 n r, Inv z bs -> Log z -> 0 < n -> rounded n r -> total bs + r <= 2 ^ 30 ->
  exists p off z', allocate a1 a2 n z = (Some (p, off), z') /\ Inv z' ((p, off, r) :: bs) /\ Log z'.
Proof.
  intros z bs a1 a2 n r I L Hn Hr Ht. destruct (total_nn bs (i_pos _ _ I)) as [Hnn _]. assert (B : 2 ^ 31 = 2 * 2 ^ 30) by reflexivity. unfold allocate.
  rewrite (pad_ok n r) by (auto; lia). destruct Hr as [Hr1 Hr2]. rewrite (pad_id r) by (auto; lia). pose proof (try_inv z bs r a1 a2 I L ltac:(lia) Ht) as H.
  destruct (tryEnsure a1 a2 r z) as [z'|].
  - destruct H as (I' & L' & R'). apply bump_inv; auto; lia.
  - destruct (ensure_inv z bs r I L ltac:(lia) Ht) as (I' & L' & R'). apply bump_inv; auto; lia.
Qed.
Lemma create_inv : forall mf, 0 <= mf <= 2 ^ 30 -> Inv (create mf) [] /\ Log (create mf).
Proof.
  intros mf H. split; constructor; cbn; auto; try constructor.
  - intros s [].
  - unfold header, u32. destruct (Z.ltb_spec mf 24). lia. assert (2 ^ 30 = 1073741824) by reflexivity. assert (2 ^ 32 = 4294967296) by reflexivity. dm.
  - unfold header, u32. destruct (Z.ltb_spec mf 24). lia. assert (2 ^ 30 = 1073741824) by reflexivity. assert (2 ^ 32 = 4294967296) by reflexivity. dm.
  - intros [x []].
  - lia.
  - tauto.
  - intros [[]|(s & [] & _)].
Qed.
Lemma run_inv : forall z bs, Run z bs -> Inv z bs /\ Log z /\ total bs <= 2 ^ 30.
Proof.
  induction 1 as [mf H|z bs a1 a2 n r p off z' HR (I & L & T) Hn Hr Ht E|z bs k n z' HR (I & L & T) Hk Hn0 Hr Hne E].
  - destruct (create_inv mf H). split; auto. split; auto. cbn. discriminate.
  - destruct (alloc_inv z bs a1 a2 n r I L Hn Hr Ht) as (p' & o' & z2 & E' & I' & L'). rewrite E in E'. injection E' as <- <- <-. split; auto. split; auto. change (total ((p, off, r) :: bs)) with (r + total bs). lia.
  - destruct (pop_inv z bs k n I L Hk T Hn0 Hr Hne) as (z2 & E' & I' & L' & _). rewrite E in E'. injection E' as <-. split; auto. split; auto.
    assert (total (skipn k bs) <= total bs); [|lia]. pose proof (i_pos _ _ I) as Fp. clear - Fp. revert k. induction Fp as [|b bs Hb F IH]; intros [|k]; cbn [skipn]; try lia. specialize (IH k). change (total (b :: bs)) with (len b + total bs). lia.
Qed.
