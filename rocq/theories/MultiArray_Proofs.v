(** Proofs about multianewarray. *)
From Coq Require Import List NArith ZArith Arith Bool Lia.
From Verif Require Import ClassLoad_Spec Alloc_Model MultiArray_Model MultiArray_Spec.
Import ListNotations.
Local Open Scope nat_scope.

Lemma setRef_length : forall h a i b, length (setRef h a i b) = length h.
Proof. induction h as [|r h IH]; intros [|a] i b; cbn; try reflexivity. rewrite IH; reflexivity. Qed.

Lemma setRef_other : forall h a i b x, x <> a -> nth_error (setRef h a i b) x = nth_error h x.
Proof.
  induction h as [|r h IH]; intros [|a] i b [|x] N; cbn; try reflexivity; try congruence.
  apply IH; congruence.
Qed.

Lemma setRef_same : forall h a i b r, nth_error h a = Some r ->
  nth_error (setRef h a i b) a =
  Some (mkArr (a_type r) (a_length r) (a_bytes r) (fun k => if Nat.eqb k i then Some b else a_refs r k)).
Proof.
  induction h as [|x h IH]; intros [|a] i b r E; cbn in *; try discriminate.
  - inversion E; reflexivity.
  - apply IH; exact E.
Qed.

(** The words given to an array below the first level *)
Definition bytesBelow (t : type) (c : Z) : Z := arrayBytes 16 8 (ceilingDivide (u32 (c * elementSize t)) 8).

(** The arrays of [cs] from [a] on, all numbered from [a] to below [hi] *)
Fixpoint good (bytes : Z) (h : heapOf) (cs : list Z) (t : type) (a hi : nat) : Prop :=
  match cs with
  | [] => False
  | c :: rest =>
      a < hi /\
      exists r, nth_error h a = Some r /\ a_type r = t /\ a_length r = c /\ a_bytes r = bytes /\
        match rest with
        | [] => forall i, a_refs r i = None
        | c' :: _ =>
            exists bd, a < bd 0 /\ bd (Z.to_nat c) <= hi /\
              (forall i, i < Z.to_nat c -> a_refs r i = Some (bd i) /\ bd i < bd (S i) /\
                 exists t', elementArray t = Some t' /\ good (bytesBelow t' c') h rest t' (bd i) (bd (S i)))
        end
  end.

Lemma bd_le : forall bd n, (forall i, i < n -> bd i < bd (S i)) -> forall i j, i <= j -> j <= n -> bd i <= bd j.
Proof.
  intros bd n H i j L; induction L as [|j L IH]; intro J; [lia|].
  specialize (H j ltac:(lia)). specialize (IH ltac:(lia)). lia.
Qed.

Lemma good_frame : forall cs bytes h h' t a hi,
  (forall x, a <= x -> x < hi -> nth_error h' x = nth_error h x) ->
  good bytes h cs t a hi -> good bytes h' cs t a hi.
Proof.
  induction cs as [|c rest IH]; intros bytes h h' t a hi F G; [exact G|].
  destruct G as [L [r [E [T [Ln [By G]]]]]]. split; [exact L|].
  exists r. rewrite F by lia. repeat (split; [assumption|]).
  destruct rest as [|c' rest']; [exact G|].
  destruct G as [bd [B0 [B1 G]]]. exists bd. split; [exact B0|]. split; [exact B1|].
  assert (M : forall i, i < Z.to_nat c -> bd i < bd (S i)) by (intros i I; destruct (G i I) as [_ [X _]]; exact X).
  intros i I. destruct (G i I) as [R [S' [t' [Et Gi]]]]. split; [exact R|]. split; [exact S'|].
  exists t'. split; [exact Et|]. apply (IH _ h); [|exact Gi].
  intros x X1 X2. pose proof (bd_le bd _ M 0 i ltac:(lia) ltac:(lia)).
  pose proof (bd_le bd _ M (S i) (Z.to_nat c) ltac:(lia) ltac:(lia)). apply F; lia.
Qed.

Lemma elementArray_rank : forall t k, S (S k) <= rank t -> exists t', elementArray t = Some t' /\ rank t = S (rank t') /\
  below 1 t = t'.
Proof.
  intros t k L. destruct t as [n|c|t]; cbn in *; try lia.
  destruct t as [n|c|t]; cbn in *; try lia; eexists; repeat split.
Qed.

Lemma populate_ok : forall cs c rest t a h r,
  cs = c :: rest -> (forall x, In x cs -> (0 <= x)%Z) -> length cs <= rank t ->
  length h = S a -> nth_error h a = Some r -> a_type r = t -> a_length r = c -> (forall i, a_refs r i = None) ->
  exists h', populate cs t a h = Some h' /\ length h <= length h' /\
    (forall x, x < a -> nth_error h' x = nth_error h x) /\ good (a_bytes r) h' cs t a (length h').
Proof.
  induction cs as [|c0 cs IH]; intros c rest t a h r E P K L N T Ln R; [discriminate E|].
  inversion E; subst c0 cs; clear E.
  destruct rest as [|c' rest'].
  - exists h. cbn. split; [reflexivity|]. split; [lia|]. split; [tauto|]. split; [lia|].
    exists r. repeat (split; [assumption|]). split; [reflexivity|]. exact R.
  - cbn [populate].
    destruct (Z.eqb_spec c 0) as [Z0|NZ].
    + exists h. split; [reflexivity|]. split; [lia|]. split; [tauto|]. split; [lia|].
      exists r. repeat (split; [assumption|]). split; [reflexivity|].
      exists (fun _ => S a). split; [lia|]. split; [lia|]. intros i I. subst c. cbn in I. lia.
    + destruct (elementArray_rank t (length rest')) as [t' [ET [RK _]]]; [cbn in K; lia|].
      rewrite ET.
      set (body := fun (oh : option heapOf) (i : nat) =>
              match oh with
              | None => None
              | Some h1 =>
                  let (b, h2) := newArray t' (ceilingDivide (u32 (c' * elementSize t')) 8) c' h1 in
                  populate (c' :: rest') t' b (setRef h2 a i b)
              end).
      assert (LOOP : forall k, exists h1 bd r1, fold_left body (seq 0 k) (Some h) = Some h1 /\
                bd 0 = S a /\ bd k = length h1 /\ (forall x, x < a -> nth_error h1 x = nth_error h x) /\
                nth_error h1 a = Some r1 /\ a_type r1 = t /\ a_length r1 = c /\ a_bytes r1 = a_bytes r /\
                (forall i, a_refs r1 i = if i <? k then Some (bd i) else None) /\
                (forall i, i < k -> bd i < bd (S i) /\ good (bytesBelow t' c') h1 (c' :: rest') t' (bd i) (bd (S i)))).
      { induction k as [|k [h1 [bd [r1 [F [B0 [Bk [U [N1 [T1 [L1 [Y1 [R1 G1]]]]]]]]]]]]].
        - exists h, (fun _ => S a), r. cbn [seq fold_left]. split; [reflexivity|]. split; [reflexivity|].
          split; [symmetry; exact L|]. split; [tauto|]. repeat (split; [assumption|]). split; [reflexivity|].
          split; [intro i; cbn; apply R|]. intros i I; lia.
        - assert (M : forall i, i < k -> bd i < bd (S i)) by (intros i I; apply (G1 i I)).
          assert (A1 : a < length h1) by (apply nth_error_Some; congruence).
          set (nw := mkArr t' c' (bytesBelow t' c') (fun _ => None)).
          set (b := length h1). set (h3 := setRef (h1 ++ [nw]) a k b).
          assert (N3 : nth_error h3 b = Some nw).
          { unfold h3. rewrite setRef_other by (unfold b; lia). unfold b.
            rewrite nth_error_app2, Nat.sub_diag by lia. reflexivity. }
          assert (L3 : length h3 = S b) by (unfold h3, b; rewrite setRef_length, app_length; cbn; lia).
          destruct (IH c' rest' t' b h3 nw eq_refl) as [h4 [F4 [L4 [U4 G4]]]]; try assumption; try reflexivity.
          { intros x X; apply P; right; exact X. }
          { cbn in K |- *; lia. }
          assert (O3 : forall x, x <> a -> x < b -> nth_error h3 x = nth_error h1 x).
          { intros x X1 X2. unfold h3. rewrite setRef_other by exact X1. rewrite nth_error_app1 by exact X2. reflexivity. }
          exists h4, (fun i => if i <=? k then bd i else length h4).
          exists (mkArr (a_type r1) (a_length r1) (a_bytes r1) (fun j => if Nat.eqb j k then Some b else a_refs r1 j)).
          rewrite seq_S, fold_left_app, F. cbn [fold_left plus body].
          split; [exact F4|]. split; [exact B0|].
          split; [assert (Q : (S k <=? k) = false) by (apply Nat.leb_gt; lia); rewrite Q; reflexivity|].
          split; [intros x X; rewrite U4, O3 by (unfold b; lia); apply U; exact X|].
          split.
          { rewrite U4 by exact A1. unfold h3. apply setRef_same. rewrite nth_error_app1 by exact A1. exact N1. }
          cbn [a_type a_length a_bytes a_refs]. repeat (split; [assumption|]).
          split.
          { intro i. destruct (Nat.eqb_spec i k) as [->|NE].
            - assert (Q : (k <? S k) = true) by (apply Nat.ltb_lt; lia).
              assert (Q' : (k <=? k) = true) by (apply Nat.leb_le; lia). rewrite Q, Q', Bk. reflexivity.
            - rewrite R1. destruct (i <? k) eqn:I.
              + apply Nat.ltb_lt in I. assert (Q : (i <? S k) = true) by (apply Nat.ltb_lt; lia).
                assert (Q' : (i <=? k) = true) by (apply Nat.leb_le; lia). rewrite Q, Q'. reflexivity.
              + apply Nat.ltb_ge in I. assert (Q : (i <? S k) = false) by (apply Nat.ltb_ge; lia). rewrite Q. reflexivity. }
          intros i I. destruct (Nat.eq_dec i k) as [->|NE].
          + assert (Q' : (k <=? k) = true) by (apply Nat.leb_le; lia).
            assert (Q : (S k <=? k) = false) by (apply Nat.leb_gt; lia). rewrite Q, Q', Bk.
            fold b. split; [lia|]. exact G4.
          + assert (Q' : (i <=? k) = true) by (apply Nat.leb_le; lia).
            assert (Q : (S i <=? k) = true) by (apply Nat.leb_le; lia). rewrite Q, Q'.
            destruct (G1 i ltac:(lia)) as [X G]. split; [exact X|].
            apply (good_frame _ _ h1); [|exact G]. intros x X1 X2.
            pose proof (bd_le bd k M 0 i ltac:(lia) ltac:(lia)).
            pose proof (bd_le bd k M (S i) k ltac:(lia) ltac:(lia)).
            rewrite U4, O3 by (unfold b; lia). reflexivity. }
      destruct (LOOP (Z.to_nat c)) as [h1 [bd [r1 [F [B0 [Bk [U [N1 [T1 [L1 [Y1 [R1 G1]]]]]]]]]]]].
      exists h1. split; [exact F|].
      assert (M : forall i, i < Z.to_nat c -> bd i < bd (S i)) by (intros i I; apply (G1 i I)).
      pose proof (bd_le bd _ M 0 (Z.to_nat c) ltac:(lia) ltac:(lia)).
      split; [lia|]. split; [exact U|]. split; [lia|].
      exists r1. repeat (split; [assumption|]). exists bd. split; [lia|]. split; [lia|].
      intros i I. destruct (G1 i I) as [X G]. split.
      * rewrite R1. assert (Q : (i <? Z.to_nat c) = true) by (apply Nat.ltb_lt; exact I). rewrite Q. reflexivity.
      * split; [exact X|]. exists t'. split; [exact ET|exact G].
Qed.

(** What a good array shows *)
Lemma good_reach : forall cs bytes h t a hi p, good bytes h cs t a hi -> leads cs p ->
  exists b r, reach h a p = Some b /\ a <= b /\ b < hi /\ nth_error h b = Some r /\
    a_type r = below (length p) t /\ a_length r = nth (length p) cs 0%Z /\
    a_bytes r = match p with [] => bytes | _ => bytesBelow (a_type r) (a_length r) end /\
    (S (length p) = length cs -> forall i, a_refs r i = None).
Proof.
  induction cs as [|c rest IH]; intros bytes h t a hi p G Lp; [contradiction G|].
  destruct G as [L [r [E [T [Ln [By G]]]]]].
  inversion Lp as [? ?|? ? i q I Lq]; subst.
  - exists a, r. cbn. repeat (split; [first [reflexivity|lia|assumption]|]).
    intro Q. destruct rest; [exact G|discriminate Q].
  - destruct rest as [|c' rest']; [inversion Lq|].
    destruct G as [bd [B0 [B1 G]]].
    assert (M : forall j, j < Z.to_nat (a_length r) -> bd j < bd (S j)) by (intros j J; apply (G j J)).
    destruct (G i ltac:(lia)) as [R [X [t' [Et Gi]]]].
    destruct (IH _ _ _ _ _ _ Gi Lq) as [b [r' [H1 [H2 [H3 [H4 [H5 [H6 [H7 H8]]]]]]]]].
    exists b, r'. cbn [reach]. rewrite E, R. split; [exact H1|].
    pose proof (bd_le bd _ M 0 i ltac:(lia) ltac:(lia)).
    pose proof (bd_le bd _ M (S i) (Z.to_nat (a_length r)) ltac:(lia) ltac:(lia)).
    split; [lia|]. split; [lia|]. split; [exact H4|].
    split.
    { rewrite H5. cbn [length]. destruct (a_type r) as [n|c0|t0]; cbn in Et; try discriminate.
      assert (t' = t0) by (destruct t0; congruence). subst t'. reflexivity. }
    split; [exact H6|]. split.
    { destruct q as [|j q]; [|exact H7]. rewrite H7. cbn in H5, H6. rewrite H5, H6. reflexivity. }
    intros Q. apply H8. cbn in Q |- *. lia.
Qed.

Lemma good_inj : forall cs bytes h t a hi p q, good bytes h cs t a hi -> leads cs p -> leads cs q ->
  reach h a p = reach h a q -> p = q.
Proof.
  induction cs as [|c rest IH]; intros bytes h t a hi p q G Lp Lq E; [contradiction G|].
  pose proof G as G0. destruct G as [L [r [N [T [Ln [By G]]]]]].
  assert (SUB : forall i s, leads (c :: rest) (i :: s) -> exists b, reach h a (i :: s) = Some b /\ a < b).
  { intros i s Ls. inversion Ls as [|? ? ? ? I Lr]; subst.
    destruct rest as [|c' rest']; [inversion Lr|]. destruct G as [bd [B0 [B1 G]]].
    assert (M : forall j, j < Z.to_nat (a_length r) -> bd j < bd (S j)) by (intros j J; apply (G j J)).
    destruct (G i ltac:(lia)) as [R [X [t' [Et Gi]]]].
    destruct (good_reach _ _ _ _ _ _ _ Gi Lr) as [b [r' [H1 [H2 _]]]].
    exists b. cbn [reach]. rewrite N, R. split; [exact H1|].
    pose proof (bd_le bd _ M 0 i ltac:(lia) ltac:(lia)). lia. }
  destruct p as [|i p], q as [|j q].
  - reflexivity.
  - destruct (SUB _ _ Lq) as [b [Q Lb]]. rewrite Q in E. cbn in E. inversion E; lia.
  - destruct (SUB _ _ Lp) as [b [Q Lb]]. rewrite Q in E. cbn in E. inversion E; lia.
  - inversion Lp as [|? ? ? ? Ii Lp']; inversion Lq as [|? ? ? ? Ij Lq']; subst.
    destruct rest as [|c' rest']; [inversion Lp'|]. destruct G as [bd [B0 [B1 G]]].
    assert (M : forall k, k < Z.to_nat (a_length r) -> bd k < bd (S k)) by (intros k K; apply (G k K)).
    destruct (G i ltac:(lia)) as [Ri [Xi [ti [Eti Gi]]]]. destruct (G j ltac:(lia)) as [Rj [Xj [tj [Etj Gj]]]].
    assert (tj = ti) by congruence. subst tj.
    cbn [reach] in E. rewrite N, Ri, Rj in E.
    destruct (good_reach _ _ _ _ _ _ _ Gi Lp') as [b [r1 [H1 [H2 [H3 _]]]]].
    destruct (good_reach _ _ _ _ _ _ _ Gj Lq') as [b' [r2 [H1' [H2' [H3' _]]]]].
    assert (b' = b) by congruence. subst b'.
    assert (i = j).
    { destruct (Nat.lt_trichotomy i j) as [Q|[Q|Q]]; [|exact Q|].
      - pose proof (bd_le bd _ M (S i) j ltac:(lia) ltac:(lia)). lia.
      - pose proof (bd_le bd _ M (S j) i ltac:(lia) ltac:(lia)). lia. }
    subst j. f_equal. exact (IH _ _ _ _ _ _ _ Gi Lp' Lq' E).
Qed.

Lemma u32_small : forall x, (0 <= x < 2 ^ 32)%Z -> u32 x = x.
Proof. intros; unfold u32; apply Z.mod_small; assumption. Qed.

Lemma elementSize_pos : forall t, (1 <= elementSize t <= 8)%Z.
Proof.
  intros [n|c|t]; cbn; try lia.
  destruct ((c =? 90) || (c =? 66))%N; [lia|]. destruct ((c =? 83) || (c =? 67))%N; [lia|].
  destruct ((c =? 73) || (c =? 70))%N; lia.
Qed.

Lemma words_cover : forall w, (0 <= w -> 16 + w * 8 + 8 <= 2 ^ 32 -> 16 + w * 8 <= arrayBytes 16 8 w)%Z.
Proof.
  intros w W B. unfold arrayBytes, pad.
  rewrite (u32_small (w * 8)), (u32_small (w * 8 + 7)) by lia.
  pose proof (Z.div_mod (w * 8 + 7) 8 ltac:(lia)) as D. pose proof (Z.mod_pos_bound (w * 8 + 7) 8 ltac:(lia)).
  rewrite u32_small by lia. lia.
Qed.

Lemma below_cover : forall t c, (0 <= c -> c * elementSize t + 40 <= 2 ^ 32 ->
  16 + c * elementSize t <= bytesBelow t c)%Z.
Proof.
  intros t c C B. pose proof (elementSize_pos t). unfold bytesBelow, ceilingDivide.
  assert (H0 : (0 <= c * elementSize t)%Z) by (apply Z.mul_nonneg_nonneg; lia).
  rewrite (u32_small (c * elementSize t)), (u32_small (c * elementSize t + 8 - 1)) by lia.
  set (w := ((c * elementSize t + 8 - 1) / 8)%Z).
  pose proof (Z.div_mod (c * elementSize t + 8 - 1) 8 ltac:(lia)) as D.
  pose proof (Z.mod_pos_bound (c * elementSize t + 8 - 1) 8 ltac:(lia)). fold w in D.
  pose proof (words_cover w ltac:(lia) ltac:(lia)). lia.
Qed.
