From Coq Require Import List ZArith Bool Lia.
From Verif Require Import Finder_Model Finder_Spec.
Import ListNotations.
Local Open Scope Z_scope.
Local Arguments Z.add : simpl never.
Local Arguments Z.sub : simpl never.
Local Arguments Z.mul : simpl never.
Local Arguments Z.modulo : simpl never.
Local Arguments Z.of_nat : simpl never.

Lemma beq_eq : forall a b, beq a b = true <-> a = b.
Proof.
  induction a as [|x a IH]; intros [|y b]; cbn; split; intros H; try discriminate; auto.
  - apply andb_true_iff in H. destruct H as [H1 H2]. apply Z.eqb_eq in H1. apply IH in H2. subst. auto.
  - injection H as -> ->. rewrite Z.eqb_refl. apply IH. auto.
Qed.

(** Tokens *)
Lemma next_app : forall d g s, ~ In d g -> next d (g ++ d :: s) = (g, d :: s).
Proof. induction g as [|c g IH]; cbn; intros s H. rewrite Z.eqb_refl. auto. destruct (Z.eqb_spec c d). destruct H; auto. rewrite IH; auto. Qed.
Lemma next_all : forall d g, ~ In d g -> next d g = (g, []).
Proof. induction g as [|c g IH]; cbn; intros H; auto. destruct (Z.eqb_spec c d). destruct H; auto. rewrite IH; auto. Qed.
Lemma tokens_skip : forall f d s, tokens (S f) d (d :: s) = tokens (S f) d s.
Proof. intros. cbn [tokens skip]. rewrite Z.eqb_refl. auto. Qed.
Lemma tokens_ok : forall d segs, segs <> [] -> Forall (fun g => ~ In d g) segs -> forall f, (length (join d segs) <= f)%nat -> tokens f d (join d segs) = filter nonempty segs.
Proof.
  intros d segs Hne HF. induction HF as [|g segs Hg HF IH]. congruence. intros f Hf. destruct segs as [|g2 segs].
  - cbn [join filter] in *. destruct g as [|c g]; cbn [nonempty]. destruct f; auto. destruct f; cbn in Hf; [lia|]. cbn [tokens skip].
    destruct (Z.eqb_spec c d). destruct Hg; cbn; auto. rewrite next_all by auto. destruct f; cbn; auto.
  - assert (Hj : join d (g :: g2 :: segs) = g ++ d :: join d (g2 :: segs)) by auto. rewrite Hj in *. rewrite app_length in Hf. cbn [length] in Hf. cbn [filter].
    specialize (IH ltac:(discriminate)). destruct f; [lia|]. destruct g as [|c g]; cbn [nonempty].
    + cbn [app]. rewrite tokens_skip. apply IH. cbn [length] in Hf. lia.
    + remember (join d (g2 :: segs)) as j. cbn [app tokens skip]. destruct (Z.eqb_spec c d). destruct Hg; cbn; auto.
      change (c :: g ++ d :: j) with ((c :: g) ++ d :: j). rewrite next_app by auto. f_equal. destruct f; [cbn in Hf; lia|]. rewrite tokens_skip. apply IH. cbn in Hf. lia.
Qed.

(** Hashes *)
Lemma hash_ascii : forall s, ascii s -> hashChars s = hashBytes s.
Proof.
  unfold hashChars, hashBytes. intros s H. generalize 0 as h. induction H as [|c s Hc H IH]; intros h; cbn; auto. unfold signed. rewrite (proj2 (Z.ltb_lt c 128)) by lia. apply IH.
Qed.
Lemma hash_bytes : forall s, hashChars s mod 256 = hashBytes s mod 256.
Proof.
  intros s. unfold hashChars, hashBytes. assert (G : forall h h', h mod 256 = h' mod 256 -> fold_left (fun h c => (h * 31 + signed c) mod 2 ^ 32) s h mod 256 = fold_left (fun h c => (h * 31 + c) mod 2 ^ 32) s h' mod 256).
  { induction s as [|c s IH]; intros h h' E; cbn [fold_left]; auto. apply IH.
    assert (M : forall x, (x mod 2 ^ 32) mod 256 = x mod 256). { intros x. symmetry. apply Znumtheory.Zmod_div_mod; try lia. exists (2 ^ 24). reflexivity. }
    rewrite !M. assert (S : signed c mod 256 = c mod 256). { unfold signed. destruct (c <? 128); auto. rewrite <- (Z_mod_plus_full (c - 256) 1 256). f_equal. lia. }
    rewrite Z.add_mod, (Z.add_mod (h' * 31)), Z.mul_mod, (Z.mul_mod h'), E, S by lia. auto. }
  apply G. auto.
Qed.
(** Index *)
Definition pow2 (c : Z) : Prop := exists k, 0 <= k /\ c = 2 ^ k.
Lemma bucket_mod : forall c h, pow2 c -> bucket c h = h mod c.
Proof. intros c h (k & Hk & ->). unfold bucket. replace (2 ^ k - 1) with (Z.ones k) by (rewrite Z.ones_equiv; lia). apply Z.land_ones. auto. Qed.
Record Good (x : index) : Prop := {
  g_pow : pow2 (capacity x);
  g_room : Z.of_nat (length (nodes x)) <= capacity x;
  g_table : forall i, table x i = filter (fun e => bucket (capacity x) (hashOf e) =? i) (rev (nodes x))
}.
Lemma make_good : forall c, pow2 c -> Good (make c).
Proof. intros c H. constructor; cbn; auto. destruct H as (k & Hk & ->). pose proof (Z.pow_pos_nonneg 2 k). lia. Qed.
Lemma add1_good : forall x e, Good x -> Z.of_nat (length (nodes x)) < capacity x -> exists x', add1 x e = Some x' /\ Good x' /\ nodes x' = nodes x ++ [e] /\ capacity x' = capacity x.
Proof.
  intros x e [G1 G2 G3] H. unfold add1. rewrite (proj2 (Z.ltb_lt _ _) H). eexists. split; [reflexivity|]. split; [|auto]. constructor; cbn [capacity nodes table]; auto.
  - rewrite app_length. cbn [length]. lia.
  - intros i. rewrite rev_app_distr. cbn [rev app filter]. rewrite Z.eqb_sym. destruct (Z.eqb_spec (bucket (capacity x) (hashOf e)) i); rewrite G3; subst; auto.
Qed.
Lemma addAll_good : forall es x, Good x -> Z.of_nat (length (nodes x) + length es) <= capacity x -> exists x', addAll x es = Some x' /\ Good x' /\ nodes x' = nodes x ++ es /\ capacity x' = capacity x.
Proof.
  induction es as [|e es IH]; intros x G H; cbn [addAll].
  - exists x. rewrite app_nil_r. auto.
  - cbn [length] in H. destruct (add1_good x e G) as (x1 & E & G1 & N1 & C1). lia. rewrite E. destruct (IH x1 G1) as (x2 & E2 & G2 & N2 & C2). rewrite N1, C1, app_length. cbn [length]. lia.
    exists x2. rewrite E2, N2, C2, N1, C1, <- app_assoc. auto.
Qed.
Lemma add_good : forall x e, Good x -> exists x', add x e = Some x' /\ Good x' /\ nodes x' = nodes x ++ [e] /\
  capacity x' = (if Z.of_nat (length (nodes x)) <? capacity x then capacity x else capacity x * 2).
Proof.
  intros x e G. unfold add. destruct (Z.ltb_spec (Z.of_nat (length (nodes x))) (capacity x)) as [H|H].
  - destruct (add1_good x e G H) as (x1 & E & G1 & N1 & C1). rewrite E. exists x1. auto.
  - assert (E : add1 x e = None) by (unfold add1; rewrite (proj2 (Z.ltb_ge _ _) H); auto). rewrite E. destruct G as [(k & Hk & Ec) G2 G3]. assert (0 < capacity x) by (rewrite Ec; apply Z.pow_pos_nonneg; lia).
    assert (P : pow2 (capacity x * 2)). { exists (k + 1). split. lia. rewrite Ec, Z.pow_add_r by lia. auto. }
    destruct (addAll_good (nodes x) (make (capacity x * 2)) (make_good _ P)) as (y & Ey & Gy & Ny & Cy). cbn [make nodes capacity length]. lia.
    rewrite Ey. cbn [make nodes app capacity] in Ny, Cy. destruct (add1_good y e Gy) as (z & Ez & Gz & Nz & Cz). rewrite Ny, Cy. lia. exists z. rewrite Ez, Nz, Ny, Cz, Cy. auto.
Qed.
Lemma build_good : forall es, exists x, build es = Some x /\ Good x /\ nodes x = es /\ (Z.of_nat (length es) <= 256 -> capacity x <= 256).
Proof.
  intros es. unfold build. assert (G : forall es x, Good x -> (capacity x <= 256 \/ 256 < Z.of_nat (length (nodes x))) ->
    exists y, fold_left (fun x e => match x with Some x => add x e | None => None end) es (Some x) = Some y /\ Good y /\ nodes y = nodes x ++ es /\ (capacity y <= 256 \/ 256 < Z.of_nat (length (nodes y)))).
  { induction es0 as [|e es0 IH]; intros x G B; cbn [fold_left]. exists x. rewrite app_nil_r. auto.
    destruct (add_good x e G) as (x1 & E & G1 & N1 & C1). rewrite E. destruct (IH x1 G1) as (y & Ey & Gy & Ny & By).
    - rewrite N1, C1, app_length. cbn [length]. destruct G as [(k & Hk & Ec) G2 _]. destruct (Z.ltb_spec (Z.of_nat (length (nodes x))) (capacity x)). destruct B; [left|right]; lia.
      destruct B as [B|B]; [|right; lia]. assert (capacity x <= 128 \/ capacity x = 256) as [|]; [|left; lia|right; lia]. rewrite Ec in *. assert (k <= 7 \/ k = 8 \/ 9 <= k) as [|[|]] by lia.
      left. change 128 with (2 ^ 7). apply Z.pow_le_mono_r; lia. subst; right; auto. exfalso. assert (2 ^ 9 <= 2 ^ k) by (apply Z.pow_le_mono_r; lia). lia.
    - exists y. rewrite Ey. rewrite Ny, N1, <- app_assoc. rewrite Ny, N1, <- app_assoc in By. auto. }
  destruct (G es (make 32)) as (y & E & Gy & Ny & By). apply make_good. exists 5. split; [lia|auto]. cbn. lia.
  exists y. split; auto. split; auto. cbn in Ny. split; auto. intros. rewrite Ny in By. lia.
Qed.
Lemma find_rev : forall es name, isLast es name (find (fun e => beq (fileName e) name) (rev es)).
Proof.
  intros es name. induction es as [|e es IH] using rev_ind. constructor. rewrite rev_app_distr. cbn [rev app find]. destruct (beq (fileName e) name) eqn:B.
  - apply beq_eq in B. exists es, []. auto.
  - assert (N : fileName e <> name) by (intro; apply beq_eq in H; congruence). destruct (find _ (rev es)) as [e'|]; cbn in *.
    + destruct IH as (l1 & l2 & -> & E & F). exists l1, (l2 ++ [e]). rewrite <- app_assoc. cbn. split; auto. split; auto. apply Forall_app. auto.
    + apply Forall_app. auto.
Qed.
Lemma find_filter : forall (p q : entry -> bool) l, (forall e, p e = true -> q e = true) -> find p (filter q l) = find p l.
Proof. induction l as [|e l IH]; intros H; cbn; auto. destruct (q e) eqn:Q; cbn; destruct (p e) eqn:P; auto. rewrite H in Q; auto; discriminate. Qed.
Lemma findNode_ok : forall x name, Good x -> bucket (capacity x) (hashChars name) = bucket (capacity x) (hashBytes name) -> isLast (nodes x) name (findNode x name).
Proof.
  intros x name [G1 G2 G3] H. unfold findNode. rewrite H, G3. rewrite find_filter. apply find_rev. intros e E. apply beq_eq in E. subst. apply Z.eqb_refl.
Qed.
Lemma bucket_small : forall c s, pow2 c -> c <= 256 -> bucket c (hashChars s) = bucket c (hashBytes s).
Proof.
  intros c s P H. rewrite !bucket_mod by auto. destruct P as (k & Hk & ->). assert (k <= 8). { destruct (Z_le_gt_dec k 8); auto. assert (2 ^ 9 <= 2 ^ k) by (apply Z.pow_le_mono_r; lia). lia. }
  assert (D : (2 ^ k | 256)). { exists (2 ^ (8 - k)). rewrite <- Z.pow_add_r by lia. replace (8 - k + k) with 8 by lia. auto. }
  assert (0 < 2 ^ k) by (apply Z.pow_pos_nonneg; lia). rewrite (Znumtheory.Zmod_div_mod (2 ^ k) 256 (hashChars s)), (Znumtheory.Zmod_div_mod (2 ^ k) 256 (hashBytes s)) by (auto; lia). rewrite hash_bytes. auto.
Qed.

(** Archives *)
Lemma byteAt_app : forall a b p, 0 <= p -> byteAt (a ++ b) (Z.of_nat (length a) + p) = byteAt b p.
Proof.
  intros a b p H. unfold byteAt. rewrite (proj2 (Z.ltb_ge _ _)), (proj2 (Z.ltb_ge p 0)) by lia. rewrite nth_error_app2 by lia. f_equal. lia.
Qed.
Lemma get2_app : forall a b p, 0 <= p -> get2 (a ++ b) (Z.of_nat (length a) + p) = get2 b p.
Proof. intros. unfold get2. rewrite <- Z.add_assoc, !byteAt_app by lia. auto. Qed.
Lemma get4_app : forall a b p, 0 <= p -> get4 (a ++ b) (Z.of_nat (length a) + p) = get4 b p.
Proof. intros. unfold get4. rewrite <- Z.add_assoc, !get2_app by lia. auto. Qed.
Lemma le2_get : forall n b, 0 <= n < 65536 -> get2 (le2 n ++ b) 0 = Some n.
Proof. intros n b H. change (get2 (le2 n ++ b) 0) with (Some (n mod 256 + 256 * (n / 256))). f_equal. rewrite Z.add_comm. symmetry. apply Z.div_mod. lia. Qed.
Lemma le4_get : forall n b, 0 <= n < 2 ^ 32 -> get4 (le4 n ++ b) 0 = Some n.
Proof.
  intros n b H. unfold get4, le4. rewrite <- app_assoc. rewrite le2_get by (apply Z.mod_pos_bound; lia). rewrite <- (Z.add_0_r (0 + 2)). change (0 + 2) with (Z.of_nat (length (le2 (n mod 65536)))).
  rewrite get2_app by lia. rewrite le2_get. f_equal. rewrite Z.add_comm. symmetry. apply Z.div_mod. lia. split. apply Z.div_pos; lia. apply Z.div_lt_upper_bound; lia.
Qed.
Lemma slice_app : forall a b c, slice (a ++ b ++ c) (Z.of_nat (length a)) (Z.of_nat (length b)) = Some b.
Proof.
  intros. unfold slice. rewrite (proj2 (Z.leb_le 0 _)) by lia. rewrite (proj2 (Z.leb_le _ _)) by (rewrite !app_length; lia). cbn [andb]. rewrite !Nat2Z.id. rewrite skipn_app, skipn_all, Nat.sub_diag. cbn [skipn app].
  rewrite firstn_app, Nat.sub_diag, firstn_all. cbn. rewrite app_nil_r. auto.
Qed.
Lemma le4_len : forall n, length (le4 n) = 4%nat. Proof. reflexivity. Qed.
Lemma le2_len : forall n, length (le2 n) = 2%nat. Proof. reflexivity. Qed.
Ltac lens := rewrite ?app_length, ?le4_len, ?le2_len in *; cbn [length] in *; try lia.

Lemma headers_ok : forall dir es, Headers dir es -> forall pre post x fuel, Good x -> (length dir < fuel)%nat ->
  (exists sg, get4 post 0 = Some sg /\ sg <> EntrySignature) ->
  exists y, entries fuel (pre ++ dir ++ post) (Z.of_nat (length pre)) x = Some (inl y) /\ Good y /\ nodes y = nodes x ++ es /\
    fold_left (fun x e => match x with Some x => add x e | None => None end) es (Some x) = Some y.
Proof.
  induction 1 as [|e x1 x2 extra comment b es L1 L2 Hn He Hc Ho HH IH]; intros pre post x fuel G Hf (sg & Hsg & Hne).
  - destruct fuel; [cbn in Hf; lia|]. cbn [entries app]. destruct (Z.ltb_spec (Z.of_nat (length pre)) (Z.of_nat (length (pre ++ post)))).
    + rewrite <- (Z.add_0_r (Z.of_nat (length pre))). rewrite get4_app, Hsg by lia. rewrite (proj2 (Z.eqb_neq _ _) Hne). exists x. rewrite app_nil_r. auto.
    + exfalso. rewrite app_length in H. assert (length post = 0%nat) by lia. destruct post; [|discriminate]. discriminate.
  - destruct fuel; [lia|]. unfold header in *.
    set (n := Z.of_nat (length (fileName e))) in *. set (ex := Z.of_nat (length extra)) in *. set (co := Z.of_nat (length comment)) in *.
    set (hd := pre ++ le4 EntrySignature ++ x1 ++ le2 n ++ le2 ex ++ le2 co ++ x2 ++ le4 (rest e)).
    set (tail := fileName e ++ (extra ++ comment ++ b) ++ post).
    assert (EA : pre ++ ((le4 EntrySignature ++ x1 ++ le2 n ++ le2 ex ++ le2 co ++ x2 ++ le4 (rest e) ++ fileName e ++ extra ++ comment) ++ b) ++ post = hd ++ tail) by (unfold hd, tail; repeat rewrite <- app_assoc; auto).
    rewrite EA. set (P := Z.of_nat (length pre)).
    assert (Lh : P + 46 = Z.of_nat (length hd)) by (unfold hd, P; lens).
    assert (ES : hd ++ tail = pre ++ le4 EntrySignature ++ x1 ++ le2 n ++ le2 ex ++ le2 co ++ x2 ++ le4 (rest e) ++ tail) by (unfold hd; repeat rewrite <- app_assoc; auto).
    assert (G0 : get4 (hd ++ tail) P = Some EntrySignature).
    { rewrite ES. replace P with (P + 0) by lia. unfold P. rewrite get4_app by lia. apply le4_get. unfold EntrySignature; lia. }
    assert (G28 : get2 (hd ++ tail) (P + 28) = Some n).
    { rewrite ES. unfold P. rewrite get2_app by lia. replace 28 with (Z.of_nat (length (le4 EntrySignature)) + (Z.of_nat (length x1) + 0)) by (rewrite le4_len; lia). rewrite !get2_app by lia. apply le2_get. lia. }
    assert (G30 : get2 (hd ++ tail) (P + 30) = Some ex).
    { rewrite ES. unfold P. rewrite get2_app by lia. replace 30 with (Z.of_nat (length (le4 EntrySignature)) + (Z.of_nat (length x1) + (Z.of_nat (length (le2 n)) + 0))) by (rewrite le4_len, le2_len; lia). rewrite !get2_app by lia. apply le2_get. lia. }
    assert (G32 : get2 (hd ++ tail) (P + 32) = Some co).
    { rewrite ES. unfold P. rewrite get2_app by lia. replace 32 with (Z.of_nat (length (le4 EntrySignature)) + (Z.of_nat (length x1) + (Z.of_nat (length (le2 n)) + (Z.of_nat (length (le2 ex)) + 0)))) by (rewrite le4_len, !le2_len; lia). rewrite !get2_app by lia. apply le2_get. lia. }
    assert (G42 : get4 (hd ++ tail) (P + 42) = Some (rest e)).
    { rewrite ES. unfold P. rewrite get4_app by lia. replace 42 with (Z.of_nat (length (le4 EntrySignature)) + (Z.of_nat (length x1) + (Z.of_nat (length (le2 n)) + (Z.of_nat (length (le2 ex)) + (Z.of_nat (length (le2 co)) + (Z.of_nat (length x2) + 0)))))) by (rewrite le4_len, !le2_len; lia). rewrite !get4_app by lia. apply le4_get. lia. }
    assert (GN : slice (hd ++ tail) (P + 46) n = Some (fileName e)) by (rewrite Lh; apply slice_app).
    cbn [entries]. rewrite (proj2 (Z.ltb_lt P _)) by (rewrite ES; unfold P; lens). rewrite G0, Z.eqb_refl, G28, G30, G32, G42, GN.
    destruct e as [nm off]. cbn [fileName rest] in *. destruct (add_good x (Entry nm off) G) as (x' & Ea & G' & N' & _). rewrite Ea.
    destruct (IH (hd ++ nm ++ extra ++ comment) post x' fuel G') as (y & Ey & Gy & Ny & Fy).
    { rewrite !app_length in Hf. lens. } { eauto. }
    exists y. cbn [fold_left]. rewrite Ea. split; [|split; [auto|split; [rewrite Ny, N', <- app_assoc; auto|auto]]].
    rewrite <- Ey. f_equal. unfold tail. repeat rewrite <- app_assoc. auto. rewrite !app_length. unfold n, ex, co. lia.
Qed.
Lemma search_down : forall a E fuel p, (Z.to_nat (p - E) < fuel)%nat -> 0 <= E <= p -> p <= Z.of_nat (length a) - 4 -> (forall q, E < q <= p -> get4 a q <> Some CentralDirectorySignature) ->
  exists fuel', search fuel a p = search (S fuel') a E.
Proof.
  intros a E. induction fuel as [|fuel IH]; intros p Hf HE Hp H. lia. destruct (Z.eq_dec p E). subst. eauto.
  cbn [search]. rewrite (proj2 (Z.ltb_lt 0 p)) by lia. destruct (get4 a p) as [sg|] eqn:G.
  - destruct (Z.eqb_spec sg CentralDirectorySignature). subst. destruct (H p); auto; lia. apply IH; try lia. intros q Hq. apply H. lia.
  - exfalso. unfold get4, get2, byteAt in G. rewrite !(proj2 (Z.ltb_ge _ 0)) in G by lia.
    assert (N : forall i, 0 <= i < Z.of_nat (length a) -> exists c, nth_error a (Z.to_nat i) = Some c). { intros i Hi. destruct (nth_error a (Z.to_nat i)) eqn:X; eauto. apply nth_error_None in X. lia. }
    destruct (N p) as [c0 E0], (N (p + 1)) as [c1 E1], (N (p + 2)) as [c2 E2], (N (p + 2 + 1)) as [c3 E3]; try lia. rewrite E0, E1, E2, E3 in G. discriminate.
Qed.
Theorem open_ok : forall a es, archive a es -> openJar a = build es.
Proof.
  intros a es (pre & dir & x & y & comment & Ea & HH & Lx & Ly & Hp & Hno). unfold openJar. set (E := Z.of_nat (length pre + length dir)).
  assert (La : Z.of_nat (length a) = E + 22 + Z.of_nat (length comment)). { subst a. unfold endRecord, E. lens. }
  destruct (search_down a E (S (length a)) (Z.of_nat (length a) - 22)) as (fuel & ->); try lia. intros q Hq. apply Hno. lia.
  cbn [search]. destruct (Z.ltb_spec 0 E).
  - assert (Es : a = (pre ++ dir) ++ endRecord x (Z.of_nat (length pre)) y ++ comment) by (subst a; rewrite <- app_assoc; auto).
    assert (Ep : E = Z.of_nat (length (pre ++ dir))) by (unfold E; rewrite app_length; lia).
    rewrite Es at 1. rewrite <- (Z.add_0_r E) at 1. rewrite Ep at 1. rewrite get4_app by lia. unfold endRecord at 1. repeat rewrite <- app_assoc. rewrite le4_get by (unfold CentralDirectorySignature; lia). rewrite Z.eqb_refl.
    rewrite Es at 1. rewrite Ep at 1. rewrite get4_app by lia. unfold endRecord at 1. repeat rewrite <- app_assoc. replace 16 with (Z.of_nat (length (le4 CentralDirectorySignature)) + (Z.of_nat (length x) + 0)) by (rewrite le4_len; lia). rewrite !get4_app by lia. rewrite le4_get by lia.
    destruct (headers_ok dir es HH pre (endRecord x (Z.of_nat (length pre)) y ++ comment) (make 32) (S (length a))) as (z & Ez & Gz & Nz & Fz).
    + apply make_good. exists 5. split; [lia|auto].
    + subst a. lens.
    + exists CentralDirectorySignature. split. unfold endRecord. rewrite <- !app_assoc. apply le4_get. unfold CentralDirectorySignature; lia. discriminate.
    + rewrite <- Ea in Ez. rewrite Ez. unfold build. rewrite Fz. auto.
  - assert (length dir = 0%nat) by lia. destruct dir; [|discriminate]. inversion HH; subst. auto.
Qed.

(** Class path expansion *)
Lemma expands_fun : forall fs f ts l, addTokens f fs ts = Some l -> Expands fs ts l.
Proof.
  induction f as [|f IH]; intros ts l E. discriminate. cbn [addTokens] in E. destruct ts as [|t ts]. injection E as <-. constructor.
  destruct (isBuiltin t) eqn:B.
  - destruct (addTokens f fs ts) eqn:R; [|discriminate]. injection E as <-. apply ex_builtin; auto.
  - destruct (fs t) eqn:T.
    + destruct (addTokens f fs ts) eqn:R; [|discriminate]. injection E as <-. apply ex_missing; auto.
    + destruct (addTokens f fs ts) eqn:R; [|discriminate]. injection E as <-. apply ex_dir; auto.
    + destruct (addTokens f fs classPath) eqn:Q; [|discriminate]. destruct (addTokens f fs ts) eqn:R; [|discriminate]. injection E as <-. cbn. apply ex_jar with classPath; auto.
Qed.
Lemma addTokens_mono : forall fs f ts l, addTokens f fs ts = Some l -> forall g, (f <= g)%nat -> addTokens g fs ts = Some l.
Proof.
  induction f as [|f IH]; intros ts l E g Hg. discriminate. destruct g as [|g]; [lia|]. cbn [addTokens] in *. destruct ts as [|t ts]; auto.
  destruct (addTokens f fs ts) as [r|] eqn:R. 2:{ destruct (if isBuiltin t then _ else _); discriminate. }
  rewrite (IH _ _ R g) by lia. destruct (isBuiltin t); auto. destruct (fs t); auto. destruct (addTokens f fs classPath) eqn:Q; [|discriminate]. rewrite (IH _ _ Q g) by lia. auto.
Qed.
Lemma expand_total : forall fs rank, acyclic fs rank -> forall n ts, Forall (fun t => (rank t < n)%nat) ts -> exists f l, addTokens f fs ts = Some l.
Proof.
  intros fs rank HA. induction n as [|n IHn]; intros ts HF.
  - destruct ts as [|t ts]. exists 1%nat, []. auto. inversion HF; lia.
  - induction HF as [|t ts Ht HF (f & l & E)]. exists 1%nat, []; auto. destruct (isBuiltin t) eqn:B.
    + exists (S f). cbn [addTokens]. rewrite B, E. eauto.
    + destruct (fs t) eqn:T.
      * exists (S f). cbn [addTokens]. rewrite B, T, E. eauto.
      * exists (S f). cbn [addTokens]. rewrite B, T, E. eauto.
      * destruct (IHn classPath) as (g & m & Eg). apply Forall_forall. intros u Hu. specialize (HA t classPath u T Hu). lia.
        exists (S (Nat.max f g)). cbn [addTokens]. rewrite B, T. rewrite (addTokens_mono _ _ _ _ E) by lia. rewrite (addTokens_mono _ _ _ _ Eg) by lia. eauto.
Qed.
Lemma cycle_none : forall fs t cp, fs t = Jar cp -> In t cp -> isBuiltin t = false -> forall f ts, In t ts -> addTokens f fs ts = None.
Proof.
  intros fs t cp T Hin B. induction f as [|f IH]; intros ts Hts; auto. cbn [addTokens]. destruct ts as [|u ts]; [destruct Hts|]. destruct Hts as [->|Hts].
  - rewrite B, T, (IH cp Hin). auto.
  - rewrite (IH ts Hts). destruct (if isBuiltin u then _ else _); auto.
Qed.

(** Manifests without continuation lines *)
Lemma lineOf_line : forall l s, Forall (fun c => isEol c = false) l -> lineOf (l ++ 10 :: s) = l.
Proof. induction 1; cbn [app lineOf]. auto. rewrite H. f_equal. auto. Qed.
Lemma skip_line : forall l s, isLine l -> skipEol (l ++ s) = l ++ s.
Proof. intros l s [H F]. destruct F; [congruence|]. cbn. rewrite H0. auto. Qed.
Lemma read_line : forall l s, isLine l -> readLine (l ++ 10 :: s) = (l ++ 10 :: s, l).
Proof. intros l s H. unfold readLine. rewrite skip_line by auto. rewrite lineOf_line by apply H. auto. Qed.
Lemma read_eol : forall s, readLine (10 :: s) = readLine s.
Proof. auto. Qed.
Lemma classPaths_ok : forall ls, Forall isLine ls -> (forall l, In l ls -> hd 0 l <> 32) -> forall f, (length ls < f)%nat -> classPaths f (text ls) = flat_map classPathOf ls /\ classPaths f (10 :: text ls) = flat_map classPathOf ls.
Proof.
  intros ls HF Hs. assert (G : forall f, (length ls < f)%nat -> forall s, (s = text ls \/ s = 10 :: text ls) -> classPaths f s = flat_map classPathOf ls).
  2:{ intros f Hf. split; apply G; auto. }
  induction HF as [|l ls Hl HF IH]; intros f Hf s E.
  - destruct f; [lia|]. destruct E as [->| ->]; auto.
  - destruct f; [cbn in Hf; lia|]. cbn [length] in Hf. assert (R : readLine s = (l ++ 10 :: text ls, l)).
    { destruct E as [->| ->]; rewrite ?read_eol; cbn [text flat_map]; rewrite <- app_assoc; cbn [app]; apply read_line; auto. }
    cbn [classPaths]. rewrite R. destruct l as [|c l]; [destruct Hl; congruence|]. set (L := c :: l) in *. cbn [flat_map]. unfold classPathOf at 1.
    assert (K : skipn (length L) (L ++ 10 :: text ls) = 10 :: text ls) by (rewrite skipn_app, skipn_all, Nat.sub_diag; auto).
    assert (I : forall q, In q ls -> hd 0 q <> 32) by (intros; apply Hs; cbn; auto).
    assert (C : forall n, continuations n (10 :: text ls) = (0%nat, [])).
    { intros [|n]; auto. cbn [continuations]. rewrite read_eol. destruct ls as [|q ls]. auto. inversion HF; subst. cbn [text flat_map]. rewrite <- app_assoc. cbn [app]. rewrite read_line by auto.
      destruct q as [|d q]; auto. specialize (I (d :: q) ltac:(cbn; auto)). cbn in I. destruct d as [|p|p]; auto. do 6 (destruct p; auto). congruence. }
    destruct ((12 <? Z.of_nat (length L)) && beq (firstn 12 L) prefix).
    + rewrite K, C, app_nil_r, Nat.add_0_r, K. cbn [app]. f_equal. apply IH; auto; lia.
    + rewrite K. cbn [app]. apply IH; auto; lia.
Qed.
Lemma text_app : forall a b, text (a ++ b) = text a ++ text b.
Proof. intros. unfold text. apply flat_map_app. Qed.
Lemma cont_ok : forall cs ls, Forall (fun c => Forall (fun b => isEol b = false) c) cs -> Forall isLine ls -> (forall l, In l ls -> hd 0 l <> 32) -> forall n, (length cs < n)%nat ->
  exists k, continuations n (10 :: text (map (cons 32) cs ++ ls)) = (k, concat cs).
Proof.
  induction cs as [|c cs IH]; intros ls HC HL Hs n Hn; (destruct n; [cbn in Hn; lia|]).
  - cbn [map app concat]. cbn [continuations]. rewrite read_eol. destruct ls as [|q ls]. exists 0%nat; auto. inversion HL; subst. cbn [text flat_map]. rewrite <- app_assoc. cbn [app]. rewrite read_line by auto.
    destruct q as [|d q]; eauto. specialize (Hs (d :: q) ltac:(cbn; auto)). cbn in Hs. destruct d as [|p|p]; eauto. do 6 (destruct p; eauto). congruence.
  - inversion HC; subst. cbn [length] in Hn. destruct (IH ls H2 HL Hs n) as [k E]. lia. cbn [map app concat]. cbn [continuations]. rewrite read_eol. cbn [text flat_map].
    change ((32 :: c) ++ [10]) with ((32 :: c) ++ 10 :: []). rewrite <- app_assoc. cbn [app]. change (32 :: c ++ 10 :: flat_map (fun l => l ++ [10]) (map (cons 32) cs ++ ls)) with ((32 :: c) ++ 10 :: text (map (cons 32) cs ++ ls)).
    rewrite read_line. 2:{ split. discriminate. constructor; auto. } rewrite skipn_app, skipn_all, Nat.sub_diag. cbn [skipn app]. rewrite E. eauto.
Qed.
Lemma first_classPath : forall v cs ls f, v <> [] -> Forall (fun b => isEol b = false) v -> Forall (fun c => Forall (fun b => isEol b = false) c) cs -> Forall isLine ls -> (forall l, In l ls -> hd 0 l <> 32) ->
  exists more, classPaths (S f) (text ((prefix ++ v) :: map (cons 32) cs ++ ls)) = (v ++ concat cs) :: more.
Proof.
  intros v cs ls f Hv HV HC HL Hs. set (L := prefix ++ v). assert (HLine : isLine L). { split. discriminate. apply Forall_app. split; auto. repeat constructor. }
  cbn [text flat_map]. rewrite <- app_assoc. cbn [app]. fold (text (map (cons 32) cs ++ ls)). set (t := text (map (cons 32) cs ++ ls)). cbn [classPaths]. rewrite read_line by auto.
  destruct L as [|c L0] eqn:EL; [destruct HLine; congruence|]. rewrite <- EL in *.
  assert (LL : length L = (12 + length v)%nat) by (unfold L; rewrite app_length; auto). rewrite (proj2 (Z.ltb_lt _ _)). 2:{ rewrite LL. destruct v; [congruence|]. cbn [length]. lia. }
  assert (F12 : firstn 12 L = prefix) by reflexivity. assert (S12 : skipn 12 L = v) by reflexivity. rewrite F12, S12, (proj2 (beq_eq prefix prefix) eq_refl). cbn [andb].
  rewrite skipn_app, skipn_all, Nat.sub_diag. cbn [skipn app]. destruct (cont_ok cs ls HC HL Hs (length (L ++ 10 :: t))) as [k E].
  - assert (X : forall q, (length q <= length (text (map (cons 32%Z) q)))%nat). { induction q as [|c1 q IH]. cbn; lia. cbn [map]. change (text ((32 :: c1) :: map (cons 32) q)) with (((32 :: c1) ++ [10]) ++ text (map (cons 32) q)). rewrite !app_length. cbn [length]. lia. }
    specialize (X cs). unfold t. rewrite app_length, text_app. cbn [length]. rewrite app_length. lia.
  - unfold t in *. rewrite E. eauto.
Qed.
