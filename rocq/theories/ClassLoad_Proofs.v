(** Proofs about the loading of classes by system loaders. *)
From Coq Require Import List NArith ZArith Arith Bool Lia.
From Verif Require Import ClassLoad_Model ClassLoad_Spec.
Import ListNotations.
Local Open Scope nat_scope.

(** ** Names *)

Lemma nameEq_true : forall a b, nameEq a b = true <-> a = b.
Proof. intros a b; unfold nameEq; destruct (list_eq_dec N.eq_dec a b); split; congruence. Qed.

Lemma nameEq_refl : forall a, nameEq a a = true.
Proof. intro; apply nameEq_true; reflexivity. Qed.

Lemma findIn_In : forall m n c, findIn m n = Some c -> In (n, c) m.
Proof.
  induction m as [|[k c0] m IH]; cbn; intros n c E; [discriminate|].
  destruct (nameEq k n) eqn:Q.
  - apply nameEq_true in Q; inversion E; subst; left; reflexivity.
  - right; apply IH; exact E.
Qed.

Lemma findIn_None : forall m n c, findIn m n = None -> ~ In (n, c) m.
Proof.
  induction m as [|[k c0] m IH]; cbn; intros n c E H; [exact H|].
  destruct (nameEq k n) eqn:Q; [discriminate|].
  destruct H as [H|H].
  - inversion H; subst; rewrite nameEq_refl in Q; discriminate.
  - exact (IH _ _ E H).
Qed.

Lemma scanName_le : forall n, scanName n <= length n.
Proof.
  induction n as [|c n IH]; cbn; [lia|].
  destruct ((c =? chNul)%N || (c =? chSemi)%N); lia.
Qed.

Lemma brackets_le : forall n, brackets n <= length n.
Proof.
  induction n as [|c n IH]; cbn; [lia|]; destruct (c =? chBracket)%N; lia.
Qed.

Lemma scanName_end : forall n, scanName n = length n \/
  (scanName n < length n /\ (nth (scanName n) n 7%N = chNul \/ nth (scanName n) n 7%N = chSemi)).
Proof.
  induction n as [|c n IH]; cbn; [left; reflexivity|].
  destruct (c =? chNul)%N eqn:A; cbn.
  - right; split; [lia|]; left; apply N.eqb_eq; exact A.
  - destruct (c =? chSemi)%N eqn:B; cbn.
    + right; split; [lia|]; right; apply N.eqb_eq; exact B.
    + destruct IH as [IH|[IH1 IH2]]; [left; lia|right; split; [lia|exact IH2]].
Qed.

Lemma brackets_repeat : forall n, exists rest, n = repeat chBracket (brackets n) ++ rest /\ nth 0 rest chNul <> chBracket.
Proof.
  induction n as [|c n [r [E H]]]; cbn.
  - exists []; split; [reflexivity|cbn; discriminate].
  - destruct (c =? chBracket)%N eqn:Q.
    + apply N.eqb_eq in Q; subst c. exists r; split; [cbn; f_equal; exact E|exact H].
    + exists (c :: n); split; [reflexivity|cbn; apply N.eqb_neq; exact Q].
Qed.

Lemma not_in_repeat : forall k, ~ In chNul (repeat chBracket k).
Proof. intros k H; apply repeat_spec in H; discriminate. Qed.

(** The element's name is shorter, in the measure *)
Lemma element_smaller : forall n en dims,
  isArrayName n = true -> elementSpec n = Some (en, dims) -> measure en < measure n.
Proof.
  intros n en dims A E. unfold elementSpec in E.
  set (d := brackets n) in *.
  assert (D : 1 <= d).
  { unfold d; destruct n as [|c n']; cbn in *; [discriminate A|].
    unfold isArrayName in A; cbn in A; rewrite A; lia. }
  assert (DL : d <= length n) by apply brackets_le.
  destruct (nth d (n ++ [chNul]) chNul =? chL)%N eqn:Q.
  - (* a class *)
    assert (DS : d < length n).
    { apply N.eqb_eq in Q.
      destruct (Nat.eq_dec d (length n)) as [EQ|]; [|lia].
      rewrite EQ, app_nth2, Nat.sub_diag in Q by lia. discriminate Q. }
    set (sc := scanName (skipn (S d) n)) in *.
    assert (SL : sc <= length n - S d).
    { unfold sc; etransitivity; [apply scanName_le|]; rewrite skipn_length; lia. }
    cbv zeta in E.
    destruct (1 <? d) eqn:G.
    + apply Nat.ltb_lt in G.
      assert (EE : en = firstn (S (S d + sc) - (S d - d)) (skipn (S d - d) (n ++ [chNul]))) by congruence.
      clear E. replace (S d - d) with 1 in EE by lia.
      replace (S (S d + sc) - 1) with (S d + sc) in EE by lia.
      destruct (Nat.eq_dec (S d + sc) (length n)) as [EQ|NE].
      * (* no semicolon *)
        assert (LE : length en = length n).
        { rewrite EE, firstn_length, skipn_length, app_length; cbn [length]; lia. }
        assert (EN : en = skipn 1 (n ++ [chNul])).
        { rewrite EE; apply firstn_all2; rewrite skipn_length, app_length; cbn [length]; lia. }
        assert (IN : In chNul en).
        { rewrite EN. destruct n as [|x n']; [cbn in DS; lia|]. cbn. apply in_or_app; right; left; reflexivity. }
        destruct (in_dec N.eq_dec chNul n) as [HN|HN].
        -- exfalso.
           assert (SC : sc = length (skipn (S d) n)) by (rewrite skipn_length; lia).
           assert (NO : forall m, scanName m = length m -> ~ In chNul m).
           { induction m as [|c m IHm]; cbn; [tauto|].
             destruct (c =? chNul)%N eqn:C0; cbn; [discriminate|].
             destruct (c =? chSemi)%N; cbn; [discriminate|].
             intros L [H|H]; [subst c; discriminate C0|apply IHm in H; [exact H|lia]]. }
           destruct (brackets_repeat n) as [r [ER HR]]. fold d in ER.
           assert (In chNul (skipn (S d) n)).
           { rewrite ER in HN. apply in_app_or in HN. destruct HN as [HN|HN]; [exact (False_ind _ (not_in_repeat _ HN))|].
             destruct r as [|x r]; [contradiction HN|].
             destruct HN as [HN|HN].
             - subst x. rewrite ER in Q. rewrite <- app_assoc, app_nth2 in Q by (rewrite repeat_length; lia).
               rewrite repeat_length, Nat.sub_diag in Q. discriminate Q.
             - rewrite ER, skipn_app, repeat_length. replace (S d - d) with 1 by lia.
               apply in_or_app; right; exact HN. }
           exact (NO _ SC H).
        -- unfold measure. destruct (in_dec N.eq_dec chNul en); [|contradiction].
           destruct (in_dec N.eq_dec chNul n); [contradiction|lia].
      * assert (LE : length en <= length n - 1).
        { rewrite EE, firstn_length, skipn_length, app_length; cbn [length]; lia. }
        unfold measure. destruct (in_dec N.eq_dec chNul en), (in_dec N.eq_dec chNul n); lia.
    + assert (EE : en = firstn (S d + sc - S d) (skipn (S d) (n ++ [chNul]))) by congruence.
      assert (LE : length en <= length n - 2).
      { rewrite EE, firstn_length, skipn_length, app_length; cbn [length]; lia. }
      unfold measure. destruct (in_dec N.eq_dec chNul en), (in_dec N.eq_dec chNul n); lia.
  - destruct (1 <? d) eqn:G; [|discriminate E].
    apply Nat.ltb_lt in G.
    assert (EE : en = repeat chBracket (d - 1) ++ [nth d (n ++ [chNul]) chNul]) by congruence.
    assert (LE : length en = d) by (rewrite EE, app_length, repeat_length; cbn; lia).
    destruct (Nat.eq_dec d (length n)) as [EQ|NE].
    + assert (HN : ~ In chNul n).
      { destruct (brackets_repeat n) as [r [ER _]]. fold d in ER.
        assert (r = []).
        { apply (f_equal (@length char)) in ER. rewrite app_length, repeat_length in ER.
          destruct r; [reflexivity|cbn [length] in ER; lia]. }
        subst r. rewrite app_nil_r in ER. rewrite ER. apply not_in_repeat. }
      assert (In chNul en).
      { rewrite EE. apply in_or_app; right; left.
        rewrite EQ, app_nth2, Nat.sub_diag by lia. reflexivity. }
      unfold measure. destruct (in_dec N.eq_dec chNul en); [|contradiction].
      destruct (in_dec N.eq_dec chNul n); [contradiction|lia].
    + unfold measure. destruct (in_dec N.eq_dec chNul en), (in_dec N.eq_dec chNul n); lia.
Qed.

(** ** What a name is made of *)
Inductive base := BAbort | BRoot | BName (n : name).

Inductive based (boot : name -> option nat) : name -> base -> Prop :=
| b_plain : forall n, isArrayName n = false -> based boot n (BName n)
| b_boot : forall n e, isArrayName n = true -> boot n = Some e -> based boot n BRoot
| b_abort : forall n, isArrayName n = true -> boot n = None -> elementSpec n = None -> based boot n BAbort
| b_elemBoot : forall n en dims e, isArrayName n = true -> boot n = None -> elementSpec n = Some (en, dims) ->
    boot en = Some e -> based boot n BRoot
| b_elem : forall n en dims b, isArrayName n = true -> boot n = None -> elementSpec n = Some (en, dims) ->
    boot en = None -> based boot en b -> based boot n b.

Lemma based_det : forall boot n b b', based boot n b -> based boot n b' -> b = b'.
Proof.
  intros boot n b b' H; revert b'; induction H; intros b' H'; inversion H'; subst; try congruence.
  assert (en0 = en) by congruence. subst en0. apply IHbased; assumption.
Qed.

Lemma based_total : forall boot k n, measure n < k -> exists b, based boot n b.
Proof.
  induction k as [|k IH]; intros n L; [lia|].
  destruct (isArrayName n) eqn:A; [|exists (BName n); apply b_plain; exact A].
  destruct (boot n) as [e|] eqn:B; [exists BRoot; eapply b_boot; eassumption|].
  destruct (elementSpec n) as [[en dims]|] eqn:E; [|exists BAbort; apply b_abort; assumption].
  destruct (boot en) as [e|] eqn:BE; [exists BRoot; eapply b_elemBoot; eassumption|].
  destruct (IH en) as [b Hb]; [pose proof (element_smaller _ _ _ A E); lia|].
  exists b; eapply b_elem; eassumption.
Qed.

Section Sys.
Variable ls : nat -> loader.
Variable boot : name -> option nat.

(** All loaders are system loaders; the boot loader is the root; a class file defines the class it is found for; the
    classes the VM starts with can be found by the boot loader *)
Record wf (s0 : list cls) : Prop := {
  w_sys : forall l, exists p files, ls l = LSys p files /\
            (match p with Some q => q < l | None => l = 0 end) /\
            (forall n f, files n = Some f -> f = n);
  w_boot : forall n e, boot n = Some e ->
            e < length s0 /\ c_name (nth e s0 (mkCls [] 0 0%N None)) = n /\
            c_loader (nth e s0 (mkCls [] 0 0%N None)) = 0 /\
            (isArrayName n = false -> exists p files, ls 0 = LSys p files /\ files n <> None)
}.

Definition hasClass (l : nat) (n : name) : bool :=
  match ls l with
  | LSys _ files => match files n with Some _ => true | None => false end
  | LUser _ _ files => match files n with Some _ => true | None => false end
  end.

Fixpoint lineF (fuel l : nat) : list nat :=
  match fuel with
  | 0 => []
  | S f => l :: match parentOf ls l with Some p => lineF f p | None => [] end
  end.
(** [l] and its ancestors *)
Definition lineage (l : nat) : list nat := lineF (S l) l.
Arguments lineage : simpl never.

Variable s0 : list cls.
Hypothesis W : wf s0.

Lemma parent_lt : forall l p, parentOf ls l = Some p -> p < l.
Proof.
  intros l p E. destruct (w_sys _ W l) as [q [fs [L [H _]]]].
  unfold parentOf in E; rewrite L in E; subst q. exact H.
Qed.

Lemma root_only : forall l, parentOf ls l = None -> l = 0.
Proof.
  intros l E. destruct (w_sys _ W l) as [q [fs [L [H _]]]].
  unfold parentOf in E; rewrite L in E; subst q. exact H.
Qed.

Lemma lineF_more : forall f g l, l < f -> l < g -> lineF f l = lineF g l.
Proof.
  induction f as [|f IH]; intros g l A B; [lia|].
  destruct g as [|g]; [lia|]. cbn. destruct (parentOf ls l) as [p|] eqn:P; [|reflexivity].
  f_equal. pose proof (parent_lt _ _ P). apply IH; lia.
Qed.

Lemma lineage_eq : forall l,
  lineage l = l :: match parentOf ls l with Some p => lineage p | None => [] end.
Proof.
  intro l. unfold lineage. cbn [lineF]. destruct (parentOf ls l) as [p|] eqn:P; [|reflexivity].
  f_equal. pose proof (parent_lt _ _ P). change (lineF l p = lineF (S p) p). apply lineF_more; lia.
Qed.

Definition sem (l : nat) (b : base) : option nat :=
  match b with
  | BAbort => None
  | BRoot => Some 0
  | BName n => definedBy hasClass (lineage l) n
  end.

Lemma sem_parent : forall l p b d, parentOf ls l = Some p -> sem p b = Some d -> sem l b = Some d.
Proof.
  intros l p b d P E; destruct b as [| |n]; cbn in *; try exact E.
  rewrite lineage_eq, P; cbn. rewrite E. reflexivity.
Qed.

Lemma sem_own : forall l b d, (forall p, parentOf ls l = Some p -> sem p b = None) -> sem l b = Some d -> d = l.
Proof.
  intros l b d H E. destruct b as [| |n]; cbn in E; [discriminate| |].
  - destruct (parentOf ls l) as [p|] eqn:P.
    + specialize (H p eq_refl). discriminate H.
    + inversion E; symmetry; exact (root_only _ P).
  - rewrite lineage_eq in E. cbn in E.
    destruct (parentOf ls l) as [p|] eqn:P.
    + specialize (H p eq_refl). cbn in H. rewrite H in E. destruct (hasClass l n); congruence.
    + cbn in E. destruct (hasClass l n); congruence.
Qed.

Lemma sem_le : forall l b d, sem l b = Some d -> d <= l.
Proof.
  intro l. induction l as [l IH] using (well_founded_induction lt_wf). intros b d E.
  destruct (parentOf ls l) as [p|] eqn:P.
  - destruct (sem p b) as [d'|] eqn:S'.
    + pose proof (sem_parent _ _ _ _ P S'). assert (d' = d) by congruence. subst d'.
      pose proof (parent_lt _ _ P). pose proof (IH p H0 b d S'). lia.
    + assert (d = l); [|lia]. apply (sem_own l b d); [|exact E]. intros q Q; congruence.
  - assert (d = l); [|lia]. apply (sem_own l b d); [|exact E]. intros q Q; congruence.
Qed.

Lemma sem_root : forall l b d, sem 0 b = Some d -> sem l b = Some d.
Proof.
  intro l. induction l as [l IH] using (well_founded_induction lt_wf). intros b d E.
  destruct (parentOf ls l) as [p|] eqn:P.
  - eapply sem_parent; [exact P|]. apply IH; [apply parent_lt; exact P|exact E].
  - rewrite (root_only _ P); exact E.
Qed.

Lemma boot_sem : forall n e b, boot n = Some e -> based boot n b -> sem 0 b = Some 0.
Proof.
  intros n e b B H. inversion H; subst; try congruence; cbn; try reflexivity.
  destruct (w_boot _ W _ _ B) as [_ [_ [_ F]]]. destruct (F H0) as [p [fs [L N]]].
  rewrite lineage_eq. cbn.
  assert (P : parentOf ls 0 = None).
  { destruct (parentOf ls 0) as [q|] eqn:P; [|reflexivity]. apply parent_lt in P; lia. }
  rewrite P. cbn. unfold hasClass. rewrite L. destruct (fs n); [reflexivity|congruence].
Qed.

(** ** The invariant *)
Record inv (s : st) : Prop := {
  i_start : exists more, classes s = s0 ++ more;
  i_entry : forall l n c, In (n, c) (maps s l) ->
     c < length (classes s) /\ c_name (classAt s c) = n /\
     In (n, c) (maps s (c_loader (classAt s c))) /\
     exists b, based boot n b /\ sem l b = Some (c_loader (classAt s c));
  i_one : forall l n c c', In (n, c) (maps s l) -> In (n, c') (maps s l) -> c = c';
  i_boot : forall l n c e, In (n, c) (maps s l) -> boot n = Some e -> c = e;
  i_array : forall l n c, In (n, c) (maps s l) -> isArrayName n = true -> boot n = None ->
     exists en dims e, elementSpec n = Some (en, dims) /\ c_elem (classAt s c) = Some e /\
       c_dims (classAt s c) = (N.of_nat dims mod 256)%N /\
       e < length (classes s) /\ c_name (classAt s e) = en /\ c_loader (classAt s e) = c_loader (classAt s c) /\
       (boot en = Some e \/ In (en, e) (maps s (c_loader (classAt s e))))
}.

Definition ext (s s' : st) : Prop :=
  (exists more, classes s' = classes s ++ more) /\ (forall l x, In x (maps s l) -> In x (maps s' l)).

Lemma ext_refl : forall s, ext s s.
Proof. intro s; split; [exists []; rewrite app_nil_r; reflexivity|tauto]. Qed.

Lemma ext_trans : forall a b c, ext a b -> ext b c -> ext a c.
Proof.
  intros a b c [[m E] H] [[m' E'] H']; split; [|intros; auto].
  exists (m ++ m'); rewrite E', E, app_assoc; reflexivity.
Qed.

Lemma ext_at : forall s s' c, ext s s' -> c < length (classes s) -> classAt s' c = classAt s c.
Proof. intros s s' c [[m E] _] L; unfold classAt; rewrite E, app_nth1 by exact L; reflexivity. Qed.

Lemma ext_len : forall s s', ext s s' -> length (classes s) <= length (classes s').
Proof. intros s s' [[m E] _]; rewrite E, app_length; lia. Qed.

Definition good (s : st) (d : nat) (n : name) (c : nat) : Prop :=
  c < length (classes s) /\ c_name (classAt s c) = n /\ c_loader (classAt s c) = d /\ In (n, c) (maps s d).

Lemma good_ext : forall s s' d n c, ext s s' -> good s d n c -> good s' d n c.
Proof.
  intros s s' d n c X [A [B [C D]]]. pose proof (ext_len _ _ X).
  repeat split; [lia| | |].
  - rewrite (ext_at _ _ _ X A); exact B.
  - rewrite (ext_at _ _ _ X A); exact C.
  - apply (proj2 X); exact D.
Qed.

Lemma entry_good : forall s l n c, inv s -> In (n, c) (maps s l) -> good s (c_loader (classAt s c)) n c.
Proof.
  intros s l n c I H. destruct (i_entry _ I _ _ _ H) as [A [B [C _]]]. repeat split; assumption.
Qed.

Lemma entry_sem : forall s l n c b, inv s -> In (n, c) (maps s l) -> based boot n b ->
  sem l b = Some (c_loader (classAt s c)).
Proof.
  intros s l n c b I H Hb. destruct (i_entry _ I _ _ _ H) as [_ [_ [_ [b' [Hb' E]]]]].
  rewrite (based_det _ _ _ _ Hb Hb'). exact E.
Qed.

Lemma start_boot : forall s n e, inv s -> boot n = Some e ->
  e < length (classes s) /\ c_name (classAt s e) = n /\ c_loader (classAt s e) = 0.
Proof.
  intros s n e I B. destruct (i_start _ I) as [m E]. destruct (w_boot _ W _ _ B) as [A [C [D _]]].
  unfold classAt; rewrite E, app_nth1, app_length by exact A. split; [lia|split; assumption].
Qed.

(** what an entry for an array says *)
Definition arrayData (s : st) (n : name) (c : nat) : Prop :=
  isArrayName n = true -> boot n = None ->
     exists en dims e, elementSpec n = Some (en, dims) /\ c_elem (classAt s c) = Some e /\
       c_dims (classAt s c) = (N.of_nat dims mod 256)%N /\
       e < length (classes s) /\ c_name (classAt s e) = en /\ c_loader (classAt s e) = c_loader (classAt s c) /\
       (boot en = Some e \/ In (en, e) (maps s (c_loader (classAt s e)))).

Lemma insert_ext : forall s l n c, ext s (insertMap s l n c).
Proof.
  intros; split; [exists []; rewrite app_nil_r; reflexivity|].
  intros k x H; cbn. destruct (k =? l); [right; exact H|exact H].
Qed.

Lemma insert_In : forall s l n c k x, In x (maps (insertMap s l n c) k) -> (k = l /\ x = (n, c)) \/ In x (maps s k).
Proof.
  intros s l n c k x H; cbn in H. destruct (k =? l) eqn:Q; [|right; exact H].
  apply Nat.eqb_eq in Q. destruct H as [H|H]; [left; split; [exact Q|symmetry; exact H]|right; exact H].
Qed.

Lemma insert_here : forall s l n c, In (n, c) (maps (insertMap s l n c) l).
Proof. intros; cbn; rewrite Nat.eqb_refl; left; reflexivity. Qed.

Lemma insert_inv : forall s l n c b,
  inv s -> c < length (classes s) -> c_name (classAt s c) = n ->
  (In (n, c) (maps s (c_loader (classAt s c))) \/ c_loader (classAt s c) = l) ->
  based boot n b -> sem l b = Some (c_loader (classAt s c)) ->
  (forall c', In (n, c') (maps s l) -> c' = c) ->
  (forall e, boot n = Some e -> c = e) ->
  arrayData s n c ->
  inv (insertMap s l n c).
Proof.
  intros s l n c b I A B C Hb Hs U Bo Ar.
  assert (CA : forall k, classAt (insertMap s l n c) k = classAt s k) by reflexivity.
  assert (LE : length (classes (insertMap s l n c)) = length (classes s)) by reflexivity.
  assert (MONO : forall k x, In x (maps s k) -> In x (maps (insertMap s l n c) k)).
  { apply (proj2 (insert_ext s l n c)). }
  constructor.
  - exact (i_start _ I).
  - intros k m x H. rewrite CA, LE. apply insert_In in H. destruct H as [[K E]|H].
    + inversion E; subst m x k. split; [exact A|]. split; [exact B|]. split.
      * destruct C as [C|C]; [apply MONO; exact C|]. rewrite C. apply insert_here.
      * exists b; split; assumption.
    + destruct (i_entry _ I _ _ _ H) as [P [Q [R T]]].
      split; [exact P|split; [exact Q|split; [apply MONO; exact R|exact T]]].
  - intros k m x x' H H'. apply insert_In in H. apply insert_In in H'.
    destruct H as [[K E]|H], H' as [[K' E']|H'].
    + congruence.
    + inversion E; subst. symmetry. apply U; exact H'.
    + inversion E'; subst. apply U; exact H.
    + exact (i_one _ I _ _ _ _ H H').
  - intros k m x e H Be. apply insert_In in H. destruct H as [[K E]|H].
    + inversion E; subst. apply Bo; exact Be.
    + exact (i_boot _ I _ _ _ _ H Be).
  - assert (Z : forall m x, arrayData s m x -> arrayData (insertMap s l n c) m x).
    { intros m x H A1 A2. destruct (H A1 A2) as [en [dims [e [E1 [E2 [E3 [E4 [E5 [E6 E7]]]]]]]]].
      exists en, dims, e. rewrite !CA, LE. repeat (split; [assumption|]).
      destruct E7 as [E7|E7]; [left; exact E7|right; apply MONO; exact E7]. }
    intros k m x H A1 A2. apply insert_In in H. destruct H as [[K E]|H].
    + inversion E; subst m x. exact (Z _ _ Ar A1 A2).
    + exact (Z _ _ (i_array _ I _ _ _ H) A1 A2).
Qed.

Lemma add_ext : forall s k, ext s (addClass s k).
Proof. intros; split; [exists [k]; reflexivity|tauto]. Qed.

Lemma add_last : forall s k, classAt (addClass s k) (length (classes s)) = k.
Proof. intros; unfold classAt; cbn. rewrite app_nth2, Nat.sub_diag by lia. reflexivity. Qed.

Lemma add_inv : forall s k, inv s -> inv (addClass s k).
Proof.
  intros s k I. pose proof (add_ext s k) as X.
  assert (LE : length (classes s) <= length (classes (addClass s k))) by (apply ext_len; exact X).
  constructor.
  - destruct (i_start _ I) as [m E]. exists (m ++ [k]). cbn. rewrite E, app_assoc. reflexivity.
  - intros l n c H. destruct (i_entry _ I _ _ _ H) as [P Q].
    rewrite (ext_at _ _ _ X P). split; [lia|exact Q].
  - exact (i_one _ I).
  - exact (i_boot _ I).
  - intros l n c H A1 A2. destruct (i_entry _ I _ _ _ H) as [P _].
    destruct (i_array _ I _ _ _ H A1 A2) as [en [dims [e [E1 [E2 [E3 [E4 [E5 [E6 E7]]]]]]]]].
    exists en, dims, e. rewrite (ext_at _ _ _ X P), (ext_at _ _ _ X E4).
    repeat (split; [first [assumption|lia]|]). exact E7.
Qed.

(** what a request answers *)
Definition answers (s : st) (l : nat) (n : name) (b : base) (o : out) : Prop :=
  match b with
  | BAbort => o = Aborted
  | _ => exists s' r, o = Done s' r /\ inv s' /\ ext s s' /\ (forall k, l < k -> maps s' k = maps s k) /\
      match sem l b with
      | None => r = None
      | Some d => exists c, r = Some c /\ good s' d n c
      end
  end.

Lemma insert_above : forall s l n c k, l < k -> maps (insertMap s l n c) k = maps s k.
Proof. intros s l n c k H; cbn. assert (Q : (k =? l) = false) by (apply Nat.eqb_neq; lia). rewrite Q; reflexivity. Qed.

(** [finishArray] for a good element *)
Lemma finish_ok : forall n en dims e b l s,
  inv s -> isArrayName n = true -> boot n = None -> elementSpec n = Some (en, dims) -> based boot n b ->
  e < length (classes s) -> c_name (classAt s e) = en -> c_loader (classAt s e) = l ->
  (boot en = Some e \/ In (en, e) (maps s (c_loader (classAt s e)))) ->
  sem l b = Some l ->
  exists s' c, finishArray n dims e s = Done s' (Some c) /\ inv s' /\ ext s s' /\
    (forall k, l < k -> maps s' k = maps s k) /\ good s' l n c.
Proof.
  intros n en dims e b l s I A Bn E Hb L1 L2 L3 L4 Sm. unfold finishArray. rewrite L3.
  destruct (findLoadedClass s l n) as [c|] eqn:F.
  - apply findIn_In in F. exists s, c. split; [reflexivity|]. split; [exact I|]. split; [apply ext_refl|].
    split; [reflexivity|].
    pose proof (entry_good _ _ _ _ I F) as G. rewrite (entry_sem _ _ _ _ _ I F Hb) in Sm.
    assert (Q : c_loader (classAt s c) = l) by congruence.
    rewrite Q in G. exact G.
  - set (k := mkCls n l (N.of_nat dims mod 256) (Some e)).
    set (s1 := addClass s k). set (c := length (classes s)).
    assert (CK : classAt s1 c = k) by apply add_last.
    assert (I1 : inv s1) by (apply add_inv; exact I).
    assert (X1 : ext s s1) by apply add_ext.
    assert (LC : c < length (classes s1)) by (unfold s1, c; cbn; rewrite app_length; cbn [length]; lia).
    unfold saveLoadedClass. rewrite CK. cbn [c_name k].
    assert (I2 : inv (insertMap s1 l n c)).
    { apply (insert_inv s1 l n c b); try assumption.
      - rewrite CK; reflexivity.
      - right; rewrite CK; reflexivity.
      - rewrite CK; exact Sm.
      - intros c' H. exfalso. exact (findIn_None _ _ c' F H).
      - intros e' H; congruence.
      - intros _ _. exists en, dims, e. rewrite CK. cbn [c_elem c_dims c_loader k].
        rewrite (ext_at _ _ _ X1 L1). pose proof (ext_len _ _ X1).
        repeat (split; [first [assumption|reflexivity|lia]|]). exact L4. }
    exists (insertMap s1 l n c), c. split; [reflexivity|]. split; [exact I2|].
    split; [eapply ext_trans; [exact X1|apply insert_ext]|].
    split; [intros j J; rewrite insert_above by exact J; reflexivity|].
    split; [exact LC|]. unfold classAt; cbn [classes insertMap].
    change (nth c (classes s1) (mkCls [] 0 0%N None)) with (classAt s1 c). rewrite CK.
    split; [reflexivity|split; [reflexivity|apply insert_here]].
Qed.

Lemma load_ok : forall f java l n s b,
  inv s -> measure n + l < f -> based boot n b ->
  answers s l n b (load ls boot f java l n s).
Proof.
  induction f as [|f IH]; intros java l n s b I F Hb; [lia|].
  destruct (w_sys _ W l) as [par [files [LS [PL FN]]]].
  assert (PO : parentOf ls l = par) by (unfold parentOf; rewrite LS; reflexivity).
  cbn [load]. rewrite LS.
  destruct (findLoadedClass s l n) as [c|] eqn:FL.
  - apply findIn_In in FL. pose proof (entry_sem _ _ _ _ _ I FL Hb) as Sm.
    pose proof (entry_good _ _ _ _ I FL) as G.
    destruct b as [| |m]; [discriminate Sm| |];
      (exists s, (Some c); split; [reflexivity|]; split; [exact I|]; split; [apply ext_refl|]; split; [reflexivity|];
       rewrite Sm; exists c; split; [reflexivity|exact G]).
  - (* the parent *)
    assert (P1 : b = BAbort /\ par <> None /\
                   (match par with Some p => load ls boot f false p n s | None => Done s None end) = Aborted \/
                 exists s1 r, (match par with Some p => load ls boot f false p n s | None => Done s None end) = Done s1 r /\
                   inv s1 /\ ext s s1 /\ (forall k, l <= k -> maps s1 k = maps s k) /\
                   match r with
                   | Some c => exists d, sem l b = Some d /\ good s1 d n c
                   | None => forall p, parentOf ls l = Some p -> sem p b = None
                   end).
    { destruct par as [p|].
      - pose proof (IH false p n s b I ltac:(lia) Hb) as R. unfold answers in R.
        destruct b as [| |m].
        + left; split; [reflexivity|split; [discriminate|exact R]].
        + right. destruct R as [s1 [r [E [I1 [X [M R]]]]]]. cbn in R. destruct R as [c [Er G]]. subst r.
          exists s1, (Some c). split; [exact E|]. split; [exact I1|]. split; [exact X|].
          split; [intros k K; apply M; lia|]. exists 0; split; [reflexivity|exact G].
        + right. destruct R as [s1 [r [E [I1 [X [M R]]]]]].
          destruct (sem p (BName m)) as [d|] eqn:Sp.
          * destruct R as [c [Er G]]. subst r. exists s1, (Some c). split; [exact E|]. split; [exact I1|]. split; [exact X|].
            split; [intros k K; apply M; lia|]. exists d; split; [|exact G].
            eapply sem_parent; eassumption.
          * subst r. exists s1, None. split; [exact E|]. split; [exact I1|]. split; [exact X|].
            split; [intros k K; apply M; lia|]. intros q Q; congruence.
      - right. exists s, None. split; [reflexivity|]. split; [exact I|]. split; [apply ext_refl|].
        split; [reflexivity|]. intros q Q; congruence. }
    destruct P1 as [[Bb [_ E]]|[s1 [r [E [I1 [X1 [M1 R]]]]]]].
    { rewrite E. subst b. reflexivity. }
    rewrite E. cbn [bindOut]. destruct r as [c|].
    { destruct R as [d [Sm G]]. unfold answers. destruct b; [discriminate Sm| |];
      (exists s1, (Some c); split; [reflexivity|]; split; [exact I1|]; split; [exact X1|];
       split; [intros k K; apply M1; lia|]; rewrite Sm; exists c; split; [reflexivity|exact G]). }
    assert (OWN : forall d, sem l b = Some d -> d = l) by (intros d; apply sem_own; exact R).
    (* an outcome of the second half *)
    assert (FIN : forall s2 c, inv s2 -> ext s1 s2 -> (forall k, l < k -> maps s2 k = maps s1 k) ->
                    c < length (classes s2) -> c_name (classAt s2 c) = n -> c_loader (classAt s2 c) = l ->
                    sem l b = Some l -> b <> BAbort ->
                    (forall c', In (n, c') (maps s2 l) -> c' = c) -> (forall e, boot n = Some e -> c = e) ->
                    arrayData s2 n c ->
                    answers s l n b (Done (insertMap s2 l n c) (Some c))).
    { intros s2 c I2 X2 M2 C1 C2 C3 Sm NB U Bo Ar.
      assert (I3 : inv (insertMap s2 l n c)).
      { apply (insert_inv s2 l n c b); try assumption; [right; exact C3|rewrite C3; exact Sm]. }
      assert (GO : exists s' r, Done (insertMap s2 l n c) (Some c) = Done s' r /\ inv s' /\ ext s s' /\
                (forall k, l < k -> maps s' k = maps s k) /\
                match sem l b with None => r = None | Some d => exists c0, r = Some c0 /\ good s' d n c0 end).
      { exists (insertMap s2 l n c), (Some c). split; [reflexivity|]. split; [exact I3|].
        split; [eapply ext_trans; [exact X1|eapply ext_trans; [exact X2|apply insert_ext]]|].
        split; [intros k K; rewrite insert_above, M2, M1 by lia; reflexivity|].
        rewrite Sm. exists c; split; [reflexivity|]. split; [exact C1|]. split; [exact C2|]. split; [exact C3|apply insert_here]. }
      unfold answers. destruct b; [congruence|exact GO|exact GO]. }
    assert (NONE : forall s2, inv s2 -> ext s1 s2 -> (forall k, l < k -> maps s2 k = maps s1 k) ->
                     sem l b = None -> b <> BAbort -> answers s l n b (Done s2 None)).
    { intros s2 I2 X2 M2 Sm NB. unfold answers. destruct b; [congruence| |];
      (exists s2, None; split; [reflexivity|]; split; [exact I2|]; split; [eapply ext_trans; eassumption|];
       split; [intros k K; rewrite M2, M1 by lia; reflexivity|]; rewrite Sm; reflexivity). }
    assert (KNOWN : forall s2 c, inv s2 -> In (n, c) (maps s2 l) -> c_loader (classAt s2 c) = l /\
                      (forall c', In (n, c') (maps s2 l) -> c' = c) /\ (forall e, boot n = Some e -> c = e) /\
                      arrayData s2 n c /\ sem l b = Some l /\ c < length (classes s2) /\ c_name (classAt s2 c) = n).
    { intros s2 c I2 H. pose proof (entry_sem _ _ _ _ _ I2 H Hb) as Sm.
      assert (Q : c_loader (classAt s2 c) = l) by (apply OWN; exact Sm).
      destruct (i_entry _ I2 _ _ _ H) as [C1 [C2 _]].
      split; [exact Q|]. split; [intros c' H'; exact (i_one _ I2 _ _ _ _ H' H)|].
      split; [intros e Be; exact (i_boot _ I2 _ _ _ _ H Be)|].
      split; [exact (i_array _ I2 _ _ _ H)|]. rewrite Q in Sm. repeat split; assumption. }
    destruct (isArrayName n) eqn:A.
    + (* arrays *)
      unfold resolveArrayClass. destruct (boot n) as [c|] eqn:Bn.
      * assert (S0 : sem 0 b = Some 0) by (eapply boot_sem; eassumption).
        assert (L0 : l = 0).
        { symmetry; apply OWN. apply sem_root; exact S0. }
        destruct (start_boot _ _ _ I1 Bn) as [C1 [C2 C3]].
        cbn [bindOut]. apply FIN; try assumption.
        -- apply ext_refl.
        -- reflexivity.
        -- rewrite L0; exact C3.
        -- rewrite L0; exact S0.
        -- intro Q; subst b; discriminate S0.
        -- intros c' H. exact (i_boot _ I1 _ _ _ _ H Bn).
        -- intros e Q; congruence.
        -- intros _ Q; congruence.
      * destruct (findLoadedClass s1 0 n) as [c|] eqn:F0.
        -- apply findIn_In in F0. pose proof (entry_sem _ _ _ _ _ I1 F0 Hb) as S0.
           pose proof (sem_root l _ _ S0) as Sl.
           assert (Q0 : c_loader (classAt s1 c) = 0) by (pose proof (sem_le _ _ _ S0); lia).
           assert (L0 : l = 0) by (symmetry; rewrite <- Q0; apply OWN; exact Sl).
           rewrite <- L0 in F0.
           destruct (KNOWN s1 c I1 F0) as [K1 [K2 [K3 [K4 [K5 [K6 K7]]]]]].
           cbn [bindOut]. apply FIN; try assumption; [apply ext_refl|reflexivity|].
           intro Q; subst b; discriminate S0.
        -- unfold makeArrayClass. destruct (elementSpec n) as [[en dims]|] eqn:ES.
           ++ pose proof (element_smaller _ _ _ A ES) as SM.
              destruct (boot en) as [e|] eqn:Be.
              ** assert (Bb : b = BRoot).
                 { apply (based_det boot n); [exact Hb|]. eapply b_elemBoot; eassumption. }
                 subst b.
                 assert (L0 : l = 0) by (symmetry; apply OWN; reflexivity).
                 destruct (start_boot _ _ _ I1 Be) as [E1 [E2 E3]].
                 destruct (finish_ok n en dims e BRoot 0 s1 I1 A Bn ES Hb E1 E2 E3 (or_introl Be) eq_refl)
                   as [s2 [c [G1 [G2 [G3 [G4 G5]]]]]].
                 rewrite G1. cbn [bindOut].
                 destruct G5 as [_ [_ [_ G5]]]. rewrite <- L0 in G5.
                 destruct (KNOWN s2 c G2 G5) as [K1 [K2 [K3 [K4 [K5 [K6 K7]]]]]].
                 apply FIN; try assumption; [intros k K; apply G4; lia|discriminate].
              ** assert (Hen : exists b', based boot en b') by (apply (based_total boot (S (measure en))); lia).
                 destruct Hen as [b' Hb'].
                 assert (Q : b' = b).
                 { apply (based_det boot n); [eapply b_elem; eassumption|exact Hb]. }
                 subst b'.
                 pose proof (IH false l en s1 b I1 ltac:(lia) Hb') as RR.
                 assert (DEC : b = BAbort \/ b <> BAbort) by (destruct b; [left; reflexivity|right; discriminate|right; discriminate]).
                 destruct DEC as [Q|NB].
                 { subst b. cbn [answers] in RR. rewrite RR. reflexivity. }
                 assert (RR' : exists s' r, load ls boot f false l en s1 = Done s' r /\ inv s' /\ ext s1 s' /\
                                 (forall k, l < k -> maps s' k = maps s1 k) /\
                                 match sem l b with None => r = None | Some d => exists c, r = Some c /\ good s' d en c end).
                 { unfold answers in RR. destruct b; [congruence|exact RR|exact RR]. }
                 destruct RR' as [s2 [r [G1 [I2 [X2 [M2 RR']]]]]]. rewrite G1. cbn [bindOut].
                 destruct (sem l b) as [d|] eqn:Sm.
                 --- destruct RR' as [e [Er [E1 [E2 [E3 E4]]]]]. rewrite Er. clear Er.
                     assert (DL : d = l) by (apply OWN; reflexivity).
                     rewrite DL in E3, E4, Sm.
                     assert (E4' : In (en, e) (maps s2 (c_loader (classAt s2 e)))) by (rewrite E3; exact E4).
                     destruct (finish_ok n en dims e b l s2 I2 A Bn ES Hb E1 E2 E3 (or_intror E4') Sm)
                       as [s3 [c [H1 [H2 [H3 [H4 H5]]]]]].
                     rewrite H1. cbn [bindOut].
                     destruct H5 as [_ [_ [_ H5]]].
                     destruct (KNOWN s3 c H2 H5) as [K1 [K2 [K3 [K4 [K5 [K6 K7]]]]]].
                     apply FIN; try assumption; [eapply ext_trans; eassumption|].
                     intros k K; rewrite H4, M2 by exact K; reflexivity.
                 --- subst r. cbn [bindOut]. apply NONE; try assumption. reflexivity.
           ++ assert (Bb : b = BAbort).
              { apply (based_det boot n); [exact Hb|]. apply b_abort; assumption. }
              subst b. reflexivity.
    + (* a class file *)
      assert (Bb : b = BName n) by (apply (based_det boot n); [exact Hb|apply b_plain; exact A]).
      subst b. unfold systemRead. destruct (files n) as [fname|] eqn:FI.
      * assert (fname = n) by (apply FN; exact FI). subst fname.
        assert (Sm : sem l (BName n) = Some l).
        { cbn. rewrite lineage_eq. cbn.
          assert (H : hasClass l n = true) by (unfold hasClass; rewrite LS, FI; reflexivity).
          destruct (parentOf ls l) as [p|] eqn:P.
          - specialize (R p eq_refl). cbn in R. rewrite R, H. reflexivity.
          - cbn. rewrite H. reflexivity. }
        destruct (boot n) as [c|] eqn:Bn.
        -- assert (S0 : sem 0 (BName n) = Some 0) by (eapply boot_sem; eassumption).
           assert (L0 : l = 0) by (symmetry; apply OWN; apply sem_root; exact S0).
           destruct (start_boot _ _ _ I1 Bn) as [C1 [C2 C3]].
           cbn [bindOut]. apply FIN; try assumption; try discriminate.
           ++ apply ext_refl.
           ++ reflexivity.
           ++ rewrite L0; exact C3.
           ++ intros c' H. exact (i_boot _ I1 _ _ _ _ H Bn).
           ++ intros e Q; congruence.
           ++ intros Q; congruence.
        -- cbn [bindOut].
           set (k := mkCls n l 0%N None).
           assert (CK : classAt (addClass s1 k) (length (classes s1)) = k) by apply add_last.
           apply FIN; try assumption; try discriminate.
           ++ apply add_inv; exact I1.
           ++ apply add_ext.
           ++ reflexivity.
           ++ cbn; rewrite app_length; cbn [length]; lia.
           ++ rewrite CK; reflexivity.
           ++ rewrite CK; reflexivity.
           ++ intros c' H. exfalso. cbn in H. rewrite (M1 l) in H by lia.
              exact (findIn_None _ _ c' FL H).
           ++ intros e Q; congruence.
      * cbn [bindOut]. apply NONE; try assumption; try discriminate; [apply ext_refl|reflexivity|].
        cbn. rewrite lineage_eq. cbn.
        assert (H : hasClass l n = false) by (unfold hasClass; rewrite LS, FI; reflexivity).
        destruct (parentOf ls l) as [p|] eqn:P.
        -- specialize (R p eq_refl). cbn in R. rewrite R, H. reflexivity.
        -- cbn. rewrite H. reflexivity.
Qed.

(** ** Histories *)
Definition start : st := mkSt s0 (fun _ => []).

Lemma start_inv : inv start.
Proof.
  constructor; cbn; try contradiction; try tauto.
  exists []; rewrite app_nil_r; reflexivity.
Qed.

Lemma resolve_ok : forall l n s b, inv s -> based boot n b -> answers s l n b (resolveClass ls boot l n s).
Proof. intros l n s b I Hb. unfold resolveClass. apply load_ok; [exact I| |exact Hb]. unfold enough. lia. Qed.

Lemma resolve_keeps : forall l n s s' r, inv s -> resolveClass ls boot l n s = Done s' r -> inv s' /\ ext s s'.
Proof.
  intros l n s s' r I E. destruct (based_total boot (S (measure n)) n ltac:(lia)) as [b Hb].
  pose proof (resolve_ok l n s b I Hb) as A. unfold answers in A. rewrite E in A.
  destruct b; [discriminate A| |]; destruct A as [s1 [r1 [E1 [I1 [X1 _]]]]]; inversion E1; subst; split; assumption.
Qed.

Lemma requests_keeps : forall rs s s', inv s -> requests ls boot rs s = Some s' -> inv s' /\ ext s s'.
Proof.
  induction rs as [|[l n] rs IH]; cbn [requests]; intros s s' I E.
  - inversion E; subst; split; [exact I|apply ext_refl].
  - destruct (resolveClass ls boot l n s) as [s1 r| |] eqn:R; try discriminate E.
    destruct (resolve_keeps _ _ _ _ _ I R) as [I1 X1]. destruct (IH _ _ I1 E) as [I2 X2].
    split; [exact I2|eapply ext_trans; eassumption].
Qed.

(** ** Names of types *)
Fixpoint depth (t : type) : nat :=
  match t with TClass _ => 0 | TPrims _ => 1 | TArrayOf t' => S (depth t') end.
Fixpoint core (t : type) : name :=
  match t with TClass n => chL :: n ++ [chSemi] | TPrims c => [c] | TArrayOf t' => core t' end.

Lemma descriptor_eq : forall t, descriptor t = repeat chBracket (depth t) ++ core t.
Proof. induction t as [n|c|t IH]; cbn; [reflexivity|reflexivity|rewrite IH; reflexivity]. Qed.

Lemma brackets_app : forall k r, nth 0 r chNul <> chBracket -> brackets (repeat chBracket k ++ r) = k.
Proof.
  induction k as [|k IH]; intros r H; cbn.
  - destruct r as [|c r]; [reflexivity|]. cbn in *. apply N.eqb_neq in H. rewrite H. reflexivity.
  - rewrite IH by exact H. reflexivity.
Qed.

Lemma nth_repeat_app : forall k (r : name) d, nth k (repeat chBracket k ++ r) d = nth 0 r d.
Proof. intros k r d. rewrite app_nth2; rewrite repeat_length; [rewrite Nat.sub_diag; reflexivity|lia]. Qed.

Lemma skipn_repeat_app : forall k j (r : name), skipn (k + j) (repeat chBracket k ++ r) = skipn j r.
Proof. induction k as [|k IH]; intros j r; [reflexivity|cbn; apply IH]. Qed.

Lemma scan_plain : forall n r, (forall c, In c n -> c <> 91%N /\ c <> 59%N /\ c <> 0%N) ->
  scanName (n ++ chSemi :: r) = length n.
Proof.
  induction n as [|c n IH]; intros r H; cbn; [reflexivity|].
  destruct (H c (or_introl eq_refl)) as [_ [H1 H2]].
  apply N.eqb_neq in H1, H2. unfold chNul, chSemi. rewrite H2, H1. cbn. f_equal. apply IH.
  intros x X; apply H; right; exact X.
Qed.

Lemma elementSpec_class : forall k n, plainName n ->
  elementSpec (repeat chBracket (S k) ++ chL :: n ++ [chSemi]) =
  Some (match k with 0 => n | _ => repeat chBracket k ++ chL :: n ++ [chSemi] end, S k).
Proof.
  intros k n [_ P]. unfold elementSpec.
  rewrite (brackets_app (S k) (chL :: n ++ [chSemi])) by (cbn; discriminate).
  rewrite <- app_assoc. rewrite (nth_repeat_app (S k)).
  change (nth 0 ((chL :: n ++ [chSemi]) ++ [chNul]) chNul =? chL)%N with true. cbv iota.
  replace (S (S k)) with (S k + 1) by lia.
  rewrite (skipn_repeat_app (S k) 1).
  change (skipn 1 (chL :: n ++ [chSemi])) with (n ++ [chSemi]).
  rewrite scan_plain by exact P.
  destruct (1 <? S k) eqn:G.
  - destruct k as [|k]; [discriminate G|].
    replace (S (S k) + 1 - S (S k)) with 1 by lia.
    replace (S (S (S k) + 1 + length n) - 1) with (length (repeat chBracket (S k) ++ chL :: n ++ [chSemi])).
    2:{ rewrite app_length, repeat_length. cbn [length]. rewrite app_length. cbn [length]. lia. }
    change (skipn 1 (repeat chBracket (S (S k)) ++ (chL :: n ++ [chSemi]) ++ [chNul]))
      with (repeat chBracket (S k) ++ (chL :: n ++ [chSemi]) ++ [chNul]).
    rewrite (app_assoc (repeat chBracket (S k))).
    rewrite firstn_app, Nat.sub_diag, firstn_all, firstn_O, app_nil_r. reflexivity.
  - destruct k as [|k]; [|discriminate G].
    change (skipn (1 + 1) (repeat chBracket 1 ++ (chL :: n ++ [chSemi]) ++ [chNul])) with ((n ++ [chSemi]) ++ [chNul]).
    replace (1 + 1 + length n - (1 + 1)) with (length n) by lia.
    rewrite <- app_assoc. rewrite firstn_app, Nat.sub_diag, firstn_all, firstn_O, app_nil_r. reflexivity.
Qed.

Lemma elementSpec_prims : forall k c, In c letters ->
  elementSpec (repeat chBracket (S (S k)) ++ [c]) = Some (repeat chBracket (S k) ++ [c], S k).
Proof.
  intros k c H. unfold elementSpec.
  assert (N1 : c <> chBracket /\ (c =? chL)%N = false).
  { unfold letters in H. cbn in H. repeat (destruct H as [H|H]; [subst c; split; [discriminate|reflexivity]|]). contradiction. }
  destruct N1 as [N1 N2].
  rewrite (brackets_app (S (S k)) [c]) by exact N1.
  rewrite <- app_assoc. rewrite (nth_repeat_app (S (S k))). change (nth 0 ([c] ++ [chNul]) chNul) with c. rewrite N2.
  replace (1 <? S (S k)) with true by (symmetry; apply Nat.ltb_lt; lia).
  replace (S (S k) - 1) with (S k) by lia. reflexivity.
Qed.

Lemma elementSpec_type : forall t, proper t ->
  elementSpec (typeName (TArrayOf t)) = Some (typeName t, match t with TClass _ => 1 | _ =>
     match baseClass t with Some _ => S (depth t) | None => depth t end end).
Proof.
  intros t P. cbn [typeName descriptor]. rewrite descriptor_eq.
  change (91%N :: repeat chBracket (depth t) ++ core t) with (repeat chBracket (S (depth t)) ++ core t).
  assert (Q : (exists n, core t = chL :: n ++ [chSemi] /\ plainName n /\ baseClass t = Some n) \/
              (exists c k, core t = [c] /\ In c letters /\ depth t = S k /\ baseClass t = None)).
  { clear -P. induction t as [n|c|t IH]; cbn in *.
    - left; exists n; split; [reflexivity|split; [exact P|reflexivity]].
    - right; exists c, 0; split; [reflexivity|split; [exact P|split; reflexivity]].
    - destruct (IH P) as [[n [A [B C]]]|[c [k [A [B [C D]]]]]]; [left; exists n; split; [exact A|split; assumption]|].
      right; exists c, (S k). split; [exact A|split; [exact B|split; [rewrite C; reflexivity|exact D]]]. }
  destruct Q as [[n [A [B C]]]|[c [k [A [B [D C]]]]]].
  - rewrite A, elementSpec_class by exact B. rewrite C.
    destruct t as [m|c|t]; cbn [depth typeName] in *.
    + cbn in A. inversion A as [A']. apply app_inj_tail in A'. destruct A' as [A' _]. subst m. reflexivity.
    + discriminate C.
    + rewrite descriptor_eq; cbn [depth core] in *; rewrite A; reflexivity.
  - rewrite A, D, elementSpec_prims by exact B. rewrite C.
    destruct t as [m|c'|t]; cbn [depth typeName] in *.
    + discriminate D.
    + injection D as <-. cbn in A. inversion A; subst c'. reflexivity.
    + rewrite descriptor_eq. cbn [depth core] in *. rewrite A, D. reflexivity.
Qed.

Lemma typeName_array : forall t, proper t -> isArrayName (typeName t) = match t with TClass _ => false | _ => true end.
Proof.
  intros [n|c|t] P; [|reflexivity|reflexivity].
  cbn [typeName]. destruct P as [NE H]. destruct n as [|c n]; [congruence|].
  unfold isArrayName; cbn. destruct (H c (or_introl eq_refl)) as [H1 _]. apply N.eqb_neq; exact H1.
Qed.

Lemma arrayNameOf_type : forall t, proper t -> arrayNameOf (typeName t) = typeName (TArrayOf t).
Proof.
  intros t P. unfold arrayNameOf. rewrite (typeName_array t P). destruct t; reflexivity.
Qed.

Lemma descriptor_inj : forall t t', proper t -> proper t' -> descriptor t = descriptor t' -> t = t'.
Proof.
  induction t as [n|c|t IH]; intros [n'|c'|t'] P P' E; cbn in E; try discriminate E.
  - injection E as E. apply app_inj_tail in E. destruct E; congruence.
  - congruence.
  - exfalso. injection E as E. destruct t' as [x|x|x]; cbn in E; try discriminate E.
    all: injection E as E1 E2; subst c; unfold proper, letters in P; cbn in P;
      repeat (destruct P as [P|P]; [discriminate P|]); contradiction.
  - exfalso. injection E as E. destruct t as [x|x|x]; cbn in E; try discriminate E.
    all: injection E as E1 E2; subst c'; unfold proper, letters in P'; cbn in P';
      repeat (destruct P' as [P'|P']; [discriminate P'|]); contradiction.
  - injection E as E. f_equal. apply IH; assumption.
Qed.

Lemma typeName_inj : forall t t', proper t -> proper t' -> typeName t = typeName t' -> t = t'.
Proof.
  intros t t' P P' E.
  pose proof (typeName_array t P) as A. pose proof (typeName_array t' P') as A'. rewrite E in A. rewrite A' in A.
  destruct t, t'; try discriminate A; try (cbn in E; congruence); apply descriptor_inj; assumption.
Qed.

(** The array classes the VM starts with are those of the primitive types *)
Definition bootArrays : Prop :=
  forall n, isArrayName n = true -> (boot n <> None <-> exists c, In c letters /\ n = [chBracket; c]).

Hypothesis BA : bootArrays.

Lemma boot_array_none : forall t, proper t -> boot (typeName (TArrayOf t)) = None.
Proof.
  intros t P. destruct (boot (typeName (TArrayOf t))) as [e|] eqn:B; [|reflexivity]. exfalso.
  destruct (proj1 (BA (typeName (TArrayOf t)) eq_refl)) as [c [L E]]; [congruence|].
  cbn [typeName descriptor] in E. injection E as E.
  destruct t as [n|x|t]; cbn in E.
  - injection E as E1 E2. apply app_eq_nil in E2. destruct E2; discriminate.
  - discriminate E.
  - injection E as E1 E2. subst c. unfold letters in L; cbn in L.
    repeat (destruct L as [L|L]; [discriminate L|]); contradiction.
Qed.

Lemma type_based : forall t, proper t -> exists b, based boot (typeName t) b /\ b <> BAbort /\
  forall l, sem l b = definerOf hasClass 0 (lineage l) t.
Proof.
  induction t as [n|c|t IH]; intro P.
  - exists (BName n). split; [apply b_plain; exact (typeName_array (TClass n) P)|]. split; [discriminate|reflexivity].
  - destruct (boot (typeName (TPrims c))) as [e|] eqn:B.
    + exists BRoot. split; [eapply b_boot; [reflexivity|exact B]|]. split; [discriminate|reflexivity].
    + exfalso. apply (proj2 (BA (typeName (TPrims c)) eq_refl)); [|exact B]. exists c; split; [exact P|reflexivity].
  - destruct (IH P) as [b [Hb [NB S]]].
    pose proof (elementSpec_type t P) as E. pose proof (boot_array_none t P) as B0.
    destruct (boot (typeName t)) as [e|] eqn:Bt.
    + exists BRoot. split; [eapply b_elemBoot; try eassumption; reflexivity|]. split; [discriminate|].
      intro l. cbn [sem]. change (definerOf hasClass 0 (lineage l) (TArrayOf t)) with (definerOf hasClass 0 (lineage l) t).
      rewrite <- S. symmetry. apply sem_root. eapply boot_sem; eassumption.
    + exists b. split; [eapply b_elem; try eassumption; reflexivity|]. split; [exact NB|]. exact S.
Qed.

Lemma type_answer : forall l t s, proper t -> inv s ->
  exists s' r, resolveClass ls boot l (typeName t) s = Done s' r /\ inv s' /\ ext s s' /\
    match definerOf hasClass 0 (lineage l) t with
    | None => r = None
    | Some d => exists c, r = Some c /\ good s' d (typeName t) c
    end.
Proof.
  intros l t s P I. destruct (type_based t P) as [b [Hb [NB S]]].
  pose proof (resolve_ok l _ s b I Hb) as A. unfold answers in A.
  assert (A' : exists s' r, resolveClass ls boot l (typeName t) s = Done s' r /\ inv s' /\ ext s s' /\
     match sem l b with None => r = None | Some d => exists c, r = Some c /\ good s' d (typeName t) c end).
  { destruct b; [congruence| |]; destruct A as [s' [r [A1 [A2 [A3 [_ A4]]]]]]; exists s', r; repeat (split; [assumption|]); exact A4. }
  rewrite S in A'. exact A'.
Qed.

Lemma good_one : forall s d n c c', inv s -> good s d n c -> good s d n c' -> c = c'.
Proof. intros s d n c c' I [_ [_ [_ H]]] [_ [_ [_ H']]]. exact (i_one _ I _ _ _ _ H H'). Qed.

Lemma good_elem : forall s d t c, proper t -> inv s -> good s d (typeName (TArrayOf t)) c ->
  exists e, c_elem (classAt s c) = Some e /\ forall e', good s d (typeName t) e' -> e' = e.
Proof.
  intros s d t c P I [G1 [G2 [G3 G4]]].
  destruct (i_array _ I _ _ _ G4 eq_refl (boot_array_none t P)) as [en [dims [e [E1 [E2 [E3 [E4 [E5 [E6 E7]]]]]]]]].
  rewrite (elementSpec_type t P) in E1. injection E1 as E1 _. subst en.
  exists e. split; [exact E2|]. intros e' [H1 [H2 [H3 H4]]].
  destruct E7 as [E7|E7].
  - exact (i_boot _ I _ _ _ _ H4 E7).
  - rewrite E6, G3 in E7. exact (i_one _ I _ _ _ _ H4 E7).
Qed.

Lemma sem_idem : forall l b d, sem l b = Some d -> sem d b = Some d.
Proof.
  intro l. induction l as [l IH] using (well_founded_induction lt_wf). intros b d E.
  destruct (parentOf ls l) as [p|] eqn:Pa.
  - destruct (sem p b) as [d'|] eqn:S'.
    + pose proof (sem_parent _ _ _ _ Pa S'). assert (d' = d) by congruence. subst d'.
      apply (IH p); [apply parent_lt; exact Pa|exact S'].
    + assert (d = l) by (apply (sem_own l b d); [intros q Q; congruence|exact E]). subst d; exact E.
  - assert (d = l) by (apply (sem_own l b d); [intros q Q; congruence|exact E]). subst d; exact E.
Qed.

Lemma definer_idem : forall l t d, proper t -> definerOf hasClass 0 (lineage l) t = Some d ->
  definerOf hasClass 0 (lineage d) t = Some d.
Proof.
  intros l t d P E. destruct (type_based t P) as [b [_ [_ S]]]. rewrite <- S in *. eapply sem_idem; exact E.
Qed.
End Sys.
