(** What parseMethodTable computes, in closed form. *)
From Verif Require Import Base Hier_Model Hier_Spec.

Definition vt (c : cls) : list meth := match vtable c with Some v => v | None => [] end.
Lemma find_vtable_eq : forall w i c, nth_error w i = Some c -> find_vtable w i = vt c.
Proof. intros w i c H. unfold find_vtable. rewrite H. reflexivity. Qed.
Definition dup (x : meth) : nat * (meth * meth) := (sig x, (x, x)).
(** Sorted by offset. *)
Definition indexed (v : list meth) : Prop := forall k m, nth_error v k = Some m -> offset m = k.

Lemma findNode_app : forall a b s, findNode (a ++ b) s = match findNode a s with Some x => Some x | None => findNode b s end.
Proof. intros a b s. unfold findNode. rewrite find_app'. destruct (find _ a); reflexivity. Qed.
Lemma findNode_none : forall m s, ~ In s (map fst m) -> findNode m s = None.
Proof.
  intros m s H. unfold findNode. destruct (find _ m) as [p|] eqn:E; [|reflexivity]. apply find_some in E. destruct E as [E1 E2].
  apply Nat.eqb_eq in E2. exfalso. apply H. rewrite <- E2. apply in_map. exact E1.
Qed.
Lemma findNode_in : forall m s x, NoDup (map fst m) -> In (s, x) m -> findNode m s = Some x.
Proof.
  induction m as [|[k y] m IH]; intros s x N H; [destruct H|]. cbn in N. inversion N; subst. unfold findNode in *. cbn [find fst].
  destruct H as [E | H]; [inversion E; subst; rewrite Nat.eqb_refl; reflexivity|].
  destruct (Nat.eqb_spec k s) as [-> | _]; [|apply IH; auto]. exfalso. apply H2. apply in_map_iff. exists (s, x). auto.
Qed.
Lemma findNode_some : forall m s x, findNode m s = Some x -> In (s, x) m.
Proof.
  intros m s x H. unfold findNode in H. destruct (find _ m) as [[k y]|] eqn:E; [|discriminate]. apply find_some in E. destruct E as [E1 E2]. apply Nat.eqb_eq in E2. cbn in *. inversion H; subst. exact E1.
Qed.
Lemma findNode_iff : forall m s, In s (map fst m) <-> findNode m s <> None.
Proof.
  intros m s. split.
  - intros H. unfold findNode. destruct (find _ m) as [p|] eqn:E; [discriminate|]. apply in_map_iff in H. destruct H as [p [E1 E2]]. pose proof (find_none _ _ E _ E2) as X. cbn in X. rewrite E1, Nat.eqb_refl in X. discriminate.
  - intros H. destruct (findNode m s) as [x|] eqn:E; [|congruence]. apply findNode_some in E. apply in_map_iff. exists (s, x). auto.
Qed.

Lemma nodup_l : forall {A} (l l' : list A), NoDup (l ++ l') -> NoDup l.
Proof. intros A l l' H. induction l as [|x l IH]; [constructor|]. cbn in H. inversion H; subst. constructor; [intros X; apply H2; apply in_or_app; left; exact X | auto]. Qed.
(** ** The declared methods *)
Section Declared.
Variables (self : nat) (SV : list meth).
Hypothesis SVn : NoDup (map sig SV).
Hypothesis SVi : indexed SV.
Definition vsigs (l : list mdecl) : list nat := map dsig (filter virtual l).
Definition has (l : list mdecl) (s : nat) : bool := existsb (Nat.eqb s) (vsigs l).
Lemma has_in : forall l s, has l s = true <-> In s (vsigs l).
Proof. intros l s. unfold has. rewrite existsb_exists. split; [intros [x [H E]]; apply Nat.eqb_eq in E; subst; exact H | intros H; exists s; split; [exact H | apply Nat.eqb_refl]]. Qed.
(** The table entry of the superclass, overridden if [l] declares it. *)
Definition ov (l : list mdecl) (x : meth) : meth := if has l (sig x) then Met (sig x) self (offset x) self true else x.
Definition inSV (s : nat) : bool := existsb (Nat.eqb s) (map sig SV).
Lemma inSV_in : forall s, inSV s = true <-> In s (map sig SV).
Proof. intros s. unfold inSV. rewrite existsb_exists. split; [intros [x [H E]]; apply Nat.eqb_eq in E; subst; exact H | intros H; exists s; split; [exact H | apply Nat.eqb_refl]]. Qed.

Record declared (l : list mdecl) (st : pstate) : Prop := {
  d_vm : vm st = map (fun x => (sig x, (x, ov l x))) SV ++ map dup (news st);
  d_count : vcount st = length SV + length (news st);
  d_news : map sig (news st) = filter (fun s => negb (inSV s)) (vsigs l);
  d_own : forall k x, nth_error (news st) k = Some x -> mclass x = self /\ origin x = self /\ mvirtual x = true /\ offset x = length SV + k;
  d_tab : forall x, In x (mtab st) -> mvirtual x = true -> In (sig x) (vsigs l) /\ (In x (map (ov l) SV) \/ In x (news st));
  d_mclass : forall x, In x (mtab st) -> mclass x = self;
  d_all : forall s, In s (vsigs l) -> exists x, In x (mtab st) /\ sig x = s /\ mvirtual x = true;
  d_plain : forall x, In x (mtab st) -> mvirtual x = true \/ In (Dec (sig x) false) l }.

Lemma start_declared : declared [] (PS (fold_left insert SV []) (length SV) [] []).
Proof.
  constructor; cbn; try tauto; try lia.
  - assert (H : forall l m, fold_left insert l m = m ++ map dup l).
    { induction l as [|x l IH]; intros m; cbn; [rewrite app_nil_r; reflexivity|]. rewrite IH. unfold insert. rewrite <- app_assoc. reflexivity. }
    rewrite H, app_nil_r. cbn. apply map_ext. reflexivity.
  - intros [|k] x H; discriminate.
Qed.

Lemma vsigs_app : forall l d, vsigs (l ++ [d]) = vsigs l ++ (if virtual d then [dsig d] else []).
Proof. intros l d. unfold vsigs. rewrite filter_app, map_app. cbn. destruct (virtual d); reflexivity. Qed.
Lemma has_app : forall l d s, has (l ++ [d]) s = has l s || (virtual d && Nat.eqb s (dsig d)).
Proof. intros. unfold has. rewrite vsigs_app, existsb_app. destruct (virtual d); cbn; rewrite ?orb_false_r; reflexivity. Qed.
Lemma setSecond_map : forall (f : meth -> meth) l s y b, NoDup (map sig l) -> In s (map sig l) ->
  setSecond (map (fun x => (sig x, (x, f x))) l ++ b) s y = map (fun x => (sig x, (x, if Nat.eqb (sig x) s then y else f x))) l ++ b.
Proof.
  induction l as [|x l IH]; intros s y b N H; [destruct H|]. cbn in N. inversion N; subst. cbn [map app setSecond]. destruct (Nat.eqb_spec (sig x) s) as [E | E].
  - f_equal. f_equal. apply map_ext_in. intros z Hz. destruct (Nat.eqb_spec (sig z) s) as [E' | _]; [|reflexivity]. exfalso. apply H2. rewrite E, <- E'. apply in_map. exact Hz.
  - f_equal. apply IH; [assumption|]. destruct H as [H | H]; [congruence | exact H].
Qed.
Lemma find_super : forall f l s, NoDup (map sig l) -> In s (map sig l) -> exists x, In x l /\ sig x = s /\ findNode (map (fun x => (sig x, (x, f x))) l) s = Some (x, f x).
Proof.
  intros f l s N H. apply in_map_iff in H. destruct H as [x [E H]]. exists x. split; [exact H|]. split; [exact E|]. apply findNode_in.
  - rewrite map_map. cbn. exact N.
  - apply in_map_iff. exists x. rewrite <- E. auto.
Qed.

Lemma declare_step : forall l d st, declared l st -> NoDup (vsigs (l ++ [d])) -> declared (l ++ [d]) (declare self st d).
Proof.
  intros l d st [D1 D2 D3 D4 D5 D6 D7 D8] N.
  assert (PL : forall x, mvirtual x = true \/ In (Dec (sig x) false) [d] -> forall y, In y (mtab st ++ [x]) -> mvirtual y = true \/ In (Dec (sig y) false) (l ++ [d])).
  { intros x Hx y Hy. apply in_app_or in Hy. destruct Hy as [Hy | [<- | []]].
    - destruct (D8 y Hy) as [Y | Y]; [left; exact Y | right; apply in_or_app; left; exact Y].
    - destruct Hx as [X | X]; [left; exact X | right; apply in_or_app; right; exact X]. }
  assert (MC : forall x, mclass x = self -> forall y, In y (mtab st ++ [x]) -> mclass y = self).
  { intros x Hx y Hy. apply in_app_or in Hy. destruct Hy as [Hy | [<- | []]]; auto. }
  assert (AL : forall x, sig x = dsig d -> mvirtual x = virtual d -> forall s, In s (vsigs (l ++ [d])) -> exists y, In y (mtab st ++ [x]) /\ sig y = s /\ mvirtual y = true).
  { intros x Hx Hv s Hs. rewrite vsigs_app in Hs. apply in_app_or in Hs. destruct Hs as [Hs | Hs].
    - destruct (D7 s Hs) as [y [Y1 Y2]]. exists y. split; [apply in_or_app; left; exact Y1 | exact Y2].
    - destruct (virtual d); [|destruct Hs]. destruct Hs as [<- | []]. exists x. split; [apply in_or_app; right; left; reflexivity | auto]. }
  unfold declare. rewrite vsigs_app in N. destruct (virtual d) eqn:Vd.
  - assert (Nl : ~ In (dsig d) (vsigs l)). { apply NoDup_remove_2 in N. rewrite app_nil_r in N. exact N. }
    assert (Hl : has l (dsig d) = false). { destruct (has l (dsig d)) eqn:E; [|reflexivity]. apply has_in in E. tauto. }
    assert (Nn : ~ In (dsig d) (map sig (news st))). { rewrite D3. intros H. apply filter_In in H. tauto. }
    rewrite D1, findNode_app. destruct (inSV (dsig d)) eqn:S.
    + pose proof S as S'. apply inSV_in in S'. destruct (find_super (ov l) SV (dsig d) SVn S') as [x [X1 [X2 X3]]]. rewrite X3.
      assert (OV : forall z, In z SV -> (if Nat.eqb (sig z) (dsig d) then Met (dsig d) self (offset x) self true else ov l z) = ov (l ++ [d]) z).
      { intros z Hz. unfold ov. rewrite has_app, Vd. cbn [andb]. destruct (Nat.eqb_spec (sig z) (dsig d)) as [E | E].
        - rewrite E, orb_true_r. assert (z = x) as ->; [|reflexivity]. clear - SVn Hz X1 X2 E. apply In_nth_error in Hz, X1. destruct Hz as [a Ha], X1 as [b Hb].
          assert (a = b); [|congruence]. apply (proj1 (NoDup_nth_error _) SVn). rewrite map_length. apply nth_error_Some. congruence. rewrite !nth_error_map, Ha, Hb. cbn. congruence.
        - rewrite orb_false_r. reflexivity. }
      constructor; cbn [vm vcount news mtab].
      * rewrite setSecond_map by assumption. f_equal. apply map_ext_in. intros z Hz. rewrite OV by exact Hz. reflexivity.
      * exact D2.
      * rewrite vsigs_app, Vd, filter_app. cbn. rewrite S. cbn. rewrite app_nil_r. exact D3.
      * exact D4.
      * intros z Hz Vz. rewrite vsigs_app, Vd. apply in_app_or in Hz. destruct Hz as [Hz | [Hz | []]].
        -- destruct (D5 z Hz Vz) as [A [B | B]]; (split; [apply in_or_app; left; exact A|]); [left | right; exact B].
           apply in_map_iff in B. destruct B as [u [B1 B2]]. apply in_map_iff. exists u. split; [|exact B2]. rewrite <- B1. unfold ov. rewrite has_app, Vd. cbn [andb].
           destruct (Nat.eqb_spec (sig u) (dsig d)) as [E | E]; [|rewrite orb_false_r; reflexivity]. exfalso. apply Nl. rewrite <- E. rewrite <- B1 in A. unfold ov in A. destruct (has l (sig u)); exact A.
        -- subst z. cbn [sig]. split; [apply in_or_app; right; left; reflexivity|]. left. apply in_map_iff. exists x. split; [|exact X1]. rewrite <- OV by exact X1. rewrite X2, Nat.eqb_refl. reflexivity.
      * apply MC. reflexivity.
      * apply AL; cbn; auto.
      * apply PL. left. reflexivity.
    + assert (S' : ~ In (dsig d) (map sig SV)) by (intros H; apply inSV_in in H; congruence).
      rewrite findNode_none by (rewrite map_map; exact S'). rewrite findNode_none by (rewrite map_map; exact Nn).
      assert (OV : forall z, In z SV -> ov (l ++ [d]) z = ov l z).
      { intros z Hz. unfold ov. rewrite has_app, Vd. cbn [andb]. destruct (Nat.eqb_spec (sig z) (dsig d)) as [E | E]; [|rewrite orb_false_r; reflexivity]. exfalso. apply S'. rewrite <- E. apply in_map. exact Hz. }
      constructor; cbn [vm vcount news mtab].
      * unfold insert. cbn [sig]. rewrite map_app, <- app_assoc. f_equal. apply map_ext_in. intros z Hz. rewrite OV by exact Hz. reflexivity.
      * rewrite app_length, D2. cbn. lia.
      * rewrite vsigs_app, Vd, filter_app, map_app, D3. cbn. rewrite S. reflexivity.
      * intros k z Hz. destruct (Nat.lt_ge_cases k (length (news st))).
        -- rewrite nth_error_app1 in Hz by assumption. apply D4. exact Hz.
        -- rewrite nth_error_app2 in Hz by assumption. destruct (k - length (news st)) as [|j] eqn:Ek; cbn in Hz; [|destruct j; discriminate]. inversion Hz; subst z. cbn. repeat split. lia.
      * intros z Hz Vz. rewrite vsigs_app, Vd. apply in_app_or in Hz. destruct Hz as [Hz | [Hz | []]].
        -- destruct (D5 z Hz Vz) as [A [B | B]]; (split; [apply in_or_app; left; exact A|]); [left | right; apply in_or_app; left; exact B].
           apply in_map_iff in B. destruct B as [u [B1 B2]]. apply in_map_iff. exists u. split; [|exact B2]. rewrite OV by exact B2. exact B1.
        -- subst z. cbn [sig]. split; [apply in_or_app; right; left; reflexivity|]. right. apply in_or_app. right. left. reflexivity.
      * apply MC. reflexivity.
      * apply AL; cbn; auto.
      * apply PL. left. reflexivity.
  - assert (OV : forall z, ov (l ++ [d]) z = ov l z) by (intros z; unfold ov; rewrite has_app, Vd, orb_false_r; reflexivity).
    constructor; cbn [vm vcount news mtab]; try assumption.
    * rewrite D1. f_equal. apply map_ext. intros z. rewrite OV. reflexivity.
    * rewrite vsigs_app, Vd, app_nil_r. exact D3.
    * intros z Hz Vz. rewrite vsigs_app, Vd, app_nil_r. apply in_app_or in Hz. destruct Hz as [Hz | [Hz | []]]; [|subst z; discriminate].
      destruct (D5 z Hz Vz) as [A [B | B]]; (split; [exact A|]); [left | right; exact B]. rewrite (map_ext _ _ OV). exact B.
    * apply MC. reflexivity.
    * apply AL; cbn; auto.
    * apply PL. right. left. cbn. destruct d as [a b]; cbn in *; subst b; reflexivity.
Qed.
Lemma declare_all : forall l, NoDup (vsigs l) -> declared l (fold_left (declare self) l (PS (fold_left insert SV []) (length SV) [] [])).
Proof.
  intros l. induction l as [|d l IH] using rev_ind; intros N; [exact start_declared|]. rewrite fold_left_app. cbn [fold_left]. apply declare_step; [|exact N]. apply IH.
  rewrite vsigs_app in N. apply nodup_l in N. exact N.
Qed.
End Declared.

(** ** The inherited interface methods *)
Record added (w : world) (self : nat) (xs : list meth) (m0 m : vmap) (n0 n : nat) (abs : list meth) : Prop := {
  a_vm : m = m0 ++ map dup abs;
  a_count : n = n0 + length abs;
  a_nodup : NoDup (map sig abs);
  a_new : forall y, In y abs -> ~ In (sig y) (map fst m0);
  a_own : forall k y, nth_error abs k = Some y -> offset y = n0 + k /\ mclass y = self /\ exists x, In x xs /\ sig x = sig y /\ origin x = origin y /\ mvirtual x = mvirtual y;
  a_all : forall x, In x xs -> In (sig x) (map fst m) }.
Lemma added_step : forall w self xs m0 m n0 n abs x, added w self xs m0 m n0 n abs ->
  let '(m', n', abs') := addAbstract self (m, n, abs) x in added w self (xs ++ [x]) m0 m' n0 n' abs'.
Proof.
  intros w self xs m0 m n0 n abs x [A1 A2 A3 A4 A5 A6]. unfold addAbstract. destruct (findNode m (sig x)) as [p|] eqn:E.
  - constructor; auto.
    + intros k y H. destruct (A5 k y H) as [B1 [B2 [z [B3 B4]]]]. repeat split; auto. exists z. split; [apply in_or_app; left; exact B3 | exact B4].
    + intros z Hz. apply in_app_or in Hz. destruct Hz as [Hz | [<- | []]]; [auto|]. apply findNode_iff. congruence.
  - assert (N : ~ In (sig x) (map fst m)) by (intros H; apply findNode_iff in H; congruence).
    assert (N0 : ~ In (sig x) (map fst m0)) by (intros H; apply N; rewrite A1, map_app; apply in_or_app; left; exact H).
    assert (Na : ~ In (sig x) (map sig abs)). { intros H. apply N. rewrite A1, map_app, map_map. apply in_or_app. right. exact H. }
    constructor.
    + rewrite A1. unfold insert. cbn [sig]. rewrite map_app, <- app_assoc. reflexivity.
    + rewrite app_length. cbn. lia.
    + rewrite map_app. cbn. apply (Permutation_NoDup (l := sig x :: map sig abs)); [apply Permutation_cons_append | constructor; assumption].
    + intros y Hy. apply in_app_or in Hy. destruct Hy as [Hy | [<- | []]]; [auto | exact N0].
    + intros k y H. destruct (Nat.lt_ge_cases k (length abs)).
      * rewrite nth_error_app1 in H by assumption. destruct (A5 k y H) as [B1 [B2 [z [B3 B4]]]]. repeat split; auto. exists z. split; [apply in_or_app; left; exact B3 | exact B4].
      * rewrite nth_error_app2 in H by assumption. destruct (k - length abs) as [|j] eqn:Ek; cbn in H; [|destruct j; discriminate]. inversion H; subst y. cbn. repeat split; [lia|].
        exists x. split; [apply in_or_app; right; left; reflexivity | auto].
    + intros z Hz. unfold insert. rewrite map_app. apply in_app_or in Hz. apply in_or_app. destruct Hz as [Hz | [<- | []]]; [left; auto | right; left; reflexivity].
Qed.

Lemma added_list : forall w self ys xs m0 m n0 n abs, added w self xs m0 m n0 n abs ->
  let '(m', n', abs') := fold_left (addAbstract self) ys (m, n, abs) in added w self (xs ++ ys) m0 m' n0 n' abs'.
Proof.
  intros w self ys. induction ys as [|y ys IH]; intros xs m0 m n0 n abs A; cbn [fold_left]; [rewrite app_nil_r; exact A|].
  pose proof (added_step _ _ _ _ _ _ _ _ y A) as B. destruct (addAbstract self (m, n, abs) y) as [[m1 n1] abs1].
  specialize (IH _ _ _ _ _ _ B). rewrite <- app_assoc in IH. exact IH.
Qed.
Lemma added_all : forall w self is m0 n0,
  let '(m, n, abs) := addInterfaceMethods w self is (m0, n0, []) in added w self (concat (map (find_vtable w) is)) m0 m n0 n abs.
Proof.
  intros w self is m0 n0. unfold addInterfaceMethods.
  assert (H : forall js xs m n abs, added w self xs m0 m n0 n abs ->
    let '(m', n', abs') := fold_left (fun st i => fold_left (addAbstract self) (find_vtable w i) st) js (m, n, abs) in added w self (xs ++ concat (map (find_vtable w) js)) m0 m' n0 n' abs').
  { induction js as [|i js IH]; intros xs m n abs A; cbn [fold_left map concat]; [rewrite app_nil_r; exact A|].
    pose proof (added_list w self (find_vtable w i) _ _ _ _ _ _ A) as B. destruct (fold_left (addAbstract self) (find_vtable w i) (m, n, abs)) as [[m1 n1] abs1].
    specialize (IH _ _ _ _ B). rewrite <- app_assoc in IH. exact IH. }
  apply (H is []). constructor; cbn; try tauto; try lia.
  - rewrite app_nil_r. reflexivity.
  - constructor.
  - intros [|k] y E; discriminate.
Qed.

(** ** Arrays and lookups *)
Lemma sequence_map : forall {A B} (f : A -> option B) (g : A -> B) l, (forall x, In x l -> f x = Some (g x)) -> sequence (map f l) = Some (map g l).
Proof.
  intros A B f g l. induction l as [|x l IH]; intros H; [reflexivity|]. cbn. rewrite H by (left; reflexivity). rewrite IH by (intros; apply H; right; assumption). reflexivity.
Qed.
Lemma map_nth_seq : forall {A} (l : list A) (f : nat -> option A), (forall k x, nth_error l k = Some x -> f k = Some x) -> sequence (map f (seq 0 (length l))) = Some l.
Proof.
  intros A l f H. assert (K : forall l s, (forall k x, nth_error l k = Some x -> f (s + k) = Some x) -> sequence (map f (seq s (length l))) = Some l).
  { clear. induction l as [|x l IH]; intros s H; [reflexivity|]. cbn [length seq map sequence]. pose proof (H 0 x eq_refl) as H0. rewrite Nat.add_0_r in H0. rewrite H0.
    cbn. rewrite IH; [reflexivity|]. intros k y E. replace (S s + k) with (s + S k) by lia. apply H. exact E. }
  apply (K l 0). exact H.
Qed.

(** The final table: overridden, new and interface methods. *)
Section Final.
Variables (w : world) (self : nat) (SV : list meth) (d : cdef) (is : list nat).
Hypothesis SVn : NoDup (map sig SV).
Hypothesis SVi : indexed SV.
Hypothesis Nd : NoDup (vsigs (decls d)).
Variables (st : pstate) (m : vmap) (n : nat) (abs : list meth).
Hypothesis D : declared self SV (decls d) st.
Hypothesis A : added w self (concat (map (find_vtable w) is)) (vm st) m (vcount st) n abs.
Definition V' : list meth := map (ov self (decls d)) SV ++ news st ++ abs.

Lemma ov_sig : forall l x, sig (ov self l x) = sig x.
Proof. intros. unfold ov. destruct (has l (sig x)); reflexivity. Qed.
Lemma ov_offset : forall l x, offset (ov self l x) = offset x.
Proof. intros. unfold ov. destruct (has l (sig x)); reflexivity. Qed.
Lemma m_eq : m = map (fun x => (sig x, (x, ov self (decls d) x))) SV ++ map dup (news st) ++ map dup abs.
Proof. rewrite (a_vm _ _ _ _ _ _ _ _ A), (d_vm _ _ _ _ D), <- app_assoc. reflexivity. Qed.
Lemma keys : map fst m = map sig V'.
Proof. rewrite m_eq. unfold V'. rewrite !map_app, !map_map. cbn. f_equal. apply map_ext. intros. symmetry. apply ov_sig. Qed.
Lemma V_length : length V' = n.
Proof. unfold V'. rewrite !app_length, map_length, (a_count _ _ _ _ _ _ _ _ A), (d_count _ _ _ _ D). lia. Qed.
Lemma nodup_filter : forall {B} (f : B -> bool) l, NoDup l -> NoDup (filter f l).
Proof. intros. apply NoDup_filter. assumption. Qed.
Lemma V_nodup : NoDup (map sig V').
Proof.
  unfold V'. rewrite !map_app, map_map. rewrite (map_ext _ sig) by (intros; apply ov_sig).
  assert (NN : forall (l l' : list nat), NoDup l -> NoDup l' -> (forall x, In x l -> ~ In x l') -> NoDup (l ++ l')).
  { clear. induction l as [|x l IH]; intros l' H H' X; [exact H'|]. cbn. inversion H; subst. constructor.
    - intros Y. apply in_app_or in Y. destruct Y as [Y | Y]; [tauto | exact (X x (or_introl eq_refl) Y)].
    - apply IH; auto. intros y Hy. apply X. right. exact Hy. }
  assert (K0 : forall s, In s (map sig SV) \/ In s (map sig (news st)) -> In s (map fst (vm st))).
  { intros s H. rewrite (d_vm _ _ _ _ D), map_app, !map_map. apply in_or_app. exact H. }
  apply NN; [exact SVn | | ].
  - apply NN; [|exact (a_nodup _ _ _ _ _ _ _ _ A)|].
    + rewrite (d_news _ _ _ _ D). apply nodup_filter. exact Nd.
    + intros s Hs Ha. apply in_map_iff in Ha. destruct Ha as [y [<- Ha]]. exact (a_new _ _ _ _ _ _ _ _ A y Ha (K0 _ (or_intror Hs))).
  - intros s Hs Ha. apply in_app_or in Ha. destruct Ha as [Ha | Ha].
    + rewrite (d_news _ _ _ _ D) in Ha. apply filter_In in Ha. destruct Ha as [_ Ha]. apply (inSV_in SV) in Hs. rewrite Hs in Ha. discriminate.
    + apply in_map_iff in Ha. destruct Ha as [y [<- Ha]]. exact (a_new _ _ _ _ _ _ _ _ A y Ha (K0 _ (or_introl Hs))).
Qed.
Lemma V_indexed : indexed V'.
Proof.
  intros k x H. unfold V' in H. destruct (Nat.lt_ge_cases k (length SV)) as [L | L].
  - rewrite nth_error_app1 in H by (rewrite map_length; exact L). rewrite nth_error_map in H. destruct (nth_error SV k) as [y|] eqn:E; [|discriminate]. inversion H. rewrite ov_offset. apply SVi. exact E.
  - rewrite nth_error_app2 in H by (rewrite map_length; exact L). rewrite map_length in H. destruct (Nat.lt_ge_cases (k - length SV) (length (news st))) as [L' | L'].
    + rewrite nth_error_app1 in H by exact L'. destruct (d_own _ _ _ _ D _ _ H) as [_ [_ [_ E]]]. lia.
    + rewrite nth_error_app2 in H by exact L'. destruct (a_own _ _ _ _ _ _ _ _ A _ _ H) as [E _]. rewrite (d_count _ _ _ _ D) in E. lia.
Qed.
Lemma find_second : forall s, In s (map sig V') -> exists y, option_map snd (findNode m s) = Some y /\ In y V' /\ sig y = s.
Proof.
  intros s H. rewrite <- keys in H. apply findNode_iff in H. destruct (findNode m s) as [[a b]|] eqn:E; [|congruence]. exists b. split; [reflexivity|]. apply findNode_some in E.
  rewrite m_eq in E. unfold V'. apply in_app_or in E. destruct E as [E | E].
  - apply in_map_iff in E. destruct E as [x [E X]]. inversion E; subst. split; [apply in_or_app; left; apply in_map; exact X | apply ov_sig].
  - apply in_app_or in E. destruct E as [E | E]; apply in_map_iff in E; destruct E as [x [E X]]; inversion E; subst; (split; [apply in_or_app; right; apply in_or_app; tauto | reflexivity]).
Qed.
Lemma values_ok : forall l, (forall x, In x l -> In (sig x) (map sig V')) -> exists r, values m l = Some r /\ Forall2 (fun x y => sig x = sig y /\ In y V') l r.
Proof.
  intros l. unfold values. induction l as [|x l IH]; intros H; [exists []; split; [reflexivity | constructor]|].
  destruct (find_second (sig x)) as [y [E [Y1 Y2]]]; [apply H; left; reflexivity|]. destruct IH as [r [E' F]]; [intros; apply H; right; assumption|].
  cbn [map sequence]. rewrite E, E'. exists (y :: r). split; [reflexivity|]. constructor; auto.
Qed.
Lemma values_super : values m SV = Some (map (ov self (decls d)) SV).
Proof.
  unfold values. apply sequence_map. intros x Hx. assert (NK : NoDup (map fst m)) by (rewrite keys; exact V_nodup).
  rewrite (findNode_in m (sig x) (x, ov self (decls d) x) NK); [reflexivity|]. rewrite m_eq. apply in_or_app. left. apply in_map_iff. exists x. auto.
Qed.
Lemma all_keys : forall k, In k is -> forall x, In x (find_vtable w k) -> In (sig x) (map sig V').
Proof. intros k Hk x Hx. rewrite <- keys. apply (a_all _ _ _ _ _ _ _ _ A). apply in_concat. exists (find_vtable w k). split; [apply in_map; exact Hk | exact Hx]. Qed.
Lemma populate_ok : exists it, populate w m is = Some it /\ map fst it = is /\
  forall k l, In (k, l) it -> Forall2 (fun x y => sig x = sig y /\ In y V') (find_vtable w k) l.
Proof.
  unfold populate. pose proof all_keys as AK.
  assert (G : forall js, (forall k, In k js -> forall x, In x (find_vtable w k) -> In (sig x) (map sig V')) ->
    exists it, sequence (map (fun i => option_map (pair i) (values m (find_vtable w i))) js) = Some it /\ map fst it = js /\
    forall k l, In (k, l) it -> Forall2 (fun x y => sig x = sig y /\ In y V') (find_vtable w k) l); [|apply G; exact AK].
  clear AK. induction js as [|j js IH]; intros AK; [exists []; repeat split; intros ? ? []|].
  destruct (values_ok (find_vtable w j)) as [r [E F]]; [apply AK; left; reflexivity|]. destruct IH as [it [E1 [E2 E3]]]; [intros k Hk; apply AK; right; exact Hk|].
  cbn [map sequence]. rewrite E. cbn [option_map]. rewrite E1. exists ((j, r) :: it). split; [reflexivity|]. split; [cbn; congruence|].
  intros k l [X | X]; [inversion X; subst; exact F | apply E3; exact X].
Qed.
End Final.

Lemma byOffset_ok : forall w self d is st m n abs, NoDup (vsigs (decls d)) -> declared self [] (decls d) st ->
  added w self (concat (map (find_vtable w) is)) (vm st) m (vcount st) n abs -> byOffset m n = Some (V' self [] d st abs).
Proof.
  intros w self d is st m n abs Nd D A. assert (I0 : indexed []) by (intros [|k] x E; discriminate). pose proof (V_indexed w self [] d is I0 st m n abs D A) as VI.
  pose proof (m_eq w self [] d is st m n abs D A) as M. cbn in M. unfold byOffset.
  assert (E : map (fun p : nat * (meth * meth) => fst (snd p)) m = V' self [] d st abs).
  { rewrite M. unfold V'. cbn. rewrite !map_app, !map_map. cbn. rewrite !map_id. reflexivity. }
  rewrite E. rewrite <- (V_length w self [] d is st m n abs D A). apply map_nth_seq. intros k x H.
  destruct (find _ (V' self [] d st abs)) as [y|] eqn:F.
  - apply find_some in F. destruct F as [F1 F2]. apply Nat.eqb_eq in F2. apply In_nth_error in F1. destruct F1 as [j F1]. rewrite (VI j y F1) in F2. congruence.
  - pose proof (find_none _ _ F x (nth_error_In _ _ H)) as X. cbn in X. rewrite (VI k x H), Nat.eqb_refl in X. discriminate.
Qed.

(** What is known about the superclass's tables. *)
Definition superTable (w : world) (d : cdef) : list meth :=
  if isInterface d then [] else match super d with Some s => find_vtable w s | None => [] end.
Record parsed (w : world) (self : nat) (d : cdef) (is : list nat) (c : cls) (st : pstate) (abs : list meth) : Prop := {
  p_def : def c = d;
  p_vt : vt c = V' self (superTable w d) d st abs;
  p_methods : methods c = mtab st ++ abs;
  p_itable : Permutation (map fst (itable c)) is;
  p_itables : isInterface d = false -> forall k l, In (k, l) (itable c) -> Forall2 (fun x y => sig x = sig y /\ In y (vt c)) (find_vtable w k) l }.

Lemma parse_ok : forall w self d is,
  NoDup (vsigs (decls d)) -> NoDup (map sig (superTable w d)) -> indexed (superTable w d) -> NoDup is ->
  (forall s, super d = Some s -> exists c, nth_error w s = Some c /\
     NoDup (map fst (itable c)) /\ incl (map fst (itable c)) is /\
     forall k l, In (k, l) (itable c) -> Forall2 (fun x y => sig x = sig y /\ In y (vt c)) (find_vtable w k) l) ->
  exists c st m n abs, parseMethods w self d is = Some c /\ parsed w self d is c st abs /\
    declared self (superTable w d) (decls d) st /\ added w self (concat (map (find_vtable w) is)) (vm st) m (vcount st) n abs.
Proof.
  intros w self d is Nd SVn SVi Ni HS. unfold parseMethods.
  set (sup := match super d with Some s => nth_error w s | None => None end).
  assert (ES : (if isInterface d then [] else match sup with Some s => match vtable s with Some v => v | None => [] end | None => [] end) = superTable w d).
  { unfold superTable, sup, find_vtable. destruct (isInterface d); [reflexivity|]. destruct (super d) as [s|]; [|reflexivity]. destruct (nth_error w s); reflexivity. }
  rewrite ES. pose proof (declare_all self (superTable w d) SVn (decls d) Nd) as D. set (st := fold_left (declare self) (decls d) _) in *.
  pose proof (added_all w self is (vm st) (vcount st)) as A. destruct (addInterfaceMethods w self is (vm st, vcount st, [])) as [[m n] abs].
  pose proof (V_length w self _ d is st m n abs D A) as VL. pose proof (populate_ok w self _ d is st m n abs D A) as PO.
  destruct PO as [it [P1 [P2 P3]]]. pose proof (all_keys w self _ d is st m n abs D A) as AK.
  assert (BARE : n = 0 -> forall k l, In (k, l) (map (fun i : nat => (i, @nil meth)) is) -> Forall2 (fun x y => sig x = sig y /\ In y (V' self (superTable w d) d st abs)) (find_vtable w k) l).
  { intros N0 k l H. apply in_map_iff in H. destruct H as [j [E H]]. inversion E; subst. destruct (find_vtable w k) as [|x r] eqn:F; [constructor|]. exfalso.
    specialize (AK k H x). rewrite F in AK. specialize (AK (or_introl eq_refl)). destruct (V' self (superTable w d) d st abs); [destruct AK | discriminate]. }
  assert (BF : map fst (map (fun i : nat => (i, @nil meth)) is) = is) by (rewrite map_map; cbn; apply map_id).
  destruct (negb (existsb virtual (decls d)) && match abs with [] => true | _ => false end && negb (isInterface d)) eqn:B.
  - apply andb_true_iff in B. destruct B as [B B3]. apply andb_true_iff in B. destruct B as [B1 B2]. destruct abs as [|? ?]; [|discriminate].
    apply negb_true_iff in B1, B3.
    assert (VS : vsigs (decls d) = []). { unfold vsigs. rewrite filter_none; [reflexivity|]. intros x Hx. destruct (virtual x) eqn:E; [|reflexivity]. assert (existsb virtual (decls d) = true) by (apply existsb_exists; eauto). congruence. }
    assert (NW : news st = []). { pose proof (d_news _ _ _ _ D) as X. rewrite VS in X. cbn in X. destruct (news st); [reflexivity | discriminate]. }
    assert (VE : V' self (superTable w d) d st [] = superTable w d).
    { unfold V'. rewrite NW. cbn. rewrite app_nil_r. transitivity (map (fun x => x) (superTable w d)); [|apply map_id]. apply map_ext. intros x. unfold ov, has. rewrite VS. reflexivity. }
    destruct (super d) as [s|] eqn:Sd; [destruct (HS s eq_refl) as [c [W [H1 [H2 H3]]]] | ]; unfold sup; [rewrite W|].
    + assert (TV : superTable w d = vt c) by (unfold superTable; rewrite B3, Sd; apply find_vtable_eq; exact W).
      destruct (negb match itable c with [] => true | _ => false end && Nat.eqb (length is) (length (itable c))) eqn:BL.
      * apply andb_true_iff in BL. destruct BL as [_ BL]. apply Nat.eqb_eq in BL. exists (Cls d (itable c) (vtable c) (mtab st ++ [])), st, m, n, []. split; [reflexivity|]. split; [|split; [exact D | exact A]]. constructor; cbn [def methods itable]; auto.
        -- rewrite VE, TV. reflexivity.
        -- apply NoDup_Permutation_bis; auto. rewrite map_length, BL. lia.
      * rewrite P1. cbn [obind]. exists (Cls d it (vtable c) (mtab st ++ [])), st, m, n, []. split; [reflexivity|]. split; [|split; [exact D | exact A]]. constructor; cbn [def methods itable]; auto.
        -- rewrite VE, TV. reflexivity.
        -- rewrite P2. reflexivity.
        -- intros _ k l H. specialize (P3 k l H). rewrite VE, TV in P3. exact P3.
    + assert (VN : superTable w d = []) by (unfold superTable; rewrite B3, Sd; reflexivity). rewrite VE, VN in VL. cbn in VL.
      eexists (Cls d _ (Some []) (mtab st ++ [])), st, m, n, []. split; [reflexivity|]. split; [|split; [exact D | exact A]]. constructor; cbn [def methods itable]; auto.
      * rewrite VE, VN. reflexivity.
      * rewrite BF. reflexivity.
      * intros _ k l H. specialize (BARE (eq_sym VL) k l H). rewrite VE, VN in BARE. exact BARE.
  - destruct (Nat.eqb_spec n 0) as [N0 | N0].
    + rewrite N0 in VL. assert (VN : V' self (superTable w d) d st abs = []) by (destruct (V' self (superTable w d) d st abs); [reflexivity | discriminate]).
      eexists (Cls d _ None (mtab st ++ abs)), st, m, n, abs. split; [reflexivity|]. split; [|split; [exact D | exact A]]. constructor; cbn [def methods itable]; auto.
      * rewrite BF. reflexivity.
      * intros _ k l H. specialize (BARE N0 k l H). rewrite VN in BARE. exact BARE.
    + destruct (isInterface d) eqn:Id.
      * assert (T0 : superTable w d = []) by (unfold superTable; rewrite Id; reflexivity). pose proof D as D'. rewrite T0 in D'.
        rewrite (byOffset_ok w self d is st m n abs Nd D' A). cbn [obind]. eexists (Cls d _ (Some _) (mtab st ++ abs)), st, m, n, abs. split; [reflexivity|]. split; [|split; [exact D | exact A]].
        constructor; cbn [def methods itable]; auto.
        -- rewrite T0. reflexivity.
        -- rewrite BF. reflexivity.
        -- intros X. congruence.
      * rewrite (values_super w self _ d is SVn Nd st m n abs D A). cbn [obind]. rewrite P1. cbn [obind].
        eexists (Cls d it (Some _) (mtab st ++ abs)), st, m, n, abs. split; [reflexivity|]. split; [|split; [exact D | exact A]].
        constructor; cbn [def methods itable]; auto. rewrite P2. reflexivity.
Qed.
