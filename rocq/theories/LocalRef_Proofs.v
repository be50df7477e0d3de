From Coq Require Import ZArith List Bool Lia.
From Verif Require Import Res Jref_Model Jref_Proofs LocalRef_Model LocalRef_Spec.
Import ListNotations.
Local Open Scope Z_scope.

Fixpoint cntIn (v : Z) (l : list (Z * Z)) : Z :=
  match l with [] => 0 | x :: r => (if fst x =? v then 1 else 0) + cntIn v r end.
Lemma cntIn_nonneg : forall v l, 0 <= cntIn v l.
Proof. induction l; cbn; [lia|]. destruct (_ =? _); lia. Qed.
Lemma cntIn_app : forall v l1 l2, cntIn v (l1 ++ l2) = cntIn v l1 + cntIn v l2.
Proof. induction l1; intros; cbn; [reflexivity|]. rewrite IHl1. lia. Qed.
Lemma cntIn_in : forall v o l, In (v, o) l -> 1 <= cntIn v l.
Proof.
  induction l as [|x l IH]; cbn; [tauto|]. pose proof (cntIn_nonneg v l). intros [->|H'].
  - cbn. rewrite Z.eqb_refl. lia.
  - specialize (IH H'). destruct (fst x =? v); lia.
Qed.
Lemma cntIn_zero : forall v l, ~ (exists o, In (v, o) l) -> cntIn v l = 0.
Proof.
  induction l as [|[w o] l IH]; intros H; cbn; [reflexivity|].
  destruct (Z.eqb_spec w v) as [->|]; [exfalso; apply H; exists o; left; reflexivity|].
  rewrite IH; [lia|]. intros [o' H']. apply H. exists o'. right. exact H'.
Qed.
Lemma cntIn_dropOne : forall v l o, In (v, o) l -> forall w, cntIn w (dropOne v l) = cntIn w l - (if w =? v then 1 else 0).
Proof.
  induction l as [|x l IH]; intros o H w; [destruct H|]. cbn [dropOne].
  destruct (Z.eqb_spec (fst x) v) as [E|E].
  - cbn. rewrite E. rewrite (Z.eqb_sym v w). lia.
  - cbn. destruct H as [->|H]; [cbn in E; congruence|]. rewrite (IH o H). lia.
Qed.
Lemma in_dropOne : forall v l x, In x (dropOne v l) -> In x l.
Proof.
  induction l as [|y l IH]; intros x; cbn; [tauto|]. destruct (fst y =? v); cbn; intuition.
Qed.

(** The stack of frames: the cells made in each frame, and the references held. *)
Definition lays := list (list Z * list (Z * Z)).
Definition allCells (st : lays) : list Z := concat (map fst st).

Fixpoint savedOf (st : lays) : list Z :=
  match st with
  | [] => []
  | _ :: rest => match rest with [] => [] | _ => hd 0 (allCells rest) :: savedOf rest end
  end.

Definition cellOk (s : refs) (m : Z) (o above : list (Z * Z)) (c : Z) : Prop :=
  exists r, cells s c = Some r /\ target r <> 0 /\ Z.max 1 (cntIn c o) + cntIn c above <= cnt r <= m.
Definition heldOk (s : refs) (l : list Z) (x : Z * Z) : Prop :=
  In (fst x) l /\ option_map target (cells s (fst x)) = Some (snd x).

Fixpoint stackOk (s : refs) (m : Z) (above : list (Z * Z)) (st : lays) : Prop :=
  match st with
  | [] => True
  | (l, o) :: rest =>
      Forall (cellOk s m o above) l /\ Forall (heldOk s (l ++ allCells rest)) o
      /\ stackOk s m (o ++ above) rest
  end.

Record good (p : program) (st : lays) : Prop := {
  g_wf : wf (rs (state p)) (allCells st);
  g_saved : saved (state p) = savedOf st;
  g_held : held p = map snd st;
  g_some : st <> [];
  g_stack : stackOk (rs (state p)) (made p) [] st;
  g_made : 0 <= made p < 2 ^ 32 - 1 }.

(** ** Lists as the specification sees them *)
Lemma seg_cellsFrom : forall c l h a h', seg c h a l h' 0 -> ~ In 0 l ->
  exists ts, cellsFrom c a ts /\ map fst ts = l.
Proof.
  induction l as [|x l IH]; intros h a h' S Z0.
  - destruct S as [_ <-]. exists []. split; [constructor|reflexivity].
  - destruct S as (-> & cx & E & Eh & S). destruct (IH _ _ _ S) as (ts & T & M); [cbn in Z0; tauto|].
    exists ((x, target cx) :: ts). split; [|cbn; rewrite M; reflexivity].
    constructor; auto. cbn in Z0. intros ->. tauto.
Qed.

Lemma searchLocal_seg : forall fuel s t l h a h',
  seg (cells s) h a l h' 0 -> ~ In 0 l -> (length l < fuel)%nat ->
  exists f, searchLocal fuel s a t = Ok f /\
    (f = 0 /\ (forall x c, In x l -> cells s x = Some c -> target c <> t)
     \/ In f l /\ exists c, cells s f = Some c /\ target c = t).
Proof.
  induction fuel as [|fuel IH]; intros s t l h a h' S Z0 Hf; [lia|]. destruct l as [|x l].
  - destruct S as [_ <-]. cbn. exists 0. split; auto.
  - destruct S as (-> & cx & E & Eh & S). cbn [searchLocal]. cbn in Z0.
    destruct (x =? 0) eqn:X; [apply Z.eqb_eq in X; tauto|]. rewrite E. cbn [of_option bind].
    destruct (Z.eqb_spec (target cx) t) as [M|M].
    + exists x. split; auto. right. split; [now left|]. eauto.
    + destruct (IH s t l _ _ _ S) as (f & Ef & R); [tauto|cbn in Hf; lia|].
      exists f. split; auto. destruct R as [[-> R]|(Hi & R)]; [left|right; split; [now right|auto]].
      split; auto. intros y c [<-|Hy] Ec; [congruence|eauto].
Qed.

(** ** Frames under changes *)
Definition sameBody (s s' : refs) (c : Z) : Prop := option_map body (cells s' c) = option_map body (cells s c).

Lemma sameBody_cell : forall s s' m m' o above above' c, sameBody s s' c -> m <= m' ->
  cntIn c above' <= cntIn c above -> cellOk s m o above c -> cellOk s' m' o above' c.
Proof.
  intros s s' m m' o ab ab' c B L A (r & E & T & H). unfold sameBody in B. rewrite E in B. cbn in B.
  apply body_some in B as (c' & E' & T' & C' & W'). exists c'. rewrite T', C'. split; [exact E'|]. split; [exact T|]. lia.
Qed.
Lemma sameBody_deref : forall s s' v, sameBody s s' v ->
  option_map target (cells s' v) = option_map target (cells s v).
Proof.
  intros s s' v B. unfold sameBody in B. destruct (cells s v), (cells s' v); cbn in *; try discriminate; [|reflexivity].
  injection B as -> _ _. reflexivity.
Qed.

Lemma stackOk_same : forall st s s' m m' above above',
  (forall c, In c (allCells st) -> sameBody s s' c) -> m <= m' ->
  (forall c, cntIn c above' <= cntIn c above) -> stackOk s m above st -> stackOk s' m' above' st.
Proof.
  induction st as [|[l o] st IH]; intros s s' m m' ab ab' B L A; cbn [stackOk]; [auto|].
  intros (H1 & H2 & H3). assert (IN : forall c, In c l \/ In c (allCells st) -> sameBody s s' c).
  { intros c Hc. apply B. unfold allCells. cbn. apply in_or_app. exact Hc. }
  split; [|split].
  - rewrite Forall_forall in *. intros c Hc. eapply sameBody_cell; [apply IN; auto|exact L|apply A|auto].
  - rewrite Forall_forall in *. intros x Hx. destruct (H2 x Hx) as [X1 X2]. split; [exact X1|].
    rewrite sameBody_deref with (s := s); [exact X2|]. apply IN. apply in_app_or. exact X1.
  - eapply IH; [|exact L| |exact H3]; [intros c Hc; apply IN; auto|].
    intros c. rewrite !cntIn_app. specialize (A c). lia.
Qed.

Lemma stackOk_held : forall st s m above f x, stackOk s m above st -> In f (map snd st) -> In x f ->
  In (fst x) (allCells st) /\ option_map target (cells s (fst x)) = Some (snd x).
Proof.
  induction st as [|[l o] st IH]; intros s m ab f x S Hf Hx; [destruct Hf|].
  cbn [stackOk] in S. destruct S as (S1 & S2 & S3). cbn in Hf. destruct Hf as [<-|Hf].
  - rewrite Forall_forall in S2. exact (S2 x Hx).
  - destruct (IH _ _ _ _ _ S3 Hf Hx) as [X1 X2]. split; [|exact X2]. unfold allCells in *. cbn. apply in_or_app. auto.
Qed.
Lemma stackOk_cell : forall st s m above c, stackOk s m above st -> In c (allCells st) ->
  exists r, cells s c = Some r /\ target r <> 0 /\ 1 + cntIn c above <= cnt r <= m.
Proof.
  induction st as [|[l o] st IH]; intros s m ab c S Hc; [destruct Hc|].
  cbn [stackOk] in S. destruct S as (S1 & S2 & S3). unfold allCells in Hc. cbn in Hc. apply in_app_or in Hc. destruct Hc as [Hc|Hc].
  - rewrite Forall_forall in S1. destruct (S1 c Hc) as (r & E & T & H). exists r. split; [exact E|]. split; [exact T|]. lia.
  - destruct (IH _ _ _ _ S3 Hc) as (r & E & T & H). exists r. split; [exact E|]. split; [exact T|].
    rewrite cntIn_app in H. pose proof (cntIn_nonneg c o). lia.
Qed.

(** The count of one cell goes up by one, and so do the references above. *)
Definition bump (s s' : refs) (v d : Z) : Prop :=
  forall c, option_map body (cells s' c) =
    option_map (fun r => (target r, if c =? v then cnt r + d else cnt r, weak r)) (cells s c).

Lemma stackOk_bump : forall st s s' m m' v d above above', bump s s' v d ->
  (forall c, cntIn c above' = cntIn c above + (if c =? v then d else 0)) ->
  m <= m' -> (d <= 0 \/ m + d <= m') ->
  stackOk s m above st -> stackOk s' m' above' st.
Proof.
  induction st as [|[l o] st IH]; intros s s' m m' v d ab ab' B A L L2; cbn [stackOk]; [auto|].
  intros (H1 & H2 & H3). split; [|split].
  - rewrite Forall_forall in *. intros c Hc. destruct (H1 c Hc) as (r & E & T & H).
    specialize (B c). rewrite E in B. cbn in B. apply body_some in B as (c' & E' & T' & C' & W').
    exists c'. rewrite T', C'. split; [exact E'|]. split; [exact T|]. rewrite A.
    destruct (c =? v); lia.
  - rewrite Forall_forall in *. intros x Hx. destruct (H2 x Hx) as [X1 X2]. split; [exact X1|].
    specialize (B (fst x)). destruct (cells s (fst x)) as [r|]; [|discriminate]. cbn in B.
    apply body_some in B as (c' & E' & T' & C' & W'). rewrite E'. cbn. cbn in X2. congruence.
  - eapply IH; [exact B| |exact L|exact L2|exact H3]. intros c. rewrite !cntIn_app, A. lia.
Qed.

Lemma bump_acquire : forall s v c s', cells s v = Some c -> 0 <= cnt c < 2 ^ 32 - 1 ->
  option_map body (cells s' v) = Some (target c, (cnt c + 1) mod 2 ^ 32, weak c) ->
  (forall z, z <> v -> cells s' z = cells s z) -> bump s s' v 1.
Proof.
  intros s v c s' E R H1 H2 z. destruct (Z.eqb_spec z v) as [->|N].
  - rewrite H1, E. cbn. rewrite Z.mod_small by lia. reflexivity.
  - rewrite (H2 z N). destruct (cells s z); reflexivity.
Qed.

(** Adding a reference held in the newest frame. *)
Lemma top_bump : forall s s' m l o rest v ob, bump s s' v 1 -> In v (l ++ allCells rest) ->
  option_map target (cells s v) = Some ob ->
  stackOk s m [] ((l, o) :: rest) -> stackOk s' (m + 1) [] ((l, (v, ob) :: o) :: rest).
Proof.
  intros s s' m l o rest v ob B Hv Ht (H1 & H2 & H3). cbn [stackOk]. split; [|split].
  - rewrite Forall_forall in *. intros c Hc. destruct (H1 c Hc) as (r & E & T & H).
    pose proof (B c) as Bc. rewrite E in Bc. cbn in Bc. apply body_some in Bc as (c' & E' & T' & C' & W').
    exists c'. rewrite T', C'. split; [exact E'|]. split; [exact T|]. cbn in *. rewrite (Z.eqb_sym v c).
    destruct (c =? v); lia.
  - assert (Q : forall x, option_map target (cells s x) = option_map target (cells s' x)).
    { intros x. specialize (B x). unfold body in B. destruct (cells s x), (cells s' x); cbn in *; try discriminate; [injection B as -> _ _; reflexivity|reflexivity]. }
    constructor; [split; [exact Hv|cbn; rewrite <- Q; exact Ht]|].
    rewrite Forall_forall in *. intros x Hx. destruct (H2 x Hx) as [X1 X2]. split; [exact X1|]. rewrite <- Q. exact X2.
  - eapply stackOk_bump; [exact B| | | |exact H3]; try lia.
    intros c. cbn. rewrite (Z.eqb_sym v c). destruct (c =? v); lia.
Qed.

Lemma makeLocal_ok : forall s l o rest m ob a, wf s (allCells ((l, o) :: rest)) ->
  stackOk s m [] ((l, o) :: rest) -> 0 <= m < 2 ^ 32 - 1 -> ob <> 0 -> a <> 0 -> cells s a = None ->
  exists v s', (exists n, forall fuel, (n <= fuel)%nat -> makeLocal fuel s ob a = Ok (v, s')) /\ v <> 0
    /\ exists l', wf s' (allCells ((l', (v, ob) :: o) :: rest)) /\ stackOk s' (m + 1) [] ((l', (v, ob) :: o) :: rest)
      /\ exists l0, l' = l0 ++ l.
Proof.
  intros s l o rest m ob a W S0 M NO NA EA. pose proof (wf_link _ _ W) as [h L].
  set (cs := allCells ((l, o) :: rest)) in *.
  assert (SR : exists f, (forall fuel, (S (length cs) <= fuel)%nat -> searchLocal fuel s (root s) ob = Ok f) /\
    (f = 0 \/ In f cs /\ exists c, cells s f = Some c /\ target c = ob)).
  { destruct (searchLocal_seg (S (length cs)) s ob cs _ _ _ L (wf_zero _ _ W) ltac:(lia)) as (f & Ef & R).
    exists f. split.
    - intros fuel Hf. destruct (searchLocal_seg fuel s ob cs _ _ _ L (wf_zero _ _ W) ltac:(lia)) as (f' & Ef' & R').
      rewrite Ef'. f_equal. clear - Ef Ef' Hf. revert Ef Ef'. 
      assert (MM : forall n k a f f', searchLocal n s a ob = Ok f -> searchLocal (n + k) s a ob = Ok f' -> f' = f).
      { induction n as [|n IH]; intros k a0 f0 f1 E1 E2; [discriminate|]. cbn in E1, E2. destruct (a0 =? 0); [congruence|].
        destruct (cells s a0); [|discriminate]. cbn in E1, E2. destruct (target r =? ob); [congruence|]. eapply IH; eassumption. }
      intros E1 E2. apply (MM (S (length cs)) (fuel - S (length cs))%nat (root s)); [exact E1|].
      replace (S (length cs) + (fuel - S (length cs)))%nat with fuel by lia. exact E2.
    - destruct R as [[-> _]|R]; auto. }
  destruct SR as (f & Ef & R). unfold makeLocal.
  assert (OB : (ob =? 0) = false) by (apply Z.eqb_neq; exact NO).
  destruct R as [->|(Hf & c & Ec & Tc)].
  - destruct (construct_wf s cs a ob false W NA EA) as (s1 & E1 & W1 & B1 & B2).
    apply body_some in B1 as (c1 & C1 & T1 & K1 & _).
    destruct (acquire_ok s1 (a :: cs) a c1 W1 C1) as (s2 & E2 & W2 & B3 & B4).
    exists a, s2. split.
    { exists (S (length cs)). intros fuel Hfu. rewrite OB, (Ef fuel Hfu). cbn [bind Z.eqb]. rewrite E1. cbn [bind]. rewrite E2. reflexivity. }
    split; [exact NA|]. exists (a :: l). split; [exact W2|].
    assert (NI : ~ In a cs) by (intros X; apply (wf_cells _ _ W) in X; congruence).
    assert (S1 : stackOk s1 m [] ((l, o) :: rest)).
    { eapply stackOk_same; [| | |exact S0]; try lia. intros c Hc. apply B2. intros ->. exact (NI Hc). }
    pose proof (bump_acquire s1 a c1 s2 C1 ltac:(lia) B3 B4) as BU.
    assert (CN : forall q oo, (forall x, In x oo -> In (fst x) q) -> ~ In a q -> cntIn a oo = 0).
    { intros q oo Hq Hn. apply cntIn_zero. intros [ob' X]. apply Hn. exact (Hq _ X). }
    split; [|exists [a]; reflexivity].
    cbn [stackOk] in *. destruct S1 as (H1 & H2 & H3).
    assert (H2' : forall x, In x o -> In (fst x) cs).
    { intros x Hx. rewrite Forall_forall in H2. exact (proj1 (H2 x Hx)). }
    split; [|split].
    + constructor.
      * apply body_some in B3 as (c2 & C2 & T2 & K2 & _). exists c2. rewrite T2, K2, T1, K1. split; [exact C2|]. split; [exact NO|].
        cbn. rewrite Z.eqb_refl. rewrite (CN cs o H2' NI). lia.
      * rewrite Forall_forall in *. intros c Hc. destruct (H1 c Hc) as (r & E & T & H).
        assert (c <> a) by (intros ->; apply NI; unfold cs, allCells; cbn; apply in_or_app; auto).
        exists r. rewrite B4 by assumption. split; [exact E|]. split; [exact T|]. cbn in *.
        destruct (Z.eqb_spec a c); [congruence|]. lia.
    + constructor.
      * split; [left; reflexivity|]. cbn. apply body_some in B3 as (c2 & C2 & T2 & K2 & _). rewrite C2. cbn. congruence.
      * rewrite Forall_forall in *. intros x Hx. destruct (H2 x Hx) as [X1 X2]. split; [right; exact X1|].
        rewrite B4; [exact X2|]. intros E. apply NI. rewrite <- E. apply H2'. exact Hx.
    + eapply stackOk_bump; [exact BU| | | |exact H3]; try lia.
      intros c. cbn. rewrite (Z.eqb_sym a c). destruct (c =? a); lia.
  - assert (NF : f <> 0) by (intros ->; exact (wf_zero _ _ W Hf)).
    destruct (acquire_ok s cs f c W Ec) as (s1 & E1 & W1 & B1 & B2).
    exists f, s1. split.
    { exists (S (length cs)). intros fuel Hfu. rewrite OB, (Ef fuel Hfu). cbn [bind].
      destruct (Z.eqb_spec f 0); [congruence|]. rewrite E1. reflexivity. }
    split; [exact NF|]. exists l. split; [exact W1|].
    destruct (stackOk_cell _ _ _ _ _ S0 Hf) as (r & Er & _ & Hr). assert (r = c) by congruence. subst r.
    cbn in Hr. split; [|exists []; reflexivity]. eapply top_bump; [|exact Hf| |exact S0].
    + eapply bump_acquire; [exact Ec|lia|exact B1|exact B2].
    + rewrite Ec. cbn. congruence.
Qed.

Lemma disposeUntil_ok : forall l s rest fuel, wf s (l ++ rest) -> (length l < fuel)%nat ->
  exists s', disposeUntil fuel s (hd 0 rest) = Ok s' /\ wf s' rest
    /\ forall c, In c rest -> sameBody s s' c.
Proof.
  induction l as [|x l IH]; intros s rest fuel W Hf; (destruct fuel as [|fuel]; [cbn in Hf; lia|]); cbn [disposeUntil].
  - pose proof (wf_link _ _ W) as [h L]. exists s. split.
    + assert (root s = hd 0 rest) as <-; [|rewrite Z.eqb_refl; reflexivity].
      cbn in L. destruct rest as [|y rest]; cbn in L; [symmetry; apply L|apply L].
    + split; [exact W|]. intros c _. reflexivity.
  - pose proof (wf_link _ _ W) as [h L]. cbn in L. destruct L as (ER & cx & Ecx & _).
    assert (NE : root s <> hd 0 rest).
    { pose proof (wf_nodup _ _ W) as ND. pose proof (wf_zero _ _ W) as Z0. rewrite ER. cbn in ND, Z0. inversion ND; subst.
      intros E. destruct rest as [|y rest]; cbn in E; [apply Z0; auto|]. subst y. apply H1. apply in_or_app. right. left. reflexivity. }
    destruct (Z.eqb_spec (root s) (hd 0 rest)); [congruence|].
    destruct (dispose_wf s [] x (l ++ rest) W) as (s1 & E1 & W1 & B1). rewrite ER, E1. cbn [bind].
    destruct (IH s1 rest fuel W1) as (s2 & E2 & W2 & B2); [cbn in Hf; lia|].
    exists s2. split; [exact E2|]. split; [exact W2|]. intros c Hc. unfold sameBody. rewrite (B2 c Hc). apply B1.
    pose proof (wf_nodup _ _ W) as ND. inversion ND; subst. intros ->. apply H1. apply in_or_app. auto.
Qed.

Lemma objectOf_ok : forall h v o0 f s, In f h -> In (v, o0) f ->
  (forall f x, In f h -> In x f -> option_map target (cells s (fst x)) = Some (snd x)) -> objectOf v h = o0.
Proof.
  intros h v o0 f s Hf Hv A. unfold objectOf. destruct (find (fun x => fst x =? v) (concat h)) as [x|] eqn:E.
  - apply find_some in E as [E1 E2]. apply Z.eqb_eq in E2. apply in_concat in E1 as (g & Hg & Hx).
    pose proof (A g x Hg Hx) as Q1. pose proof (A f (v, o0) Hf Hv) as Q2. cbn in Q2. rewrite E2 in Q1. congruence.
  - exfalso. assert (IC : In (v, o0) (concat h)) by (apply in_concat; eauto).
    pose proof (find_none _ _ E _ IC) as X. cbn in X. rewrite Z.eqb_refl in X. discriminate.
Qed.

Lemma release_ok : forall s cs v c, wf s cs -> cells s v = Some c -> 1 <= cnt c < 2 ^ 32 ->
  exists s', release s v = Ok s'
    /\ (cnt c = 1 -> forall l1 l2, cs = l1 ++ v :: l2 -> wf s' (l1 ++ l2) /\ forall z, z <> v -> sameBody s s' z)
    /\ (cnt c <> 1 -> wf s' cs /\ bump s s' v (-1)).
Proof.
  intros s cs v c W E R. unfold release. rewrite E. cbn [of_option bind]. rewrite Z.mod_small by lia.
  set (s1 := Refs (root s) (put (cells s) v (Some (Ref (target c) (next c) (handle c) (cnt c - 1) (weak c))))).
  assert (W1 : wf s1 cs) by (eapply wf_put; [exact W|exact E|reflexivity|reflexivity]).
  destruct (Z.eqb_spec (cnt c - 1) 0) as [E0|E0].
  - assert (Hv : In v cs) by (apply (wf_cells _ _ W); congruence).
    destruct (in_split _ _ Hv) as (a1 & a2 & ES). rewrite ES in W1.
    destruct (dispose_wf s1 a1 v a2 W1) as (s2 & E2 & W2 & B2). exists s2. split; [exact E2|]. split; [|lia].
    intros _ l1 l2 ES'. assert (a1 = l1 /\ a2 = l2) as [-> ->].
    { pose proof (wf_nodup _ _ W) as ND. rewrite ES' in ES. rewrite ES' in ND. clear - ES ND.
      revert a1 ES ND. induction l1 as [|x l1 IH]; intros [|y a1] ES ND; cbn in *.
      - injection ES as ->. auto.
      - injection ES as <- ->. inversion ND as [|? ? N1 _]; subst. exfalso. apply N1. apply in_or_app. right. left. reflexivity.
      - injection ES as <- <-. inversion ND as [|? ? N1 _]; subst. exfalso. apply N1. apply in_or_app. right. left. reflexivity.
      - injection ES as <- ES. inversion ND; subst. destruct (IH a1 ES H2) as [-> ->]. auto. }
    split; [exact W2|]. intros z Nz. unfold sameBody. rewrite (B2 z Nz). unfold s1. cbn. rewrite put_other by exact Nz. reflexivity.
  - exists s1. split; [reflexivity|]. split; [lia|]. intros _. split; [exact W1|].
    intros z. unfold s1. cbn. destruct (Z.eqb_spec z v) as [->|N].
    + rewrite put_same, E. cbn. replace (cnt c - 1) with (cnt c + -1) by lia. reflexivity.
    + rewrite put_other by exact N. destruct (cells s z); reflexivity.
Qed.

(** ** One operation *)
Lemma exec_good : forall p st e, good p st -> legal newestHeld p e ->
  exists v s', (exists n, forall fuel, (n <= fuel)%nat -> exec fuel (state p) e = Ok (v, s'))
    /\ (made (after p e v s') < 2 ^ 32 - 1 -> exists st', good (after p e v s') st'
         /\ match e with
            | Push => st' = ([], []) :: st
            | Pop r a => exists top below rest below', st = top :: below :: rest /\ st' = below' :: rest
                 /\ exists l', fst below' = l' ++ fst below /\ (r = 0 -> l' = [])
            | _ => exists top rest top', st = top :: rest /\ st' = top' :: rest
            end).
Proof.
  intros p st e G Le. destruct G as [W Sv Hd Ne St Md]. destruct st as [|[l o] rest]; [congruence|].
  destruct Le as [ob a [NA EA]|v (top & hrest & ob & Hh & Hin)| |v a top below hrest Hh Hv Hun].
  - destruct (Z.eq_dec ob 0) as [->|NO].
    { exists 0, (state p). split; [exists 0%nat; intros; cbn; destruct (state p); reflexivity|].
      intros Hm. exists ((l, o) :: rest). cbn in Hm. split; [|exists (l, o), rest, (l, o); auto].
      split; cbn; auto; try lia.
      eapply (stackOk_same ((l, o) :: rest)); [reflexivity| | |exact St]; lia. }
    destruct (makeLocal_ok (rs (state p)) l o rest (made p) ob a W St Md NO NA EA) as (v & s' & (n & En) & NV & l' & W' & S' & _).
    exists v, (LState s' (saved (state p))). split.
    { exists n. intros fuel Hf. cbn [exec]. rewrite (En fuel Hf). reflexivity. }
    cbn [after made]. intros Hm. exists ((l', (v, ob) :: o) :: rest). split; [|exists (l, o), rest, (l', (v, ob) :: o); auto].
    split; cbn [state rs saved held made]; auto.
    + rewrite Hd. unfold addTop. destruct (Z.eqb_spec v 0); [congruence|]. reflexivity.
    + congruence.
    + lia.
  - rewrite Hd in Hh. cbn in Hh. injection Hh as <- <-.
    destruct (stackOk_held _ _ _ _ o (v, ob) St ltac:(left; reflexivity) Hin) as [Hv Ht]. cbn in Hv, Ht.
    assert (NV : v <> 0) by (intros ->; exact (wf_zero _ _ W Hv)).
    destruct (stackOk_cell _ _ _ _ _ St Hv) as (c & Ec & Tc & Kc). cbn [cntIn] in Kc.
    destruct (release_ok _ _ v c W Ec ltac:(lia)) as (s' & Es & R1 & R2).
    exists 0, (LState s' (saved (state p))). split.
    { exists 0%nat. intros fuel _. cbn [exec]. unfold disposeLocal. destruct (Z.eqb_spec v 0); [congruence|]. rewrite Es. reflexivity. }
    cbn [after made]. intros Hm. cbn [stackOk] in St. destruct St as (S1 & S2 & S3).
    assert (DH : dropHeld v (held p) = dropOne v o :: map snd rest).
    { rewrite Hd. cbn [map snd dropHeld]. replace (existsb (fun x => fst x =? v) o) with true; [reflexivity|].
      symmetry. apply existsb_exists. exists (v, ob). split; [exact Hin|]. cbn. apply Z.eqb_refl. }
    pose proof (cntIn_in v ob o Hin) as CI.
    destruct (Z.eq_dec (cnt c) 1) as [K1|K1].
    + (* the last one: the cell is in the newest frame *)
      assert (Hl : In v l).
      { unfold allCells in Hv. cbn in Hv. apply in_app_or in Hv. destruct Hv as [Hv|Hv]; [exact Hv|].
        destruct (stackOk_cell _ _ _ _ _ S3 Hv) as (c' & Ec' & _ & Kc'). rewrite cntIn_app in Kc'. change (cntIn v []) with 0 in Kc'.
        assert (c' = c) by congruence. subst. lia. }
      destruct (in_split _ _ Hl) as (l1 & l2 & El).
      destruct (R1 K1 l1 (l2 ++ allCells rest)) as [W' B'].
      { unfold allCells. cbn. rewrite El, <- app_assoc. reflexivity. }
      assert (C1 : cntIn v o = 1).
      { rewrite Forall_forall in S1. destruct (S1 v Hl) as (c' & Ec' & _ & Kc'). assert (c' = c) by congruence. subst. change (cntIn v []) with 0 in Kc'. lia. }
      assert (ND : forall z, In z (l1 ++ l2 ++ allCells rest) -> z <> v).
      { intros z Hz ->. pose proof (wf_nodup _ _ W) as N. unfold allCells in N. cbn in N. rewrite El, <- app_assoc in N. cbn in N.
        apply NoDup_remove_2 in N. exact (N Hz). }
      assert (NO : forall x, In x (dropOne v o) -> fst x <> v).
      { intros [z ob'] Hx E. cbn in E. subst z. apply cntIn_in in Hx. rewrite (cntIn_dropOne v o ob Hin), Z.eqb_refl in Hx. lia. }
      exists ((l1 ++ l2, dropOne v o) :: rest). split; [|exists (l, o), rest, (l1 ++ l2, dropOne v o); auto].
      split; cbn [state rs saved held made]; auto.
      * unfold allCells. cbn. rewrite <- app_assoc. exact W'.
      * congruence.
      * cbn [stackOk]. split; [|split].
        -- rewrite Forall_forall in *. intros z Hz.
           assert (Nz : z <> v). { apply ND. rewrite app_assoc. apply in_or_app. auto. }
           destruct (S1 z) as (r & Er & Tr & Kr). { rewrite El. apply in_app_or in Hz. apply in_or_app. cbn. tauto. }
           pose proof (B' z Nz) as Bz. unfold sameBody in Bz. rewrite Er in Bz. cbn in Bz. apply body_some in Bz as (r' & Er' & Tr' & Kr' & _).
           exists r'. rewrite Tr', Kr'. split; [exact Er'|]. split; [exact Tr|].
           rewrite (cntIn_dropOne v o ob Hin). destruct (Z.eqb_spec z v); [congruence|]. rewrite Z.sub_0_r. exact Kr.
        -- rewrite Forall_forall in *. intros x Hx. pose proof (NO x Hx) as Nx. apply in_dropOne in Hx.
           destruct (S2 x Hx) as [X1 X2]. split.
           ++ rewrite El in X1. apply in_app_or in X1. rewrite <- app_assoc. apply in_or_app.
              destruct X1 as [X1|X1]; [apply in_app_or in X1; destruct X1 as [X1|[X1|X1]]; [auto|congruence|right; apply in_or_app; auto]|right; apply in_or_app; auto].
           ++ rewrite (sameBody_deref _ _ _ (B' _ Nx)). exact X2.
        -- eapply stackOk_same; [| | |exact S3]; [|lia|].
           ++ intros z Hz. apply B'. apply ND. apply in_or_app. right. apply in_or_app. auto.
           ++ intros z. rewrite !app_nil_r. rewrite (cntIn_dropOne v o ob Hin). destruct (z =? v); lia.
    + destruct (R2 K1) as [W' B'].
      exists ((l, dropOne v o) :: rest). split; [|exists (l, o), rest, (l, dropOne v o); auto].
      split; cbn [state rs saved held made]; auto.
      * congruence.
      * cbn [stackOk]. split; [|split].
        -- rewrite Forall_forall in *. intros z Hz. destruct (S1 z Hz) as (r & Er & Tr & Kr).
           pose proof (B' z) as Bz. rewrite Er in Bz. cbn in Bz. apply body_some in Bz as (r' & Er' & Tr' & Kr' & _).
           exists r'. rewrite Tr', Kr'. split; [exact Er'|]. split; [exact Tr|].
           rewrite (cntIn_dropOne v o ob Hin). cbn in *. destruct (Z.eqb_spec z v) as [->|]; [|lia].
           assert (r = c) by congruence. subst. lia.
        -- rewrite Forall_forall in *. intros x Hx. apply in_dropOne in Hx. destruct (S2 x Hx) as [X1 X2]. split; [exact X1|].
           specialize (B' (fst x)). destruct (cells (rs (state p)) (fst x)) as [r|]; [|discriminate]. cbn in B'.
           apply body_some in B' as (c' & E' & T' & C' & W''). rewrite E'. cbn. cbn in X2. congruence.
        -- eapply stackOk_bump; [exact B'| | | |exact S3]; try lia.
           intros z. rewrite !app_nil_r. rewrite (cntIn_dropOne v o ob Hin). destruct (z =? v); lia.
  - exists 0, (pushFrame (state p)). split; [exists 0%nat; reflexivity|]. intros _.
    exists (([], []) :: (l, o) :: rest). split; [|reflexivity].
    split; cbn [after state pushFrame rs saved held made]; auto.
    + cbn [savedOf]. rewrite Sv. f_equal. pose proof (wf_link _ _ W) as [h L].
      destruct (allCells ((l, o) :: rest)); cbn in L; [symmetry|]; apply L.
    + rewrite Hd. reflexivity.
    + congruence.
    + cbn [stackOk]. split; [constructor|]. split; [constructor|]. exact St.
  - rewrite Hd in Hh. destruct rest as [|[l2 o2] rest]; [discriminate|]. cbn in Hh. injection Hh as <- <- <-.
    set (st1 := (l2, o2) :: rest) in *.
    cbn [savedOf] in Sv. unfold st1 in Sv at 1.
    change (saved (state p) = hd 0 (allCells st1) :: savedOf st1) in Sv.
    destruct (disposeUntil_ok l (rs (state p)) (allCells st1) (S (length l)) W ltac:(lia)) as (s1 & E1 & W1 & B1).
    assert (PF : forall fuel, (S (length l) <= fuel)%nat -> popFrame fuel (state p) = Ok (LState s1 (savedOf st1))).
    { intros fuel Hf. unfold popFrame. rewrite Sv.
      assert (MM : forall n k s f s', disposeUntil n s f = Ok s' -> disposeUntil (n + k) s f = Ok s').
      { induction n as [|n IH]; intros k s f s' E; [discriminate|]. cbn in E |- *. destruct (root s =? f); [exact E|].
        destruct (dispose s (root s)); cbn in E |- *; try discriminate. apply IH. exact E. }
      replace fuel with (S (length l) + (fuel - S (length l)))%nat by lia. rewrite (MM _ _ _ _ _ E1). reflexivity. }
    assert (S1 : stackOk s1 (made p) [] st1).
    { cbn [stackOk] in St. destruct St as (_ & _ & S3). eapply stackOk_same; [exact B1| | |exact S3]; [lia|].
      intros c. rewrite app_nil_r. apply cntIn_nonneg. }
    assert (SV : savedOf st1 = match rest with [] => [] | _ => hd 0 (allCells rest) :: savedOf rest end) by reflexivity.
    destruct (Z.eq_dec v 0) as [->|NV].
    + exists 0, (LState s1 (savedOf st1)). split.
      { exists (S (length l)). intros fuel Hf. cbn [exec]. unfold popLocalFrame. cbn [Z.eqb]. rewrite (PF fuel Hf). reflexivity. }
      cbn [after made]. intros Hm. exists st1. split.
      * split; cbn [state rs saved held made]; auto; try lia.
        -- rewrite Hd. reflexivity.
        -- discriminate.
        -- eapply (stackOk_same st1); [reflexivity| | |exact S1]; lia.
      * exists (l, o), (l2, o2), rest, (l2, o2). split; [reflexivity|]. split; [reflexivity|]. exists []. auto.
    + destruct Hv as [Hv|(f & ob & Hf & Hvo)]; [congruence|].
      assert (HA : forall g x, In g (held p) -> In x g -> option_map target (cells (rs (state p)) (fst x)) = Some (snd x)).
      { intros g x Hg Hx. rewrite Hd in Hg. apply (stackOk_held _ _ _ _ g x St Hg Hx). }
      pose proof (HA f (v, ob) Hf Hvo) as Ht. cbn in Ht.
      destruct (cells (rs (state p)) v) as [c|] eqn:Ec; [|discriminate]. cbn in Ht. injection Ht as Ht.
      assert (OO : objectOf v (held p) = ob) by (eapply objectOf_ok; eassumption).
      assert (NO : ob <> 0).
      { rewrite Hd in Hf. destruct (stackOk_held _ _ _ _ f (v, ob) St Hf Hvo) as [X1 X2].
        destruct (stackOk_cell _ _ _ _ _ St X1) as (r & Er & Tr & _). cbn in Er. congruence. }
      destruct (Hun _ _ (PF _ (le_n _))) as [NA EA].
      destruct (makeLocal_ok s1 l2 o2 rest (made p) ob a W1 S1 Md NO NA EA) as (w & s2 & (n & En) & NW & l' & W' & S' & l0 & El0).
      exists w, (LState s2 (savedOf st1)). split.
      { exists (S (length l) + n)%nat. intros fuel Hfu. cbn [exec]. unfold popLocalFrame. destruct (Z.eqb_spec v 0); [congruence|].
        rewrite Ec. cbn [of_option bind]. rewrite PF by lia. cbn [bind rs]. rewrite Ht, En by lia. reflexivity. }
      cbn [after made]. intros Hm. exists ((l', (w, ob) :: o2) :: rest). split.
      * split; cbn [state rs saved held made]; auto; try lia.
        -- rewrite OO, Hd. unfold addTop. destruct (Z.eqb_spec w 0); [congruence|]. reflexivity.
        -- congruence.
      * exists (l, o), (l2, o2), rest, (l', (w, ob) :: o2). split; [reflexivity|]. split; [reflexivity|].
        exists l0. split; [exact El0|]. intros; congruence.
Qed.

(** ** Fuel *)
Lemma searchLocal_more : forall n s a t f k, searchLocal n s a t = Ok f -> searchLocal (n + k) s a t = Ok f.
Proof.
  induction n as [|n IH]; intros s a t f k E; [discriminate|]. cbn in E |- *. destruct (a =? 0); [exact E|].
  destruct (cells s a); [|discriminate]. cbn in E |- *. destruct (target r =? t); [exact E|]. apply IH. exact E.
Qed.
Lemma disposeUntil_more : forall n s f s' k, disposeUntil n s f = Ok s' -> disposeUntil (n + k) s f = Ok s'.
Proof.
  induction n as [|n IH]; intros s f s' k E; [discriminate|]. cbn in E |- *. destruct (root s =? f); [exact E|].
  destruct (dispose s (root s)); cbn in E |- *; try discriminate. apply IH. exact E.
Qed.
Lemma makeLocal_more : forall n s o a x k, makeLocal n s o a = Ok x -> makeLocal (n + k) s o a = Ok x.
Proof.
  intros n s o a x k E. unfold makeLocal in *. destruct (o =? 0); [exact E|].
  destruct (searchLocal n s (root s) o) eqn:S0; try discriminate. rewrite (searchLocal_more _ _ _ _ _ k S0). exact E.
Qed.
Lemma popFrame_more : forall n s x k, popFrame n s = Ok x -> popFrame (n + k) s = Ok x.
Proof.
  intros n s x k E. unfold popFrame in *. destruct (saved s); [exact E|].
  destruct (disposeUntil n (rs s) z) eqn:D; try discriminate. rewrite (disposeUntil_more _ _ _ _ k D). exact E.
Qed.
Lemma exec_more : forall n s e x k, exec n s e = Ok x -> exec (n + k) s e = Ok x.
Proof.
  intros n s [o a|v| |r a] x k E; cbn [exec] in *; auto.
  - destruct (makeLocal n (rs s) o a) eqn:M; try discriminate. rewrite (makeLocal_more _ _ _ _ _ k M). exact E.
  - unfold popLocalFrame in *. destruct (r =? 0).
    + destruct (popFrame n s) eqn:P; try discriminate. rewrite (popFrame_more _ _ _ k P). exact E.
    + destruct (cells (rs s) r); [|discriminate]. cbn [of_option bind] in *.
      destruct (popFrame n s) eqn:P; try discriminate. rewrite (popFrame_more _ _ _ k P). cbn [bind] in *.
      destruct (makeLocal n (rs a0) (target r0) a) eqn:M; try discriminate. rewrite (makeLocal_more _ _ _ _ _ k M). exact E.
Qed.
Lemma exec_agree : forall n m s e x y, exec n s e = Ok x -> exec m s e = Ok y -> x = y.
Proof.
  intros n m s e x y E1 E2. apply (exec_more _ _ _ _ m) in E1. apply (exec_more _ _ _ _ n) in E2.
  rewrite Nat.add_comm in E2. congruence.
Qed.

Lemma start_good : good start [([], [])].
Proof.
  split; cbn; auto; try lia; [|discriminate].
  split; cbn; [exists Root; cbn; auto|constructor|tauto|]. intros a. split; [congruence|tauto].
Qed.

Definition changes (e : op) (st st' : lays) : Prop :=
  match e with
  | Push => st' = ([], []) :: st
  | Pop r a => exists top below rest below', st = top :: below :: rest /\ st' = below' :: rest
       /\ exists l', fst below' = l' ++ fst below /\ (r = 0 -> l' = [])
  | _ => exists top rest top', st = top :: rest /\ st' = top' :: rest
  end.

Lemma step_good : forall p st e fuel v s, good p st -> legal newestHeld p e ->
  exec fuel (state p) e = Ok (v, s) -> made (after p e v s) < 2 ^ 32 - 1 ->
  exists st', good (after p e v s) st' /\ changes e st st'.
Proof.
  intros p st e fuel v s G Le E M. destruct (exec_good p st e G Le) as (v' & s' & (n & En) & H).
  pose proof (exec_agree _ _ _ _ _ _ E (En n (le_n _))) as Q. injection Q as <- <-. exact (H M).
Qed.

Lemma reach_good : forall p, reach newestHeld start p -> exists st, good p st.
Proof.
  intros p R. induction R as [|q e fuel v s R [st G] Le E M]; [exists [([], [])]; apply start_good|].
  destruct (step_good q st e fuel v s G Le E M) as (st' & G' & _). eauto.
Qed.

Lemma above_good : forall p base q, good p (([], []) :: base) -> reachAbove newestHeld (length base) p q ->
  exists tops, tops <> [] /\ good q (tops ++ base).
Proof.
  intros p base q G R. induction R as [|q e fuel v s R (tops & NT & G') Le E M K].
  - exists [([], [])]. split; [discriminate|exact G].
  - destruct (step_good q _ e fuel v s G' Le E M) as (st' & G2 & C).
    assert (L : length (held (after q e v s)) = length st') by (rewrite (g_held _ _ G2), map_length; reflexivity).
    destruct tops as [|top tops]; [congruence|].
    destruct e; cbn [changes] in C.
    + destruct C as (t & r & t' & C1 & ->). injection C1 as <- <-. exists (t' :: tops). split; [discriminate|exact G2].
    + destruct C as (t & r & t' & C1 & ->). injection C1 as <- <-. exists (t' :: tops). split; [discriminate|exact G2].
    + subst st'. exists (([], []) :: top :: tops). split; [discriminate|exact G2].
    + destruct C as (t & b & r & b' & C1 & -> & _). destruct tops as [|x tops].
      * exfalso. cbn in C1. injection C1 as _ C1. rewrite L in K. subst base. cbn in K. lia.
      * injection C1 as <- <- <-. exists (b' :: tops). split; [discriminate|exact G2].
Qed.

Lemma cellsFrom_fun : forall c a l, cellsFrom c a l -> forall l', cellsFrom c a l' -> l' = l.
Proof.
  induction 1 as [|a r l N E C IH]; intros l' C'; inversion C'; subst; try congruence.
  assert (r0 = r) by congruence. subst. f_equal. apply IH. assumption.
Qed.
Lemma cellsOf_fst : forall p st l, good p st -> cellsOf (state p) l -> map fst l = allCells st.
Proof.
  intros p st l G C. destruct (wf_link _ _ (g_wf _ _ G)) as [h L].
  destruct (seg_cellsFrom _ _ _ _ _ L (wf_zero _ _ (g_wf _ _ G))) as (ts & T & M).
  rewrite (cellsFrom_fun _ _ _ T _ C). exact M.
Qed.
Lemma good_cellsOf : forall p st, good p st -> exists l, cellsOf (state p) l.
Proof.
  intros p st G. destruct (wf_link _ _ (g_wf _ _ G)) as [h L].
  destruct (seg_cellsFrom _ _ _ _ _ L (wf_zero _ _ (g_wf _ _ G))) as (ts & T & M). exists ts. exact T.
Qed.
