(** A program that runs with collections behaves as one that runs without. *)
From Coq Require Import List Bool Arith ZArith Lia.
From Verif Require Import Chain Gc_Model Gc_Spec Gc_Proofs Gc_Whole.
Import ListNotations.

Section N.
Variable n : nat.
Hypothesis Hn : 0 < n.
Notation rs := (seq 0 n).

Definition keep (s : state) (x : nat) : Prop := x < base (here s) /\ old (loc_ (here s) x) = true.
Definition LK (s : state) : nat -> Prop := Live (graphOf (hp s) rs) (keep s).
Definition LR (s : state) : nat -> Prop := Live (graphOf (hp s) rs) (fun _ => False).
Record WF (s : state) : Prop := {
  w_next : next (hp s) = base (here s);
  w_marks : marked (hp s) = [] /\ forall x, mk (hp s) x = false;
  w_live : forall x, LK s x -> x < base (here s) /\ NoDup (lay (hp s) x) /\ In 0 (lay (hp s) x);
  w_rem : forall o i y, o < base (here s) -> old (loc_ (here s) o) = true -> In i (lay (hp s) o) -> ptr (mem (hp s) o i) = Some y ->
    old (loc_ (here s) y) = false -> rem (hp s) o i = true
}.
Lemma Live_mono : forall g (k k' : nat -> Prop) x, (forall x, k x -> k' x) -> Live g k x -> Live g k' x.
Proof. intros g k k' x H HL. induction HL. apply live_kept; auto. eapply live_root; eauto. eapply live_field; eauto. Qed.
Lemma LR_LK : forall s x, LR s x -> LK s x.
Proof. intros s x. apply Live_mono. tauto. Qed.
Lemma Live_sub : forall g (k P : nat -> Prop), (forall x, k x -> P x) -> (forall w x, In w (start g) -> ptr w = Some x -> P x) ->
  (forall x i y, P x -> In i (refs g x) -> ptr (words g x i) = Some y -> P y) -> forall x, Live g k x -> P x.
Proof. intros g k P H1 H2 H3 x H. induction H; eauto. Qed.
Lemma in_start : forall h w, In w (start (graphOf h rs)) <-> exists r, r < n /\ w = root h r.
Proof. intros. cbn. rewrite in_map_iff. split; intros (r & A & B). exists r. apply in_seq in B. split; auto; lia. exists r. split; auto. apply in_seq. lia. Qed.

Lemma in_dirty : forall e h o i, In (o, i) (dirtySlots e h) <-> o < base e /\ old (loc_ e o) = true /\ In i (lay h o) /\ rem h o i = true.
Proof.
  intros. unfold dirtySlots. rewrite in_flat_map. split.
  - intros (x & Hx & H). apply in_seq in Hx. destruct (old (loc_ e x)) eqn:E; [|destruct H]. apply in_map_iff in H. destruct H as (j & Ej & Hj). injection Ej as -> ->.
    apply filter_In in Hj. repeat split; try tauto; lia.
  - intros (H1 & H2 & H3 & H4). exists o. split. apply in_seq; lia. rewrite H2. apply in_map. apply filter_In. auto.
Qed.
Lemma nodup_dirty : forall e h, (forall o, o < base e -> old (loc_ e o) = true -> NoDup (lay h o)) -> NoDup (dirtySlots e h).
Proof.
  intros e h H. unfold dirtySlots. assert (Hs : forall o, In o (seq 0 (base e)) -> o < base e) by (intros o Ho; apply in_seq in Ho; lia).
  assert (Hd := seq_NoDup (base e) 0). revert Hs Hd. generalize (seq 0 (base e)). induction l as [|a l IH]; intros Hs Hd; cbn. constructor.
  inversion Hd; subst.
  assert (G : forall p q : list (nat * nat), NoDup p -> NoDup q -> (forall z, In z p -> ~ In z q) -> NoDup (p ++ q)).
  { induction p as [|z p IHp]; intros q Hp Hq Hz; cbn; auto. inversion Hp; subst. constructor. rewrite in_app_iff. intros [|]; auto. eapply Hz; eauto. left; auto. apply IHp; auto. intros; apply Hz; right; auto. }
  apply G.
  - destruct (old (loc_ e a)) eqn:E; [|constructor]. apply FinFun.Injective_map_NoDup. intros u v Huv; congruence. apply NoDup_filter. apply H; auto. apply Hs; left; auto.
  - apply IH; auto. intros; apply Hs; right; auto.
  - intros [o i] Hz Hq. destruct (old (loc_ e a)); [|destruct Hz]. apply in_map_iff in Hz. destruct Hz as (j & Ej & _). injection Ej as -> ->.
    apply in_flat_map in Hq. destruct Hq as (x & Hx & Hq). destruct (old (loc_ e x)); [|destruct Hq]. apply in_map_iff in Hq. destruct Hq as (k & Ek & _). congruence.
Qed.

(** The two machines: [f] maps the objects of the one that never collects to those of the other. *)
Record Sim (f : nat -> nat) (A C : state) : Prop := {
  s_pres : Preserves f (LR A) (graphOf (hp A) rs) (graphOf (hp C) rs);
  s_lay : forall x, LR A x -> lay (hp C) (f x) = lay (hp A) x
}.
Lemma moved_ptr : forall f w w', moved f w w' -> ptr w' = option_map f (ptr w).
Proof. intros f [[x|] l|z] w' H; cbn in *; subst; auto. Qed.
Lemma roots_at : forall f h h', Forall2 (moved f) (start (graphOf h rs)) (start (graphOf h' rs)) <-> forall r, r < n -> moved f (root h r) (root h' r).
Proof.
  intros f h h'. cbn. assert (G : forall l, Forall2 (moved f) (map (root h) l) (map (root h') l) <-> forall r, In r l -> moved f (root h r) (root h' r)).
  { induction l as [|a l IH]; cbn; split; intros H; try constructor. intros r []. 
    inversion H; subst. intros r [<-|Hr]; auto. apply IH; auto. apply H; auto. apply IH. intros; apply H; auto. }
  rewrite G. split; intros H r Hr; apply H. apply in_seq; lia. apply in_seq in Hr; lia.
Qed.

Lemma gc_ok : forall mj s, WF s -> exists s' f, gc mj n s = Some s' /\ WF s' /\ Sim f s s'.
Proof.
  intros mj s [Wn Wm Wl Wr]. unfold gc. set (e := Env (base (here s)) (loc_ (here s)) mj).
  assert (HL : forall x, live e (hp s) rs x -> LK s x). { intros x. apply Live_mono. intros y (_ & A & B). split; auto. }
  assert (HR : Ready e (hp s) (if mj then [] else dirtySlots e (hp s)) rs).
  { constructor; auto.
    - split. apply seq_NoDup. destruct n; [lia|discriminate].
    - cbn [major e]. destruct mj; auto. split; [|split].
      + apply nodup_dirty. intros o H1 H2. apply Wl. apply live_kept. split; auto.
      + intros o i H. apply in_dirty in H. tauto.
      + intros o i y H1 H2 H3 H4 H5. apply in_dirty. split; auto. split; auto. split; auto. eapply Wr; eauto. }
  destruct (collection e (hp s) _ rs (S (base e)) HR (Nat.lt_succ_diag_r _)) as (h' & f & E & HP & Hlay & _ & _ & _ & Hfin).
  rewrite E. destruct (finish e h') as [e' h2] eqn:EF. exists (St e' h2), f.
  assert (Eh : mem h2 = mem h' /\ root h2 = root h' /\ lay h2 = lay h' /\ next h2 = base e' /\ marked h2 = [] /\ (forall x, mk h2 x = false)).
  { unfold finish in EF. injection EF as <- <-. repeat split; auto. }
  destruct Eh as (Em & Er & Ely & En & Emk & Emk2). destruct Hfin as (F1 & F2 & F3).
  assert (EG : graphOf h2 rs = graphOf h' rs) by (unfold graphOf; rewrite Em, Er, Ely; auto).
  assert (Hfield : forall x i y', live e (hp s) rs x -> In i (lay h' (f x)) -> ptr (mem h' (f x) i) = Some y' -> exists y, live e (hp s) rs y /\ f y = y' /\ ptr (mem (hp s) x i) = Some y /\ In i (lay (hp s) x)).
  { intros x i y' Hx Hi Hp. rewrite Hlay in Hi by auto. pose proof (pr_refs _ _ _ _ HP x i Hx Hi) as H. apply moved_ptr in H. cbn in H. rewrite Hp in H.
    destruct (ptr (mem (hp s) x i)) as [y|] eqn:Ey; [|discriminate]. cbn in H. injection H as H. exists y. repeat split; auto. eapply live_field; eauto. }
  assert (HLK : forall x', LK (St e' h2) x' -> exists x, live e (hp s) rs x /\ f x = x').
  { apply Live_sub; cbn [hp here].
    - intros x' [H1 H2]. auto.
    - intros w x' Hw Hp. rewrite EG in Hw. apply in_start in Hw. destruct Hw as (r & Hr & ->).
      pose proof (proj1 (roots_at f (hp s) h') (pr_roots _ _ _ _ HP) r Hr) as H. apply moved_ptr in H. rewrite Hp in H.
      destruct (ptr (root (hp s) r)) as [x|] eqn:Ex; [|discriminate]. cbn in H. injection H as H. exists x. split; auto. eapply live_root; eauto. apply in_start. eauto.
    - intros x' i y' (x & Hx & <-) Hi Hp. rewrite EG in *. destruct (Hfield x i y' Hx Hi Hp) as (y & A1 & A2 & _). eauto. }
  split; auto. split.
  - constructor; cbn [hp here]; auto.
    + intros x' Hx'. destruct (HLK x' Hx') as (x & Hx & <-). rewrite Ely, Hlay by auto. split. auto. destruct (Wl x (HL x Hx)) as (_ & A). auto.
    + intros o i y' Ho Hold Hi Hp Hy. destruct (F2 o Ho Hold) as (x & Hx & <-). rewrite Em, Ely in *. destruct (Hfield x i y' Hx Hi Hp) as (y & A1 & <- & A3 & A4). eapply F3; eauto.
  - assert (Hsub : forall x, LR s x -> live e (hp s) rs x) by (intros x; apply Live_mono; tauto).
    constructor; cbn [hp]; rewrite ?EG.
    + destruct HP. constructor; auto.
    + intros x Hx. rewrite Ely. auto.
Qed.

(** Mutator steps keep a state well formed. *)
Lemma wf_root : forall s d w, WF s -> (forall y, ptr w = Some y -> LK s y) -> WF (St (here s) (setRoot (hp s) d w)).
Proof.
  intros s d w [Wn Wm Wl Wr] Hw. constructor; auto; cbn [hp here setRoot mem lay rem].
  intros x Hx. apply Wl. revert x Hx. apply Live_sub.
  - intros x H. apply live_kept. auto.
  - intros v x Hv Hp. apply in_start in Hv. destruct Hv as (r & Hr & ->). cbn in Hp. unfold upd in Hp. destruct (r =? d); auto. eapply live_root; eauto. apply in_start. eauto.
  - intros x i y Hx Hi Hp. eapply live_field; eauto.
Qed.
Lemma mark_same : forall loc h p i, mem (mark loc h p i) = mem h /\ root (mark loc h p i) = root h /\ lay (mark loc h p i) = lay h /\ next (mark loc h p i) = next h /\ marked (mark loc h p i) = marked h /\ mk (mark loc h p i) = mk h.
Proof. intros. unfold mark. destruct (old (loc p)); [|repeat split]. destruct (ptr (mem h p i)) as [t|]; [|repeat split]. destruct (old (loc t)); repeat split. Qed.
Lemma mark_rem : forall loc h p i, (forall a j, rem h a j = true -> rem (mark loc h p i) a j = true) /\
  (forall y, old (loc p) = true -> ptr (mem h p i) = Some y -> old (loc y) = false -> rem (mark loc h p i) p i = true).
Proof.
  intros. unfold mark. split.
  - intros a j H. destruct (old (loc p)); auto. destruct (ptr (mem h p i)) as [t|]; auto. destruct (old (loc t)); auto. cbn. destruct (_ && _); auto.
  - intros y H1 H2 H3. rewrite H1, H2, H3. cbn. rewrite !Nat.eqb_refl. auto.
Qed.
Lemma wf_field : forall s x i w, WF s -> LK s x -> In i (lay (hp s) x) -> (forall y, ptr w = Some y -> LK s y) ->
  WF (St (here s) (mark (loc_ (here s)) (setMem (hp s) (upd2 (mem (hp s)) x i w)) x i)).
Proof.
  intros s x i w [Wn Wm Wl Wr] Hx Hi Hw. set (h1 := setMem (hp s) (upd2 (mem (hp s)) x i w)).
  destruct (mark_same (loc_ (here s)) h1 x i) as (E1 & E2 & E3 & E4 & E5 & E6). destruct (mark_rem (loc_ (here s)) h1 x i) as [M1 M2].
  constructor; cbn [hp here]; rewrite ?E4, ?E5, ?E6; auto.
  - intros z Hz. rewrite E3. apply Wl. revert z Hz. apply Live_sub; cbn [hp].
    + intros z H. apply live_kept. auto.
    + intros v z Hv Hp. apply in_start in Hv. destruct Hv as (r & Hr & ->). rewrite E2 in Hp. eapply live_root; eauto. apply in_start. exists r. auto.
    + intros z j y Hz Hj Hp. cbn [graphOf refs words] in Hj, Hp. rewrite E3 in Hj. rewrite E1 in Hp. cbn [h1 setMem mem lay] in Hj, Hp. unfold upd2 in Hp. destruct (_ && _) eqn:EE; auto. eapply live_field; eauto.
  - intros o j y H1 H2 H3 H4 H5. rewrite E3 in H3. rewrite E1 in H4. cbn [h1 setMem mem lay] in H3, H4. unfold upd2 in H4. destruct (Nat.eqb_spec o x); cbn [andb] in H4.
    + destruct (Nat.eqb_spec j i).
      * subst o j. eapply M2; eauto. cbn [h1 setMem mem]. rewrite upd2_s. auto.
      * apply M1. cbn. eapply Wr; eauto.
    + apply M1. cbn. eapply Wr; eauto.
Qed.
Lemma wf_data : forall s x i w, WF s -> ~ In i (lay (hp s) x) -> WF (St (here s) (setMem (hp s) (upd2 (mem (hp s)) x i w))).
Proof.
  intros s x i w [Wn Wm Wl Wr] Hi.
  assert (Hm : forall a j, In j (lay (hp s) a) -> upd2 (mem (hp s)) x i w a j = mem (hp s) a j).
  { intros a j Hj. apply upd2_o. destruct (Nat.eq_dec a x) as [Ea|Ea]; [destruct (Nat.eq_dec j i) as [Ej|Ej]|]; [exfalso; rewrite Ea, Ej in Hj; auto|right; auto|left; auto]. }
  constructor; auto; cbn [hp here setMem mem lay rem].
  - intros z Hz. apply Wl. revert z Hz. apply Live_sub.
    + intros z H. apply live_kept. auto.
    + intros v z Hv Hp. eapply live_root; eauto.
    + intros z j y Hz Hj Hp. cbn in Hj, Hp. rewrite Hm in Hp by auto. eapply live_field; eauto.
  - intros o j y H1 H2 H3 H4 H5. rewrite Hm in H4 by auto. eapply Wr; eauto.
Qed.
Lemma existsb_in : forall j l, existsb (Nat.eqb j) l = true <-> In j l.
Proof. intros. rewrite existsb_exists. split. intros (x & H & E). apply Nat.eqb_eq in E. congruence. intros. exists j. rewrite Nat.eqb_refl. auto. Qed.
Lemma wf_alloc : forall s d cls l fx, WF s -> NoDup l -> ~ In 0 l -> (forall y, ptr cls = Some y -> LK s y) -> WF (alloc d cls l fx s).
Proof.
  intros s d cls l fx [Wn Wm Wl Wr] Hl H0 Hc. set (b := base (here s)).
  assert (Hsub : forall x, LK (alloc d cls l fx s) x -> LK s x \/ x = b).
  { apply Live_sub; cbn [alloc hp here base loc_].
    - intros x [H1 H2]. cbn in H1, H2. unfold upd in H2. destruct (Nat.eqb_spec x (base (here s))); auto. left. apply live_kept. split; auto. lia.
    - intros v z Hv Hp. apply in_start in Hv. destruct Hv as (r & Hr & ->). cbn in Hp. unfold upd in Hp. destruct (r =? d). cbn in Hp. right. unfold b. congruence.
      left. eapply live_root; eauto. apply in_start. eauto.
    - intros x i y Hx Hi Hp. cbn in Hi, Hp. unfold upd in Hi. destruct (Nat.eqb_spec x (base (here s))).
      + destruct (i =? 0); auto. destruct (existsb _ l); discriminate.
      + destruct Hx as [Hx|Hx]; [|unfold b in Hx; congruence]. left. eapply live_field; eauto. }
  constructor; auto; cbn [alloc hp here base next lay rem mem loc_].
  - intros x Hx. unfold upd. destruct (Nat.eqb_spec x (base (here s))).
    + subst. split; [lia|]. split; [constructor; auto|left; auto].
    + apply Hsub in Hx. destruct Hx as [Hx|Hx]; [|unfold b in Hx; congruence]. destruct (Wl x Hx) as (A1 & A2). split; auto.
  - intros o i y H1 H2 H3 H4 H5. unfold upd in *. destruct (Nat.eqb_spec o (base (here s))).
    + destruct fx; discriminate.
    + assert (o < base (here s)) by lia. destruct (Nat.eqb_spec y (base (here s))).
      * subst y. assert (LK s (base (here s))). { eapply live_field; eauto. apply live_kept. split; auto. } match goal with HH : LK s (base _) |- _ => apply Wl in HH; lia end.
      * eapply Wr; eauto.
Qed.

Lemma sim_live : forall f A C, Sim f A C -> forall x, LR A x -> LR C (f x).
Proof.
  intros f A C [HP Hl] x Hx. induction Hx as [x []|w x Hw Hp|x i y Hx IH Hi Hp].
  - apply in_start in Hw. destruct Hw as (r & Hr & ->). pose proof (proj1 (roots_at f _ _) (pr_roots _ _ _ _ HP) r Hr) as H. apply moved_ptr in H. rewrite Hp in H.
    eapply live_root; [apply in_start; eauto|]. auto.
  - pose proof (pr_refs _ _ _ _ HP x i Hx Hi) as H. apply moved_ptr in H. rewrite Hp in H. eapply live_field; eauto. cbn. rewrite Hl; auto.
Qed.
Lemma ptr_back : forall f w w' y, moved f w w' -> ptr w' = Some y -> exists x, ptr w = Some x /\ y = f x.
Proof. intros f [[x|] l|z] w' y M P; cbn in M; subst w'; cbn in *; try discriminate. injection P as <-. eauto. Qed.
Lemma sim_onto : forall f A C, Sim f A C -> forall y, LR C y -> exists x, LR A x /\ y = f x.
Proof.
  intros f A C [HP Hl] y Hy. induction Hy as [y []|w y Hw Hp|y i z Hy IH Hi Hp].
  - apply in_start in Hw. destruct Hw as (r & Hr & ->). destruct (ptr_back _ _ _ _ (proj1 (roots_at f _ _) (pr_roots _ _ _ _ HP) r Hr) Hp) as (x & Hx & ->).
    exists x. split; auto. eapply live_root; eauto. apply in_start; eauto.
  - destruct IH as (x & Hx & ->). cbn in Hi. rewrite Hl in Hi by auto. destruct (ptr_back _ _ _ _ (pr_refs _ _ _ _ HP x i Hx Hi) Hp) as (v & Hv & ->).
    exists v. split; auto. eapply live_field; eauto.
Qed.
Lemma sim_at : forall f A C r, Sim f A C -> r < n -> moved f (root (hp A) r) (root (hp C) r).
Proof. intros f A C r [HP _] Hr. apply (proj1 (roots_at f _ _) (pr_roots _ _ _ _ HP) r Hr). Qed.
Lemma LR_root : forall s r y, r < n -> ptr (root (hp s) r) = Some y -> LR s y.
Proof. intros. eapply live_root; eauto. apply in_start. eauto. Qed.
Lemma Sim_intro : forall f A C (P : nat -> Prop), (forall x, LR A x -> P x) ->
  (forall x y, P x -> P y -> f x = f y -> x = y) -> (forall x i, P x -> In i (lay (hp A) x) -> moved f (mem (hp A) x i) (mem (hp C) (f x) i)) ->
  (forall x i, P x -> ~ In i (lay (hp A) x) -> mem (hp C) (f x) i = mem (hp A) x i) -> (forall r, r < n -> moved f (root (hp A) r) (root (hp C) r)) ->
  (forall x, P x -> lay (hp C) (f x) = lay (hp A) x) -> Sim f A C.
Proof.
  intros f A C P HP H1 H2 H3 H4 H5. constructor; [constructor|]; auto.
  - intros x i Hx Hi. apply H2; auto.
  - intros x i Hx Hi. apply H3; auto.
  - apply roots_at. auto.
Qed.
Lemma sim_root : forall f A C d w w', Sim f A C -> moved f w w' -> (forall y, ptr w = Some y -> LR A y) ->
  Sim f (St (here A) (setRoot (hp A) d w)) (St (here C) (setRoot (hp C) d w')).
Proof.
  intros f A C d w w' HS Hm Hw. assert (HS' := HS). destruct HS as [[S1 S2 S3 S4] S5]. apply Sim_intro with (LR A); auto.
  - apply Live_sub.
    + tauto.
    + intros v x Hv Hp. apply in_start in Hv. destruct Hv as (r & Hr & ->). cbn in Hp. unfold upd in Hp. destruct (r =? d); auto. eapply LR_root; eauto.
    + intros x i y Hx Hi Hp. eapply live_field; eauto.
  - intros r Hr. cbn. unfold upd. destruct (r =? d); auto. apply sim_at; auto.
Qed.
Lemma sim_store : forall f A C hA hC x i w w', Sim f A C -> LR A x -> moved f w w' -> (forall y, ptr w = Some y -> LR A y) ->
  (~ In i (lay (hp A) x) -> w' = w) ->
  mem hA = upd2 (mem (hp A)) x i w -> root hA = root (hp A) -> lay hA = lay (hp A) ->
  mem hC = upd2 (mem (hp C)) (f x) i w' -> root hC = root (hp C) -> lay hC = lay (hp C) ->
  Sim f (St (here A) hA) (St (here C) hC).
Proof.
  intros f A C hA hC x i w w' HS Hx Hm Hw Hd A1 A2 A3 C1 C2 C3. assert (HS' := HS). destruct HS as [[S1 S2 S3 S4] S5].
  assert (Hcase : forall z j, LR A z -> (z = x /\ j = i /\ mem hC (f z) j = w' /\ mem hA z j = w) \/ (mem hC (f z) j = mem (hp C) (f z) j /\ mem hA z j = mem (hp A) z j)).
  { intros z j Hz. rewrite A1, C1. unfold upd2. destruct (Nat.eqb_spec z x), (Nat.eqb_spec j i); cbn; subst; rewrite ?Nat.eqb_refl; cbn; auto 7.
    - right. rewrite (proj2 (Nat.eqb_neq (f z) (f x))). auto. intro E. apply S1 in E; auto.
    - right. rewrite andb_false_r. auto. }
  apply Sim_intro with (LR A); cbn [hp]; rewrite ?A2, ?A3, ?C2, ?C3; auto.
  - apply Live_sub; cbn [hp].
    + tauto.
    + intros v z Hv Hp. apply in_start in Hv. destruct Hv as (r & Hr & ->). rewrite A2 in Hp. eapply LR_root; eauto.
    + intros z j y Hz Hj Hp. cbn in Hj, Hp. rewrite A3 in Hj. destruct (Hcase z j Hz) as [(-> & -> & _ & E)|[_ E]]; rewrite E in Hp; auto. eapply live_field; eauto.
  - intros z j Hz Hj. destruct (Hcase z j Hz) as [(-> & -> & E1 & E2)|[E1 E2]]; rewrite E1, E2; auto. apply S2; auto.
  - intros z j Hz Hj. destruct (Hcase z j Hz) as [(-> & -> & E1 & E2)|[E1 E2]]; rewrite E1, E2; auto. apply S3; auto.
  - intros r Hr. apply sim_at; auto.
Qed.
Lemma moved_ext : forall f g w w', (forall y, ptr w = Some y -> f y = g y) -> moved f w w' -> moved g w w'.
Proof. intros f g [[y|] l|z] w' H M; cbn in *; auto. rewrite <- H; auto. Qed.
Lemma sim_alloc : forall f A C d cls cls' l fx, Sim f A C -> WF A -> WF C -> moved f cls cls' -> (forall y, ptr cls = Some y -> LR A y) ->
  Sim (upd f (base (here A)) (base (here C))) (alloc d cls l fx A) (alloc d cls' l fx C).
Proof.
  intros f A C d cls cls' l fx HS WA WC Hm Hc. assert (HS' := HS). destruct HS as [[S1 S2 S3 S4] S5].
  set (a := base (here A)). set (c := base (here C)).
  assert (La : forall x, LR A x -> x < a) by (intros x Hx; apply (w_live _ WA); apply LR_LK; auto).
  assert (Lc : forall x, LR A x -> f x < c) by (intros x Hx; apply (w_live _ WC); apply LR_LK; apply (sim_live _ _ _ HS'); auto).
  assert (Hf : forall x, LR A x -> upd f a c x = f x) by (intros x Hx; unfold upd; rewrite (proj2 (Nat.eqb_neq x a)); auto; specialize (La x Hx); lia).
  assert (Ha : upd f a c a = c) by (unfold upd; rewrite Nat.eqb_refl; auto).
  assert (Hme : forall w w', (forall y, ptr w = Some y -> LR A y) -> moved f w w' -> moved (upd f a c) w w').
  { intros w w' H. apply moved_ext. intros y Hy. symmetry. apply Hf. auto. }
  apply Sim_intro with (fun x => LR A x \/ x = a); cbn [alloc hp mem root lay]; fold a; fold c.
  - apply Live_sub; cbn [alloc hp].
    + tauto.
    + intros v z Hv Hp. apply in_start in Hv. destruct Hv as (r & Hr & ->). cbn in Hp. unfold upd in Hp. destruct (r =? d). cbn in Hp. right. unfold a. congruence. left. eapply LR_root; eauto.
    + intros x i y Hx Hi Hp. cbn in Hi, Hp. fold a in Hi, Hp. unfold upd in Hi. destruct (Nat.eqb_spec x a).
      * destruct (i =? 0); auto. destruct (existsb _ l); discriminate.
      * destruct Hx as [Hx|Hx]; [|congruence]. left. eapply live_field; eauto.
  - intros x y [Hx| ->] [Hy| ->] E; auto; rewrite ?Ha, ?Hf in E by auto; auto. specialize (Lc x Hx); lia. specialize (Lc y Hy); lia.
  - intros x i [Hx| ->] Hi.
    + specialize (La x Hx) as La'. specialize (Lc x Hx) as Lc'. rewrite Hf by auto. unfold upd in Hi. rewrite (proj2 (Nat.eqb_neq x a)) in * by lia. rewrite (proj2 (Nat.eqb_neq (f x) c)) by lia.
      apply Hme. intros y Hy. eapply live_field; eauto. apply S2; auto.
    + rewrite Ha. rewrite !Nat.eqb_refl. destruct (i =? 0). apply Hme; auto. destruct (existsb _ l); cbn; auto.
  - intros x i [Hx| ->] Hi.
    + specialize (La x Hx) as La'. specialize (Lc x Hx) as Lc'. rewrite Hf by auto. unfold upd in Hi. rewrite (proj2 (Nat.eqb_neq x a)) in * by lia. rewrite (proj2 (Nat.eqb_neq (f x) c)) by lia. apply S3; auto.
    + rewrite Ha. rewrite !Nat.eqb_refl. unfold upd in Hi. rewrite Nat.eqb_refl in Hi. destruct (Nat.eqb_spec i 0). subst. destruct Hi. left; auto. auto.
  - intros r Hr. unfold upd at 2 3. destruct (r =? d).
    + cbn. rewrite Ha. auto.
    + apply Hme. intros y. apply LR_root; auto. apply sim_at; auto.
  - intros x [Hx| ->].
    + rewrite Hf by auto. specialize (La x Hx) as La'. specialize (Lc x Hx) as Lc'. unfold upd. rewrite (proj2 (Nat.eqb_neq x a)) by lia. rewrite (proj2 (Nat.eqb_neq (f x) c)) by lia. auto.
    + rewrite Ha. unfold upd. rewrite !Nat.eqb_refl. auto.
Qed.

Lemma isRef_in : forall h x i, isRef h x i = true <-> In i (lay h x).
Proof. intros. apply existsb_in. Qed.
Lemma isRef_not : forall h x i, isRef h x i = false <-> ~ In i (lay h x).
Proof. intros. rewrite <- isRef_in. destruct (isRef h x i); split; congruence. Qed.

Lemma step_ok : forall o f A C, isGc o = false -> Sim f A C -> WF A -> WF C ->
  exists A' C' r f', exec1 n o A = Some (A', r) /\ exec1 n o C = Some (C', r) /\ Sim f' A' C' /\ WF A' /\ WF C'.
Proof.
  intros o f A C Hg HS WA WC.
  assert (Hptr : forall r, r < n -> ptr (root (hp C) r) = option_map f (ptr (root (hp A) r))) by (intros r Hr; apply moved_ptr, sim_at; auto).
  assert (HLA : forall r y, r < n -> ptr (root (hp A) r) = Some y -> LR A y) by (intros; eapply LR_root; eauto).
  assert (HLC : forall r y, r < n -> ptr (root (hp C) r) = Some y -> LK C y) by (intros; apply LR_LK; eapply LR_root; eauto).
  assert (Hnop : exists A' C' r f', Some (A, OutNone) = Some (A', r) /\ Some (C, OutNone) = Some (C', r) /\ Sim f' A' C' /\ WF A' /\ WF C') by (exists A, C, OutNone, f; auto).
  assert (Href : forall x i, LR A x -> isRef (hp C) (f x) i = isRef (hp A) x i) by (intros x i Hx; unfold isRef; rewrite (s_lay _ _ _ HS); auto).
  destruct o; cbn [exec1]; try discriminate.
  - (* OMove *) destruct (Nat.ltb_spec d n); cbn [andb]; auto. destruct (Nat.ltb_spec r n); auto.
    eexists _, _, _, f. split; [reflexivity|]. split; [reflexivity|]. split; [|split].
    + apply sim_root; auto. apply sim_at; auto. intros y. apply HLA; auto.
    + apply wf_root; auto. intros y Hy. apply LR_LK. eapply HLA; eauto.
    + apply wf_root; auto. intros y Hy. eapply HLC; eauto.
  - (* ONull *) destruct (Nat.ltb_spec d n); auto.
    eexists _, _, _, f. split; [reflexivity|]. split; [reflexivity|]. split; [|split].
    + apply sim_root; cbn; auto; discriminate.
    + apply wf_root; auto; discriminate.
    + apply wf_root; auto; discriminate.
  - (* OLoad *) destruct (Nat.ltb_spec d n); cbn [andb]; auto. destruct (Nat.ltb_spec r n); auto. rewrite Hptr by auto.
    destruct (ptr (root (hp A) r)) as [x|] eqn:Ex; cbn [option_map]; auto. assert (Hx : LR A x) by eauto. rewrite Href by auto.
    destruct (isRef (hp A) x i) eqn:Ei; auto. apply isRef_in in Ei.
    assert (Hm : moved f (mem (hp A) x i) (mem (hp C) (f x) i)) by (apply (pr_refs _ _ _ _ (s_pres _ _ _ HS)); auto).
    eexists _, _, _, f. split; [reflexivity|]. split; [reflexivity|]. split; [|split].
    + apply sim_root; auto. intros y Hy. eapply live_field; eauto.
    + apply wf_root; auto. intros y Hy. apply LR_LK. eapply live_field; eauto.
    + apply wf_root; auto. intros y Hy. apply LR_LK. eapply live_field; [apply (sim_live _ _ _ HS _ Hx)| |exact Hy]. cbn. rewrite (s_lay _ _ _ HS); auto.
  - (* OStore *) destruct (Nat.ltb_spec d n); cbn [andb]; auto. destruct (Nat.ltb_spec r n); auto. rewrite Hptr by auto.
    destruct (ptr (root (hp A) r)) as [x|] eqn:Ex; cbn [option_map]; auto. assert (Hx : LR A x) by eauto. rewrite Href by auto.
    destruct (isRef (hp A) x i) eqn:Ei; auto. apply isRef_in in Ei.
    eexists _, _, _, f. split; [reflexivity|]. split; [reflexivity|]. split; [|split].
    + destruct (mark_same (loc_ (here A)) (setMem (hp A) (upd2 (mem (hp A)) x i (root (hp A) d))) x i) as (E1 & E2 & E3 & _).
      destruct (mark_same (loc_ (here C)) (setMem (hp C) (upd2 (mem (hp C)) (f x) i (root (hp C) d))) (f x) i) as (F1 & F2 & F3 & _).
      eapply sim_store with (x := x) (i := i) (w := root (hp A) d) (w' := root (hp C) d); eauto. apply sim_at; auto. tauto.
    + apply wf_field; auto. apply LR_LK; auto. intros y Hy. apply LR_LK. eapply HLA; [|exact Hy]; auto.
    + apply wf_field; auto. apply LR_LK. apply (sim_live _ _ _ HS _ Hx). rewrite (s_lay _ _ _ HS); auto. intros y Hy. eapply HLC; [|exact Hy]; auto.
  - (* OPut *) destruct (Nat.ltb_spec r n); auto. rewrite Hptr by auto.
    destruct (ptr (root (hp A) r)) as [x|] eqn:Ex; cbn [option_map]; auto. assert (Hx : LR A x) by eauto. rewrite Href by auto.
    destruct (isRef (hp A) x i) eqn:Ei; auto. apply isRef_not in Ei.
    eexists _, _, _, f. split; [reflexivity|]. split; [reflexivity|]. split; [|split].
    + eapply sim_store with (x := x) (i := i) (w := Data z) (w' := Data z); cbn; eauto. discriminate.
    + apply wf_data; auto.
    + apply wf_data; auto. rewrite (s_lay _ _ _ HS); auto.
  - (* OGet *) destruct (Nat.ltb_spec r n); auto. rewrite Hptr by auto.
    destruct (ptr (root (hp A) r)) as [x|] eqn:Ex; cbn [option_map]; auto. assert (Hx : LR A x) by eauto. rewrite Href by auto.
    destruct (isRef (hp A) x i) eqn:Ei; auto. apply isRef_not in Ei.
    assert (Em : mem (hp C) (f x) i = mem (hp A) x i) by (apply (pr_data _ _ _ _ (s_pres _ _ _ HS)); auto). rewrite Em.
    eexists A, C, _, f. split; [reflexivity|]. split; [reflexivity|]. auto.
  - (* OSame *) destruct (Nat.ltb_spec a n); cbn [andb]; auto. destruct (Nat.ltb_spec b n); auto. rewrite !Hptr by auto.
    assert (E : eqo (option_map f (ptr (root (hp A) a))) (option_map f (ptr (root (hp A) b))) = eqo (ptr (root (hp A) a)) (ptr (root (hp A) b))).
    { destruct (ptr (root (hp A) a)) as [x|] eqn:Ex, (ptr (root (hp A) b)) as [y|] eqn:Ey; cbn; auto.
      destruct (Nat.eqb_spec x y). subst. apply Nat.eqb_refl. apply Nat.eqb_neq. intro E. apply n0. eapply (pr_inj _ _ _ _ (s_pres _ _ _ HS)); eauto. }
    rewrite E. eexists A, C, _, f. split; [reflexivity|]. split; [reflexivity|]. auto.
  - (* ONew *) destruct (Nat.ltb_spec d n); cbn [andb]; auto. destruct (Nat.ltb_spec c n); cbn [andb]; auto. destruct (existsb (Nat.eqb 0) l) eqn:E0; cbn [negb]; auto.
    assert (HH0 : ~ In 0 (nodup Nat.eq_dec l)). { rewrite nodup_In, <- existsb_in. congruence. }
    eexists _, _, _, _. split; [reflexivity|]. split; [reflexivity|]. split; [|split].
    + apply sim_alloc; eauto. apply sim_at; auto.
    + apply wf_alloc; auto. apply NoDup_nodup. intros y Hy. apply LR_LK. eapply HLA; [|exact Hy]; auto.
    + apply wf_alloc; auto. apply NoDup_nodup. intros y Hy. eapply HLC; [|exact Hy]; auto.
Qed.

Lemma Sim_trans : forall f g A C C', Sim f A C -> Sim g C C' -> Sim (fun x => g (f x)) A C'.
Proof.
  intros f g A C C' HS HS'. assert (HL := sim_live _ _ _ HS). assert (HS0 := HS). assert (HS0' := HS'). destruct HS as [[S1 S2 S3 S4] S5], HS' as [[S1' S2' S3' S4'] S5'].
  assert (Hm : forall w w' w'', moved f w w' -> moved g w' w'' -> moved (fun x => g (f x)) w w'').
  { intros [[x|] l|z] w' w'' M M'; cbn in *; subst; cbn in *; auto. }
  apply Sim_intro with (LR A); auto.
  - intros x i Hx Hi. eapply Hm. apply (S2 x i); auto. apply (S2' (f x) i); auto. cbn. rewrite S5; auto.
  - intros x i Hx Hi. etransitivity. apply (S3' (f x) i); auto. cbn. rewrite S5; auto. apply (S3 x i); auto.
  - intros r Hr. eapply Hm; apply sim_at; eauto.
  - intros x Hx. rewrite S5', S5; auto.
Qed.
Theorem exec_ok : forall ops f A C, Sim f A C -> WF A -> WF C ->
  exists A' C' out, exec n (filter (fun o => negb (isGc o)) ops) A = Some (A', out) /\ exec n ops C = Some (C', out).
Proof.
  induction ops as [|o ops IH]; intros f A C HS WA WC.
  - exists A, C, []. auto.
  - cbn [filter exec]. destruct (isGc o) eqn:Eg; cbn [negb].
    + destruct o; try discriminate. cbn [exec1]. destruct (gc_ok mj C WC) as (C' & g & E & WC' & HG). rewrite E.
      destruct (IH _ A C' (Sim_trans _ _ _ _ _ HS HG) WA WC') as (A2 & C2 & out & E1 & E2). exists A2, C2, out. rewrite E1, E2. auto.
    + destruct (step_ok o f A C Eg HS WA WC) as (A' & C' & r & f' & E1 & E2 & HS' & WA' & WC').
      destruct (IH f' A' C' HS' WA' WC') as (A2 & C2 & out & E3 & E4). cbn [exec]. rewrite E1, E2, E3, E4, Eg. exists A2, C2, (r :: out). auto.
Qed.
Lemma empty_live : forall x, LK empty x -> False.
Proof. apply Live_sub. intros x [H _]. cbn in H. lia. intros w x Hw Hp. apply in_start in Hw. destruct Hw as (r & _ & ->). discriminate. tauto. Qed.
Lemma empty_wf : WF empty.
Proof. constructor; cbn; auto. intros x Hx. destruct (empty_live x Hx). Qed.
Lemma sim_refl : forall A, Sim (fun x => x) A A.
Proof. intros A. apply Sim_intro with (LR A); auto. intros x i _ _. destruct (mem (hp A) x i) as [[]|]; cbn; auto. intros r _. destruct (root (hp A) r) as [[]|]; cbn; auto. Qed.
Lemma exec_wf : forall ops A A' out, WF A -> exec n ops A = Some (A', out) -> WF A'.
Proof.
  induction ops as [|o ops IH]; cbn [exec]; intros A A' out W E. inversion E; subst; auto.
  destruct (exec1 n o A) as [[A1 r]|] eqn:E1; [|discriminate]. destruct (exec n ops A1) as [[A2 l]|] eqn:E2; [|discriminate]. inversion E; subst. apply IH in E2; auto.
  destruct (isGc o) eqn:Eg.
  - destruct o; try discriminate. cbn [exec1] in E1. destruct (gc_ok mj A W) as (A3 & g & E3 & W3 & _). rewrite E3 in E1. inversion E1; subst; auto.
  - destruct (step_ok o _ A A Eg (sim_refl A) W W) as (A3 & A4 & r3 & f3 & E3 & _ & _ & W3 & _). congruence.
Qed.
Theorem run_ok : forall ops, exists A C out, exec n (filter (fun o => negb (isGc o)) ops) empty = Some (A, out) /\ exec n ops empty = Some (C, out).
Proof. intros ops. apply exec_ok with (fun x => x). apply sim_refl. apply empty_wf. apply empty_wf. Qed.
End N.
