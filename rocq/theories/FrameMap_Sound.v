(** A pass that leaves nothing dirty has reached a sound fixed point. *)
From Verif Require Import Base FrameMap_Model FrameMap_Spec FrameMap_Proofs FrameMap_Log.
Local Open Scope nat_scope.

Definition sub (a b : N) : Prop := forall i, N.testbit a i = true -> N.testbit b i = true.
Lemma sub_refl : forall a, sub a a. Proof. intros a i H; exact H. Qed.
Lemma sub_trans : forall a b c, sub a b -> sub b c -> sub a c. Proof. unfold sub; auto. Qed.
Lemma sub_land_l : forall a b, sub (N.land a b) a.
Proof. intros a b i H. rewrite N.land_spec in H. apply andb_prop in H. tauto. Qed.
Lemma sub_land_r : forall a b, sub (N.land a b) b.
Proof. intros a b i H. rewrite N.land_spec in H. apply andb_prop in H. tauto. Qed.
Lemma sub_antisym : forall a b, sub a b -> sub b a -> a = b.
Proof.
  intros a b H1 H2. apply N.bits_inj. intros i. specialize (H1 i). specialize (H2 i).
  destruct (N.testbit a i), (N.testbit b i); auto; symmetry; auto.
Qed.
Lemma land_sub : forall a b c, sub a b -> sub a c -> sub a (N.land b c).
Proof. intros a b c H1 H2 i H. rewrite N.land_spec, (H1 i H), (H2 i H). reflexivity. Qed.
Lemma land_absorb : forall a b, N.land b (N.land a b) = N.land a b.
Proof. intros. apply sub_antisym; [apply sub_land_r|]. apply land_sub; [apply sub_land_r|apply sub_refl]. Qed.
Lemma testbit_setbit : forall a i j, N.testbit (N.setbit a i) j = (j =? i)%N || N.testbit a j.
Proof. intros. rewrite N.setbit_eqb, (N.eqb_sym i j). reflexivity. Qed.
Lemma testbit_clearbit : forall a i j, N.testbit (N.clearbit a i) j = negb (j =? i)%N && N.testbit a j.
Proof. intros. rewrite N.clearbit_eqb, (N.eqb_sym i j), andb_comm. reflexivity. Qed.
Lemma sub_setbit : forall a b i, sub a b -> sub (N.setbit a i) (N.setbit b i).
Proof. intros a b i H j. rewrite !testbit_setbit. specialize (H j). destruct (j =? i)%N; auto. Qed.
Lemma sub_clearbit : forall a b i, sub a b -> sub (N.clearbit a i) (N.clearbit b i).
Proof. intros a b i H j. rewrite !testbit_clearbit. specialize (H j). destruct (j =? i)%N; cbn; auto. Qed.

Lemma te_eqb_spec : forall a b, reflect (a = b) (te_eqb a b).
Proof.
  intros [a1 a2] [b1 b2]. unfold te_eqb. cbn [fst snd].
  destruct (Nat.eqb_spec a1 b1), (Nat.eqb_spec a2 b2); constructor; congruence.
Qed.
Lemma updT_same : forall {A} (f : te -> A) k v, updT f k v k = v.
Proof. intros. unfold updT. destruct (te_eqb_spec k k); congruence. Qed.
Lemma updT_other : forall {A} (f : te -> A) k v x, x <> k -> updT f k v x = f x.
Proof. intros A f k v x H. unfold updT. destruct (te_eqb_spec x k); congruence. Qed.

(** ** What the items mention *)
Fixpoint starts1 (x : item) : list nat :=
  match x with
  | IStart ip => [ip]
  | ICtx l => (fix go l := match l with [] => [] | y :: l' => starts1 y ++ go l' end) l
  | _ => []
  end.
Fixpoint starts (l : list item) : list nat :=
  match l with [] => [] | y :: l' => starts1 y ++ starts l' end.
Fixpoint agains1 (x : item) : list nat :=
  match x with
  | IAgain ip => [ip]
  | ICtx l => (fix go l := match l with [] => [] | y :: l' => agains1 y ++ go l' end) l
  | _ => []
  end.
Fixpoint agains (l : list item) : list nat :=
  match l with [] => [] | y :: l' => agains1 y ++ agains l' end.
Fixpoint trs1 (x : item) : list te :=
  match x with
  | ITr e => [e]
  | ICtx l => (fix go l := match l with [] => [] | y :: l' => trs1 y ++ go l' end) l
  | _ => []
  end.
Fixpoint trs (l : list item) : list te :=
  match l with [] => [] | y :: l' => trs1 y ++ trs l' end.

Lemma starts1_ctx : forall l, starts1 (ICtx l) = starts l. Proof. reflexivity. Qed.
Lemma agains1_ctx : forall l, agains1 (ICtx l) = agains l. Proof. reflexivity. Qed.
Lemma trs1_ctx : forall l, trs1 (ICtx l) = trs l. Proof. reflexivity. Qed.
Lemma starts_app : forall a b, starts (a ++ b) = starts a ++ starts b.
Proof. induction a as [|x a IH]; intros; cbn [starts app]; [reflexivity|]. rewrite IH, app_assoc. reflexivity. Qed.
Lemma agains_app : forall a b, agains (a ++ b) = agains a ++ agains b.
Proof. induction a as [|x a IH]; intros; cbn [agains app]; [reflexivity|]. rewrite IH, app_assoc. reflexivity. Qed.
Lemma trs_app : forall a b, trs (a ++ b) = trs a ++ trs b.
Proof. induction a as [|x a IH]; intros; cbn [trs app]; [reflexivity|]. rewrite IH, app_assoc. reflexivity. Qed.

Fixpoint lastOk1 (x : item) (last : bool) : Prop :=
  match x with
  | IAgain _ => last = true
  | ICtx l => (fix go l := match l with
                           | [] => True
                           | y :: l' => lastOk1 y (match l' with [] => true | _ => false end) /\ go l'
                           end) l
  | _ => True
  end.
Fixpoint lastOk (tail : bool) (l : list item) : Prop :=
  match l with
  | [] => True
  | y :: l' => lastOk1 y (match l' with [] => tail | _ => false end) /\ lastOk tail l'
  end.
Lemma lastOk1_ctx : forall l last, lastOk1 (ICtx l) last = lastOk true l.
Proof.
  intros l last. cbn [lastOk1]. induction l as [|y l IH]; [reflexivity|].
  cbn [lastOk]. rewrite <- IH. reflexivity.
Qed.

Fixpoint sep1 (x : item) : Prop :=
  match x with
  | ICtx l => (fix go l := match l with
       | [] => True
       | y :: l' => ((forall ip, In ip (starts1 y ++ agains1 y) -> ~ In ip (starts l'))
                     /\ (forall e, In e (trs1 y) -> ~ In e (trs l'))) /\ sep1 y /\ go l'
       end) l
  | _ => True
  end.
Fixpoint sep (l : list item) : Prop :=
  match l with
  | [] => True
  | y :: l' => ((forall ip, In ip (starts1 y ++ agains1 y) -> ~ In ip (starts l'))
                /\ (forall e, In e (trs1 y) -> ~ In e (trs l'))) /\ sep1 y /\ sep l'
  end.
Lemma sep1_ctx : forall l, sep1 (ICtx l) = sep l. Proof. reflexivity. Qed.

Lemma sep_app : forall a b, sep a -> sep b ->
  (forall ip, In ip (starts a ++ agains a) -> ~ In ip (starts b)) ->
  (forall e, In e (trs a) -> ~ In e (trs b)) -> sep (a ++ b).
Proof.
  induction a as [|x a IH]; intros b Ha Hb H1 H2; [exact Hb|].
  cbn [app sep starts agains trs] in *. destruct Ha as [[A1 A2] [A3 A4]].
  split; [split|split; [exact A3|apply IH; try assumption]].
  - intros ip Hi. rewrite starts_app. intros H. apply in_app_or in H. destruct H as [H|H].
    + exact (A1 ip Hi H).
    + revert H. apply H1. rewrite !in_app_iff in *. tauto.
  - intros e He. rewrite trs_app. intros H. apply in_app_or in H. destruct H as [H|H].
    + exact (A2 e He H).
    + revert H. apply H2. rewrite in_app_iff. tauto.
  - intros ip Hi. apply H1. rewrite !in_app_iff in *. tauto.
  - intros e He. apply H2. rewrite in_app_iff. tauto.
Qed.

(** ** Fixed points *)
Section Ok.
Variables (T : nat -> N) (M : te -> N).
Definition nxt (x : item) (r : N) : N :=
  match x with
  | IStart ip | IAgain ip => T ip
  | IMk i => N.setbit r i
  | ICl i => N.clearbit r i
  | ITr _ | ICtx _ => r
  end.
Definition nxts (l : list item) (r : N) : N := fold_left (fun r x => nxt x r) l r.
Fixpoint ok1 (x : item) (r : N) : Prop :=
  match x with
  | IStart ip | IAgain ip => sub (T ip) r
  | ITr e => M e = r
  | ICtx l => (fix go l r := match l with [] => True | y :: l' => ok1 y r /\ go l' (nxt y r) end) l r
  | _ => True
  end.
Fixpoint ok (l : list item) (r : N) : Prop :=
  match l with [] => True | y :: l' => ok1 y r /\ ok l' (nxt y r) end.
Lemma ok1_ctx : forall l r, ok1 (ICtx l) r = ok l r. Proof. reflexivity. Qed.
Lemma ok_app : forall a b r, ok (a ++ b) r <-> ok a r /\ ok b (nxts a r).
Proof.
  induction a as [|x a IH]; intros b r; cbn [app ok]; [unfold nxts; cbn; tauto|].
  rewrite IH. unfold nxts. cbn [fold_left]. tauto.
Qed.
End Ok.

Lemma ok_ext : forall l T M T' M' r,
  (forall ip, In ip (starts l ++ agains l) -> T' ip = T ip) ->
  (forall e, In e (trs l) -> M' e = M e) ->
  ok T M l r -> ok T' M' l r.
Proof.
  intros l0. apply items_rec2 with
    (P := fun x => forall T M T' M' r,
       (forall ip, In ip (starts1 x ++ agains1 x) -> T' ip = T ip) ->
       (forall e, In e (trs1 x) -> M' e = M e) -> ok1 T M x r -> ok1 T' M' x r)
    (Q := fun l => forall T M T' M' r,
       (forall ip, In ip (starts l ++ agains l) -> T' ip = T ip) ->
       (forall e, In e (trs l) -> M' e = M e) -> ok T M l r -> ok T' M' l r).
  - intros ip T M T' M' r H1 _ H. cbn in *. rewrite (H1 ip) by auto. exact H.
  - intros ip T M T' M' r H1 _ H. cbn in *. rewrite (H1 ip) by auto. exact H.
  - intros; exact I.
  - intros; exact I.
  - intros e T M T' M' r _ H2 H. cbn in *. rewrite (H2 e) by auto. exact H.
  - intros l IH T M T' M' r H1 H2 H. rewrite ok1_ctx in *. rewrite starts1_ctx, agains1_ctx in H1.
    rewrite trs1_ctx in H2. eapply IH; eassumption.
  - intros; exact I.
  - intros x l Hx Hl T M T' M' r H1 H2 [A B]. cbn [starts agains trs] in *.
    assert (E : nxt T' x r = nxt T x r).
    { destruct x; cbn [nxt]; auto; apply H1; cbn; auto; rewrite !in_app_iff; cbn; auto. }
    split.
    + eapply Hx; [| |exact A]; intros; [apply H1|apply H2]; rewrite !in_app_iff in *; tauto.
    + rewrite E. eapply Hl; [| |exact B]; intros; [apply H1|apply H2]; rewrite !in_app_iff in *; tauto.
Qed.

Lemma nxt_ext : forall x T T' r, (forall ip, In ip (starts1 x ++ agains1 x) -> T' ip = T ip) ->
  nxt T' x r = nxt T x r.
Proof. intros x T T' r H. destruct x; cbn [nxt]; auto; apply H; cbn; auto. Qed.

Lemma clean_ok : forall vis l tail r s,
  lastOk tail l -> sep l -> (forall ip, In ip (agains l) -> 1 < vis ip) ->
  dirty (snd (run vis tail l r s)) = false ->
  dirty s = false
  /\ (forall ip, ~ In ip (starts l) -> table (snd (run vis tail l r s)) ip = table s ip)
  /\ (forall e, ~ In e (trs l) -> maps (snd (run vis tail l r s)) e = maps s e)
  /\ ok (table (snd (run vis tail l r s))) (maps (snd (run vis tail l r s))) l r.
Proof.
  intros vis l0. apply items_rec2 with
    (P := fun x => forall last r s,
       lastOk1 x last -> sep1 x -> (forall ip, In ip (agains1 x) -> 1 < vis ip) ->
       dirty (snd (run1 vis x last r s)) = false ->
       dirty s = false
       /\ (forall ip, ~ In ip (starts1 x) -> table (snd (run1 vis x last r s)) ip = table s ip)
       /\ (forall e, ~ In e (trs1 x) -> maps (snd (run1 vis x last r s)) e = maps s e)
       /\ ok1 (table (snd (run1 vis x last r s))) (maps (snd (run1 vis x last r s))) x r
       /\ fst (run1 vis x last r s) = nxt (table (snd (run1 vis x last r s))) x r)
    (Q := fun l => forall tail r s,
       lastOk tail l -> sep l -> (forall ip, In ip (agains l) -> 1 < vis ip) ->
       dirty (snd (run vis tail l r s)) = false ->
       dirty s = false
       /\ (forall ip, ~ In ip (starts l) -> table (snd (run vis tail l r s)) ip = table s ip)
       /\ (forall e, ~ In e (trs l) -> maps (snd (run vis tail l r s)) e = maps s e)
       /\ ok (table (snd (run vis tail l r s))) (maps (snd (run vis tail l r s))) l r).
  - intros ip last r s _ _ _. cbn [run1]. unfold ipStep.
    destruct (1 <? vis ip); cbn [fst snd setTable dirty table maps]; intros D.
    + apply orb_false_elim in D. destruct D as [D _]. split; [exact D|].
      split; [|split; [reflexivity|]].
      * intros x Hx. apply upd_other. cbn in Hx. intuition congruence.
      * cbn [ok1 nxt]. rewrite upd_same. split; [apply sub_land_r|apply land_absorb].
    + split; [exact D|]. split; [|split; [reflexivity|]].
      * intros x Hx. apply upd_other. cbn in Hx. intuition congruence.
      * cbn [ok1 nxt]. rewrite upd_same. split; [apply sub_refl|reflexivity].
  - intros ip last r s Hl _ Hv. cbn [run1]. unfold ipStep. cbn in Hl. subst last.
    specialize (Hv ip (or_introl eq_refl)). apply Nat.ltb_lt in Hv. rewrite Hv.
    cbn [fst snd setTable dirty table maps]. intros D.
    apply orb_false_elim in D. destruct D as [D E]. cbn [andb] in E.
    apply negb_false_iff in E. apply N.eqb_eq in E.
    split; [exact D|]. split; [|split; [reflexivity|]].
    + intros x _. unfold upd. destruct (Nat.eqb_spec x ip) as [->|]; [exact E|reflexivity].
    + cbn [ok1 nxt]. rewrite upd_same. split; [apply sub_land_r|apply land_absorb].
  - intros i last r s _ _ _ D. cbn in *. auto.
  - intros i last r s _ _ _ D. cbn in *. auto.
  - intros e last r s _ _ _. cbn [run1 fst snd setMaps dirty table maps]. intros D.
    apply orb_false_elim in D. destruct D as [D _]. split; [exact D|]. split; [reflexivity|]. split.
    + intros x Hx. apply updT_other. cbn in Hx. intuition congruence.
    + cbn [ok1 nxt]. rewrite updT_same. auto.
  - intros l IH last r s Hl Hs Hv D. rewrite lastOk1_ctx in Hl. rewrite sep1_ctx in Hs.
    rewrite run1_ctx in *. cbn [fst snd] in *. rewrite starts1_ctx, trs1_ctx, ok1_ctx.
    destruct (IH true r s Hl Hs Hv D) as (A & B & C & E). cbn [nxt]. auto.
  - intros tail r s _ _ _ D. cbn in *. auto.
  - intros x l Hx Hl tail r s [L1 L2] [[S1 S2] [S3 S4]] Hv D.
    cbn [run starts trs ok agains] in *.
    destruct (run1 vis x (match l with [] => tail | _ => false end) r s) as [r1 s1] eqn:R1.
    destruct (Hl tail r1 s1 L2 S4) as (A & B & C & E); [|exact D|].
    { intros ip Hi. apply Hv. apply in_or_app. auto. }
    destruct (Hx (match l with [] => tail | _ => false end) r s L1 S3) as (A' & B' & C' & E' & F').
    { intros ip Hi. apply Hv. apply in_or_app. auto. }
    { rewrite R1. exact A. }
    rewrite R1 in B', C', E', F'. cbn [fst snd] in *.
    assert (X : forall ip, In ip (starts1 x ++ agains1 x) ->
              table (snd (run vis tail l r1 s1)) ip = table s1 ip).
    { intros ip Hi. apply B. apply S1. exact Hi. }
    split; [exact A'|]. split; [|split].
    + intros ip Hi. rewrite in_app_iff in Hi. rewrite B by tauto. apply B'. tauto.
    + intros e He. rewrite in_app_iff in He. rewrite C by tauto. apply C'. tauto.
    + split.
      * assert (O : ok (table s1) (maps s1) [x] r) by (cbn; auto).
        apply ok_ext with (T' := table (snd (run vis tail l r1 s1)))
                          (M' := maps (snd (run vis tail l r1 s1))) in O.
        -- cbn in O. tauto.
        -- cbn [starts agains]. rewrite !app_nil_r. exact X.
        -- cbn [trs]. rewrite app_nil_r. intros e He. apply C. apply S2. exact He.
      * rewrite (nxt_ext x (table s1) _ r X). rewrite <- F'. exact E.
Qed.

(** ** Emitted items *)
Definition napply1 (r : N) (e : effect) : N :=
  match e with EMark i => N.setbit r i | EClear i => N.clearbit r i | ETrace => r end.
Definition napply (r : N) (es : list effect) : N := fold_left napply1 es r.

Lemma nxts_app : forall T a b r, nxts T (a ++ b) r = nxts T b (nxts T a r).
Proof. intros. unfold nxts. apply fold_left_app. Qed.
Lemma nxts_eff : forall T es ip k r, nxts T (effItems ip k es) r = napply r es.
Proof. unfold nxts, napply. induction es as [|[i|i|] es IH]; intros; cbn [effItems fold_left nxt napply1]; auto. Qed.
Lemma nxts_B : forall T m bs v its v', emitsB m bs v its v' -> forall r, nxts T its r = r.
Proof. induction 1; intros; [reflexivity|]. unfold nxts. cbn [fold_left nxt]. apply IHemitsB. Qed.

Lemma calls_app : forall a b, calls (a ++ b) = calls a + calls b.
Proof. intros. unfold calls. rewrite filter_app, app_length. reflexivity. Qed.

Lemma ok_eff : forall T M es ip k r, ok T M (effItems ip k es) r ->
  forall pre post, es = pre ++ ETrace :: post -> M (ip, k + calls pre) = napply r pre.
Proof.
  induction es as [|e es IH]; intros ip k r H pre post E; [destruct pre; discriminate|].
  destruct pre as [|p pre].
  - cbn in E. injection E as -> ->. cbn in H. destruct H as [H _]. cbn. rewrite Nat.add_0_r. exact H.
  - cbn in E. injection E as -> ->.
    destruct p as [i|i|]; cbn [effItems ok nxt ok1] in H; destruct H as [_ H];
      specialize (IH _ _ _ H pre post eq_refl); unfold napply in *; cbn [fold_left napply1];
      unfold calls in *; cbn [filter length] in *; rewrite <- ?Nat.add_succ_comm; exact IH.
Qed.
Lemma trs_eff : forall es ip k e, In e (trs (effItems ip k es)) <->
  exists pre post, es = pre ++ ETrace :: post /\ e = (ip, k + calls pre).
Proof.
  induction es as [|x es IH]; intros ip k e.
  - cbn. split; [tauto|]. intros [[|? ?] [? [? _]]]; discriminate.
  - assert (Hc : forall k', In e (trs (effItems ip k' es)) <->
       exists pre post, es = pre ++ ETrace :: post /\ e = (ip, k' + calls pre)) by (intro; apply IH).
    destruct x as [i|i|]; cbn [effItems trs trs1 app].
    + rewrite Hc. split.
      * intros (pre & post & -> & ->). exists (EMark i :: pre), post. split; reflexivity.
      * intros ([|p pre] & post & E & ->); [discriminate|]. injection E as <- ->. exists pre, post. split; reflexivity.
    + rewrite Hc. split.
      * intros (pre & post & -> & ->). exists (EClear i :: pre), post. split; reflexivity.
      * intros ([|p pre] & post & E & ->); [discriminate|]. injection E as <- ->. exists pre, post. split; reflexivity.
    + cbn [In]. rewrite Hc. split.
      * intros [<-|(pre & post & -> & ->)].
        -- exists [], es. cbn. rewrite Nat.add_0_r. split; reflexivity.
        -- exists (ETrace :: pre), post. split; [reflexivity|]. unfold calls. cbn. rewrite Nat.add_succ_r. reflexivity.
      * intros ([|p pre] & post & E & ->).
        -- left. cbn. rewrite Nat.add_0_r. reflexivity.
        -- injection E as <- ->. right. exists pre, post. split; [reflexivity|].
           unfold calls. cbn. rewrite Nat.add_succ_r. reflexivity.
Qed.
Lemma eff_noips : forall es ip k, starts (effItems ip k es) = [] /\ agains (effItems ip k es) = [].
Proof. induction es as [|[i|i|] es IH]; intros; cbn; auto. Qed.
Lemma sep_eff : forall es ip k, sep (effItems ip k es).
Proof.
  induction es as [|[i|i|] es IH]; intros ip k; cbn [effItems sep starts1 agains1 trs1 app]; auto.
  - split; [split; intros ? []|]. split; [exact I|apply IH].
  - split; [split; intros ? []|]. split; [exact I|apply IH].
  - split; [|split; [exact I|apply IH]]. split; [intros ? []|].
    intros e [<-|[]]. rewrite trs_eff. intros (pre & post & _ & E). injection E. lia.
Qed.

Lemma emits_ips : forall m,
  (forall ip hs v its v', emits m ip hs v its v' ->
     (forall x, In x (starts its) -> v x = 0 /\ 0 < v' x /\ x < length (code m))
     /\ (forall x, In x (agains its) -> 1 < v' x /\ x < length (code m))
     /\ (forall e, In e (trs its) -> v (fst e) = 0 /\ 0 < v' (fst e)))
  /\ (forall bs v its v', emitsB m bs v its v' ->
     (forall x, In x (starts its) -> v x = 0 /\ 0 < v' x /\ x < length (code m))
     /\ (forall x, In x (agains its) -> 1 < v' x /\ x < length (code m))
     /\ (forall e, In e (trs its) -> v (fst e) = 0 /\ 0 < v' (fst e)))
  /\ (forall n v its v', emitsN m n v its v' ->
     (forall x, In x (starts its) -> v x = 0 /\ 0 < v' x /\ x < length (code m))
     /\ (forall x, In x (agains its) -> 1 < v' x /\ x < length (code m))
     /\ (forall e, In e (trs its) -> v (fst e) = 0 /\ 0 < v' (fst e))).
Proof.
  intros m. apply emits_mut.
  - intros; cbn; tauto.
  - intros ip hs v ins E V. assert (ip < length (code m)) by (apply nth_error_Some; congruence).
    cbn. split; [tauto|]. split; [|tauto]. intros x [<-|[]]. rewrite upd_same. lia.
  - intros ip hs v ins bs v2 ns v3 E V B [B1 [B2 B3]] N [N1 [N2 N3]].
    assert (ip < length (code m)) by (apply nth_error_Some; congruence).
    pose proof (proj1 (proj2 (emits_grow m)) _ _ _ _ B) as GB.
    pose proof (proj2 (proj2 (emits_grow m)) _ _ _ _ N) as GN.
    assert (G : forall x, upd v ip (S (v ip)) x = 0 -> v x = 0).
    { intros x. unfold upd. destruct (Nat.eqb_spec x ip); [lia|auto]. }
    assert (Gip : 0 < v3 ip) by (specialize (GB ip); specialize (GN ip); rewrite upd_same in GB; lia).
    cbn [starts starts1 agains agains1 trs trs1 app]. rewrite !starts_app, !agains_app, !trs_app.
    destruct (eff_noips (own m hs ins) ip 0) as [-> ->]. cbn [app].
    split; [|split].
    + intros x [<-|H0]; [auto|]. apply in_app_or in H0. destruct H0 as [H0|H0].
      * destruct (B1 x H0) as [X1 [X2 X3]]. specialize (GN x). split; [apply G; exact X1|]. lia.
      * destruct (N1 x H0) as [X1 [X2 X3]]. specialize (GB x). split; [apply G; lia|]. lia.
    + intros x H0. apply in_app_or in H0. destruct H0 as [H0|H0].
      * destruct (B2 x H0). specialize (GN x). lia.
      * apply N2. exact H0.
    + intros e H0. apply in_app_or in H0. destruct H0 as [H0|H0].
      { apply trs_eff in H0. destruct H0 as (pre & post & _ & ->). cbn. auto. }
      apply in_app_or in H0. destruct H0 as [H0|H0].
      * destruct (B3 e H0) as [X1 X2]. specialize (GN (fst e)). split; [apply G; exact X1|]. lia.
      * destruct (N3 e H0) as [X1 X2]. specialize (GB (fst e)). split; [apply G; lia|]. lia.
  - intros; cbn; tauto.
  - intros b bs v its v1 r v2 E [E1 [E2 E3]] B [B1 [B2 B3]].
    pose proof (proj1 (emits_grow m) _ _ _ _ _ E) as GE.
    pose proof (proj1 (proj2 (emits_grow m)) _ _ _ _ B) as GB.
    cbn [starts agains trs]. rewrite starts1_ctx, agains1_ctx, trs1_ctx.
    split; [|split]; intros x H0; apply in_app_or in H0; destruct H0 as [H0|H0].
    + destruct (E1 x H0). specialize (GB x). lia.
    + destruct (B1 x H0). specialize (GE x). lia.
    + destruct (E2 x H0). specialize (GB x). lia.
    + apply B2. exact H0.
    + destruct (E3 x H0). specialize (GB (fst x)). lia.
    + destruct (B3 x H0). specialize (GE (fst x)). lia.
  - intros; cbn; tauto.
  - intros n v its v1 E H. exact H.
Qed.

Lemma emits_sep : forall m,
  (forall ip hs v its v', emits m ip hs v its v' -> sep its)
  /\ (forall bs v its v', emitsB m bs v its v' -> sep its)
  /\ (forall n v its v', emitsN m n v its v' -> sep its).
Proof.
  intros m. destruct (emits_ips m) as [IE [IB IN]]. apply emits_mut.
  - intros; exact I.
  - intros. cbn. repeat split; intros; tauto.
  - intros ip hs v ins bs v2 ns v3 E V B SB N SN.
    destruct (IB _ _ _ _ B) as [B1 [B2 B3]]. destruct (IN _ _ _ _ N) as [N1 [N2 N3]].
    pose proof (proj1 (proj2 (emits_grow m)) _ _ _ _ B) as GB.
    destruct (eff_noips (own m hs ins) ip 0) as [Z1 Z2].
    cbn [sep]. split; [|split; [exact I|]].
    + split; [|intros ? []]. cbn [starts1 agains1 app]. intros x [<-|[]].
      rewrite !starts_app, Z1. cbn [app]. intros H. apply in_app_or in H. destruct H as [H|H].
      * destruct (B1 ip H) as [X _]. rewrite upd_same in X. lia.
      * destruct (N1 ip H) as [X _]. specialize (GB ip). rewrite upd_same in GB. lia.
    + apply sep_app; [apply sep_eff| |rewrite Z1, Z2; intros ? []|].
      * apply sep_app; [exact SB|exact SN| |].
        -- intros x Hx H. destruct (N1 x H) as [X _]. apply in_app_or in Hx. destruct Hx as [Hx|Hx].
           ++ destruct (B1 x Hx). lia.
           ++ destruct (B2 x Hx). lia.
        -- intros e He H. destruct (N3 e H). destruct (B3 e He). lia.
      * intros e He. rewrite trs_app. intros H. apply trs_eff in He.
        destruct He as (pre & post & _ & ->). apply in_app_or in H. destruct H as [H|H].
        -- destruct (B3 _ H) as [X _]. cbn in X. rewrite upd_same in X. lia.
        -- destruct (N3 _ H) as [X _]. cbn in X. specialize (GB ip). rewrite upd_same in GB. lia.
  - intros; exact I.
  - intros b bs v its v1 r v2 E SE B SB.
    destruct (IE _ _ _ _ _ E) as [E1 [E2 E3]]. destruct (IB _ _ _ _ B) as [B1 [B2 B3]].
    cbn [sep]. rewrite starts1_ctx, agains1_ctx, trs1_ctx, sep1_ctx.
    split; [split|split; assumption].
    + intros x Hx H. destruct (B1 x H) as [X _]. apply in_app_or in Hx. destruct Hx as [Hx|Hx].
      * destruct (E1 x Hx). lia.
      * destruct (E2 x Hx). lia.
    + intros e He H. destruct (B3 e H). destruct (E3 e He). lia.
  - intros; exact I.
  - intros; assumption.
Qed.

Lemma lastOk_app : forall a b tail, b <> [] -> lastOk false a -> lastOk tail b -> lastOk tail (a ++ b).
Proof.
  induction a as [|x a IH]; intros b tail Hb Ha H; [exact H|].
  cbn [app lastOk] in *. destruct Ha as [A1 A2]. split; [|apply IH; assumption].
  replace (match a ++ b with [] => tail | _ => false end) with false
    by (destruct a; [destruct b; [congruence|]|]; reflexivity).
  destruct a; exact A1.
Qed.
Lemma lastOk_true : forall l, lastOk false l -> lastOk true l.
Proof.
  induction l as [|x l IH]; [auto|]. cbn [lastOk]. intros [A B]. split; [|auto].
  destruct l; [|exact A]. destruct x; cbn in *; auto.
Qed.
Lemma lastOk_eff : forall es ip k, lastOk false (effItems ip k es).
Proof. induction es as [|[i|i|] es IH]; intros; cbn [effItems lastOk lastOk1]; auto. Qed.
Lemma lastOk_app_t : forall a b, lastOk false a -> lastOk true b -> lastOk true (a ++ b).
Proof.
  intros a [|x b] Ha Hb; [rewrite app_nil_r; apply lastOk_true; exact Ha|].
  apply lastOk_app; [discriminate|exact Ha|exact Hb].
Qed.

Lemma emits_last : forall m,
  (forall ip hs v its v', emits m ip hs v its v' -> lastOk true its)
  /\ (forall bs v its v', emitsB m bs v its v' -> lastOk false its)
  /\ (forall n v its v', emitsN m n v its v' -> lastOk true its).
Proof.
  intros m. apply emits_mut; intros; try exact I; try assumption.
  - cbn. auto.
  - cbn [lastOk lastOk1]. split; [exact I|].
    apply lastOk_app_t; [apply lastOk_eff|]. apply lastOk_app_t; assumption.
  - cbn [lastOk]. rewrite lastOk1_ctx. split; assumption.
Qed.

(** ** The equations a fixed point satisfies *)
Section Local.
Variables (m : method) (T : nat -> N) (M : te -> N).
Hypothesis HB : handlersByException m.

Definition LF (x : nat) : Prop :=
  forall ins, nth_error (code m) x = Some ins ->
    (forall pre post, own m (isHandler m x) ins = pre ++ ETrace :: post ->
        M (x, calls pre) = napply (T x) pre)
    /\ (forall n, In n (succs ins) -> nth_error (code m) n <> None ->
        sub (T n) (napply (T x) (own m (isHandler m x) ins))).

Lemma emits_LF :
  (forall ip hs v its v', emits m ip hs v its v' -> hs = isHandler m ip ->
     forall r, ok T M its r ->
       (nth_error (code m) ip <> None -> sub (T ip) r)
       /\ (forall x, v x = 0 -> 0 < v' x -> LF x))
  /\ (forall bs v its v', emitsB m bs v its v' -> (forall b, In b bs -> isHandler m b = false) ->
     forall r, ok T M its r ->
       (forall b, In b bs -> nth_error (code m) b <> None -> sub (T b) r)
       /\ (forall x, v x = 0 -> 0 < v' x -> LF x))
  /\ (forall n v its v', emitsN m n v its v' -> (forall b, n = Some b -> isHandler m b = false) ->
     forall r, ok T M its r ->
       (forall b, n = Some b -> nth_error (code m) b <> None -> sub (T b) r)
       /\ (forall x, v x = 0 -> 0 < v' x -> LF x)).
Proof.
  apply emits_mut.
  - intros ip hs v E _ r _. split; [congruence|]. intros; lia.
  - intros ip hs v ins E V _ r [H _]. split; [intros _; exact H|].
    intros x X1 X2. unfold upd in X2. destruct (Nat.eqb_spec x ip); subst; lia.
  - intros ip hs v ins bs v2 ns v3 E V B IHB N IHN -> r H.
    cbn [ok ok1 nxt] in H. destruct H as [H1 H2].
    apply ok_app in H2. destruct H2 as [H2 H3]. rewrite nxts_eff in H3.
    apply ok_app in H3. destruct H3 as [H3 H4]. rewrite (nxts_B _ _ _ _ _ _ B) in H4.
    assert (Hs : forall n, In n (succs ins) -> isHandler m n = false) by (intros n; apply (proj2 HB ip ins n E)).
    assert (HsB : forall b, In b (branches ins) -> isHandler m b = false).
    { intros b Hb. apply Hs. unfold succs. apply in_or_app. auto. }
    assert (HsN : forall b, next ins = Some b -> isHandler m b = false).
    { intros b Hb. apply Hs. unfold succs. rewrite Hb. apply in_or_app. right. left. reflexivity. }
    destruct (IHB HsB _ H3) as [B1 B2]. destruct (IHN HsN _ H4) as [N1 N2].
    split; [intros _; exact H1|].
    intros x X1 X2. destruct (Nat.eq_dec x ip) as [->|Hne].
    + intros ins' E'. rewrite E in E'. injection E' as <-. split.
      * intros pre post Ep. apply (ok_eff T M _ ip 0 _ H2 pre post Ep).
      * intros n Hn Hc. unfold succs in Hn. apply in_app_or in Hn. destruct Hn as [Hn|Hn].
        -- apply B1; assumption.
        -- apply N1; [|exact Hc]. destruct (next ins); [destruct Hn as [->|[]]; reflexivity|destruct Hn].
    + destruct (Nat.eq_dec (v2 x) 0) as [Z|Z].
      * apply N2; [exact Z|exact X2].
      * apply B2; [|lia]. rewrite upd_other by exact Hne. exact X1.
  - intros v _ r _. split; [intros b []|]. intros; lia.
  - intros b bs v its v1 r0 v2 E IHE B IHB Hb r [H1 H2]. rewrite ok1_ctx in H1. cbn [nxt] in H2.
    destruct (IHE (eq_sym (Hb b (or_introl eq_refl))) r H1) as [E1 E2].
    destruct (IHB (fun c Hc => Hb c (or_intror Hc)) r H2) as [B1 B2].
    split.
    + intros c [<-|Hc] Hn; [apply E1; exact Hn|apply B1; assumption].
    + intros x X1 X2. destruct (Nat.eq_dec (v1 x) 0); [apply B2; assumption|apply E2; [exact X1|lia]].
  - intros v _ r _. split; [discriminate|]. intros; lia.
  - intros n v its v1 E IHE Hb r H. destruct (IHE (eq_sym (Hb n eq_refl)) r H) as [E1 E2].
    split; [|exact E2]. intros b Eb. injection Eb as <-. exact E1.
Qed.
End Local.

Lemma emits_trs : forall m,
  (forall ip hs v its v', emits m ip hs v its v' -> (handlersByException m) -> hs = isHandler m ip ->
     forall x ins pre post, v x = 0 -> 0 < v' x -> nth_error (code m) x = Some ins ->
       own m (isHandler m x) ins = pre ++ ETrace :: post -> In (x, calls pre) (trs its))
  /\ (forall bs v its v', emitsB m bs v its v' -> (handlersByException m) ->
     (forall b, In b bs -> isHandler m b = false) ->
     forall x ins pre post, v x = 0 -> 0 < v' x -> nth_error (code m) x = Some ins ->
       own m (isHandler m x) ins = pre ++ ETrace :: post -> In (x, calls pre) (trs its))
  /\ (forall n v its v', emitsN m n v its v' -> (handlersByException m) ->
     (forall b, n = Some b -> isHandler m b = false) ->
     forall x ins pre post, v x = 0 -> 0 < v' x -> nth_error (code m) x = Some ins ->
       own m (isHandler m x) ins = pre ++ ETrace :: post -> In (x, calls pre) (trs its)).
Proof.
  intros m. apply emits_mut.
  - intros; lia.
  - intros ip hs v ins E V _ _ x ins' pre post X1 X2. unfold upd in X2. destruct (Nat.eqb_spec x ip); subst; lia.
  - intros ip hs v ins bs v2 ns v3 E V B IHB N IHN HB -> x ins' pre post X1 X2 E' Ep.
    cbn [trs trs1 app]. rewrite !trs_app, !in_app_iff.
    assert (Hs : forall n, In n (succs ins) -> isHandler m n = false) by (intros n; apply (proj2 HB ip ins n E)).
    destruct (Nat.eq_dec x ip) as [->|Hne].
    + rewrite E in E'. injection E' as <-. left. apply trs_eff. exists pre, post. split; [exact Ep|reflexivity].
    + right. destruct (Nat.eq_dec (v2 x) 0) as [Z|Z].
      * right. eapply IHN; try eassumption. intros b Hb. apply Hs. unfold succs. rewrite Hb.
        apply in_or_app. right. left. reflexivity.
      * left. eapply IHB; try eassumption; [|rewrite upd_other by exact Hne; exact X1|lia].
        intros b Hb. apply Hs. unfold succs. apply in_or_app. auto.
  - intros; lia.
  - intros b bs v its v1 r0 v2 E IHE B IHB HB Hb x ins pre post X1 X2 E' Ep.
    cbn [trs]. rewrite trs1_ctx, in_app_iff. destruct (Nat.eq_dec (v1 x) 0).
    + right. eapply IHB; try eassumption. intros c Hc. apply Hb. right. exact Hc.
    + left. eapply IHE; try eassumption; [|lia]. symmetry. apply Hb. left. reflexivity.
  - intros; lia.
  - intros n v its v1 E IHE HB Hb x ins pre post X1 X2 E' Ep. eapply IHE; try eassumption.
    symmetry. apply Hb. reflexivity.
Qed.
