(** The event log as a tree, and one pass over it. *)
From Verif Require Import Base FrameMap_Model FrameMap_Spec.
Local Open Scope nat_scope.

Inductive item :=
| IStart (ip : nat) | IAgain (ip : nat) | IMk (i : N) | ICl (i : N) | ITr (e : te)
| ICtx (l : list item).

Section ItemInd.
  Variable P : item -> Prop.
  Variable Q : list item -> Prop.
  Hypothesis Hs : forall ip, P (IStart ip).
  Hypothesis Ha : forall ip, P (IAgain ip).
  Hypothesis Hm : forall i, P (IMk i).
  Hypothesis Hc : forall i, P (ICl i).
  Hypothesis Ht : forall e, P (ITr e).
  Hypothesis Hx : forall l, Q l -> P (ICtx l).
  Hypothesis Hn : Q [].
  Hypothesis Hk : forall x l, P x -> Q l -> Q (x :: l).
  Fixpoint item_rec2 (x : item) : P x :=
    match x with
    | IStart ip => Hs ip | IAgain ip => Ha ip | IMk i => Hm i | ICl i => Hc i | ITr e => Ht e
    | ICtx l => Hx l ((fix go (l : list item) : Q l :=
                         match l with [] => Hn | y :: l' => Hk y l' (item_rec2 y) (go l') end) l)
    end.
  Fixpoint items_rec2 (l : list item) : Q l :=
    match l with [] => Hn | y :: l' => Hk y l' (item_rec2 y) (items_rec2 l') end.
End ItemInd.

Fixpoint flat1 (x : item) : list event :=
  match x with
  | IStart ip | IAgain ip => [IpEvent ip]
  | IMk i => [MarkEvent i]
  | ICl i => [ClearEvent i]
  | ITr e => [TraceEvent e]
  | ICtx l => PushContextEvent :: (fix go (l : list item) : list event :=
                match l with [] => [] | y :: l' => flat1 y ++ go l' end) l ++ [PopContextEvent]
  end.
Fixpoint flat (l : list item) : list event :=
  match l with [] => [] | y :: l' => flat1 y ++ flat l' end.

Lemma flat1_ctx : forall l, flat1 (ICtx l) = PushContextEvent :: flat l ++ [PopContextEvent].
Proof. reflexivity. Qed.
Lemma flat_app : forall a b, flat (a ++ b) = flat a ++ flat b.
Proof. induction a as [|x a IH]; intros b; cbn [flat app]; [reflexivity|]. rewrite IH, app_assoc. reflexivity. Qed.

Lemma flat1_head : forall x, exists e r, flat1 x = e :: r /\ e <> PopContextEvent.
Proof. destruct x; cbn; eexists; eexists; (split; [reflexivity|discriminate]). Qed.

(** ** Emission *)
Fixpoint effItems (ip k : nat) (es : list effect) : list item :=
  match es with
  | [] => []
  | EMark i :: es' => IMk i :: effItems ip k es'
  | EClear i :: es' => ICl i :: effItems ip k es'
  | ETrace :: es' => ITr (ip, k) :: effItems ip (S k) es'
  end.
Lemma flat_effItems : forall es ip k, flat (effItems ip k es) = effectEvents ip k es.
Proof. induction es as [|[i|i|] es IH]; intros; cbn; rewrite ?IH; reflexivity. Qed.

Definition own (m : method) (hs : bool) (ins : insn) : list effect :=
  if hs then EMark (localSize m) :: ETrace :: effects ins else effects ins.

Inductive emits (m : method) : nat -> bool -> (nat -> nat) -> list item -> (nat -> nat) -> Prop :=
| em_out : forall ip hs v, nth_error (code m) ip = None -> emits m ip hs v [] v
| em_again : forall ip hs v ins, nth_error (code m) ip = Some ins -> 0 < v ip ->
    emits m ip hs v [IAgain ip] (upd v ip (S (v ip)))
| em_start : forall ip hs v ins bs v2 ns v3,
    nth_error (code m) ip = Some ins -> v ip = 0 ->
    emitsB m (branches ins) (upd v ip (S (v ip))) bs v2 ->
    emitsN m (next ins) v2 ns v3 ->
    emits m ip hs v (IStart ip :: effItems ip 0 (own m hs ins) ++ bs ++ ns) v3
with emitsB (m : method) : list nat -> (nat -> nat) -> list item -> (nat -> nat) -> Prop :=
| eb_nil : forall v, emitsB m [] v [] v
| eb_cons : forall b bs v its v1 r v2,
    emits m b false v its v1 -> emitsB m bs v1 r v2 -> emitsB m (b :: bs) v (ICtx its :: r) v2
with emitsN (m : method) : option nat -> (nat -> nat) -> list item -> (nat -> nat) -> Prop :=
| en_none : forall v, emitsN m None v [] v
| en_some : forall n v its v1, emits m n false v its v1 -> emitsN m (Some n) v its v1.

Scheme emits_mi := Induction for emits Sort Prop
  with emitsB_mi := Induction for emitsB Sort Prop
  with emitsN_mi := Induction for emitsN Sort Prop.
Combined Scheme emits_mut from emits_mi, emitsB_mi, emitsN_mi.

Lemma comp_emits : forall fuel m ip hs v es v',
  comp fuel m ip hs v = Some (es, v') -> exists its, emits m ip hs v its v' /\ es = flat its.
Proof.
  induction fuel as [|f IH]; intros m ip hs v es v' H; [discriminate|].
  cbn [comp] in H. destruct (nth_error (code m) ip) as [ins|] eqn:E.
  2:{ injection H as <- <-. exists []. split; [constructor; exact E|reflexivity]. }
  destruct (0 <? v ip) eqn:V.
  - injection H as <- <-. exists [IAgain ip]. split; [|reflexivity].
    apply Nat.ltb_lt in V. eapply em_again; eassumption.
  - apply Nat.ltb_ge in V. assert (V0 : v ip = 0) by lia.
    assert (B : forall bs v0 bes v2, compileBranches (fun b => comp f m b false) bs v0 = Some (bes, v2) ->
              exists its, emitsB m bs v0 its v2 /\ bes = flat its).
    { induction bs as [|b bs IHb]; intros v0 bes v2 HB; cbn [compileBranches] in HB.
      - injection HB as <- <-. exists []. split; [constructor|reflexivity].
      - destruct (comp f m b false v0) as [[e1 v1]|] eqn:C; [|discriminate].
        destruct (compileBranches _ bs v1) as [[e2 v3]|] eqn:C2; [|discriminate].
        injection HB as <- <-.
        destruct (IH _ _ _ _ _ _ C) as [i1 [A1 ->]].
        destruct (IHb _ _ _ C2) as [i2 [A2 ->]].
        exists (ICtx i1 :: i2). split; [econstructor; eassumption|].
        cbn [flat]. rewrite flat1_ctx. cbn [app]. rewrite <- app_assoc. reflexivity. }
    destruct (compileBranches _ (branches ins) _) as [[bes v2]|] eqn:CB; [|discriminate].
    destruct (B _ _ _ _ CB) as [ib [B1 ->]].
    assert (N : exists ns, emitsN m (next ins) v2 ns v'
        /\ es = IpEvent ip :: effectEvents ip 0 (own m hs ins) ++ flat ib ++ flat ns).
    { destruct (next ins) as [n|].
      - destruct (comp f m n false v2) as [[nes v3]|] eqn:CN; [|discriminate].
        injection H as <- <-. destruct (IH _ _ _ _ _ _ CN) as [i3 [A3 ->]].
        exists i3. split; [constructor; exact A3|reflexivity].
      - injection H as <- <-. exists []. split; [constructor|]. cbn [flat]. rewrite app_nil_r. reflexivity. }
    destruct N as [ns [N1 ->]].
    exists (IStart ip :: effItems ip 0 (own m hs ins) ++ ib ++ ns). split.
    + eapply em_start; eassumption.
    + cbn [flat flat1 app]. rewrite !flat_app, flat_effItems. reflexivity.
Qed.

Definition unvisited (m : method) (v : nat -> nat) : nat :=
  length (filter (fun i => v i =? 0) (seq 0 (length (code m)))).

Lemma filter_le : forall {A} (f g : A -> bool) l, (forall x, In x l -> f x = true -> g x = true) ->
  length (filter f l) <= length (filter g l).
Proof.
  induction l as [|x l IH]; intros H; cbn; [lia|].
  specialize (IH (fun y Hy => H y (or_intror Hy))).
  destruct (f x) eqn:F; [rewrite (H x (or_introl eq_refl) F); cbn; lia|]. destruct (g x); cbn; lia.
Qed.
Lemma filter_lt : forall {A} (f g : A -> bool) l x, (forall x, In x l -> f x = true -> g x = true) ->
  In x l -> f x = false -> g x = true -> length (filter f l) < length (filter g l).
Proof.
  induction l as [|y l IH]; intros x H I F G; [destruct I|]. cbn.
  pose proof (filter_le f g l (fun y Hy => H y (or_intror Hy))) as L.
  destruct I as [->|I].
  - rewrite F, G. cbn. lia.
  - specialize (IH x (fun y Hy => H y (or_intror Hy)) I F G).
    destruct (f y) eqn:Fy; [rewrite (H y (or_introl eq_refl) Fy); cbn; lia|]. destruct (g y); cbn; lia.
Qed.

Lemma upd_same : forall {A} (f : nat -> A) k v, upd f k v k = v.
Proof. intros. unfold upd. rewrite Nat.eqb_refl. reflexivity. Qed.
Lemma upd_other : forall {A} (f : nat -> A) k v x, x <> k -> upd f k v x = f x.
Proof. intros A f k v x H. unfold upd. apply Nat.eqb_neq in H. rewrite H. reflexivity. Qed.

Lemma emits_grow : forall m,
  (forall ip hs v its v', emits m ip hs v its v' -> forall x, v x <= v' x)
  /\ (forall bs v its v', emitsB m bs v its v' -> forall x, v x <= v' x)
  /\ (forall n v its v', emitsN m n v its v' -> forall x, v x <= v' x).
Proof.
  intros m. apply emits_mut; intros; auto.
  - unfold upd. destruct (Nat.eqb_spec x ip); subst; lia.
  - specialize (H x). specialize (H0 x). unfold upd in H. destruct (Nat.eqb_spec x ip); subst; lia.
  - specialize (H x). specialize (H0 x). lia.
Qed.

Lemma unvisited_mono : forall m v v', (forall x, v x <= v' x) -> unvisited m v' <= unvisited m v.
Proof.
  intros m v v' H. apply filter_le. intros x _ E. apply Nat.eqb_eq in E. apply Nat.eqb_eq.
  specialize (H x). lia.
Qed.

Lemma comp_total : forall fuel m ip hs v, unvisited m v < fuel ->
  exists es v', comp fuel m ip hs v = Some (es, v').
Proof.
  induction fuel as [|f IH]; intros m ip hs v L; [lia|].
  cbn [comp]. destruct (nth_error (code m) ip) as [ins|] eqn:E; [|eauto].
  destruct (0 <? v ip) eqn:V; [eauto|]. apply Nat.ltb_ge in V.
  assert (L1 : unvisited m (upd v ip (S (v ip))) < f).
  { enough (unvisited m (upd v ip (S (v ip))) < unvisited m v) by lia.
    apply filter_lt with (x := ip).
    - intros x _ H. unfold upd in H. destruct (x =? ip); [discriminate|exact H].
    - apply in_seq. apply nth_error_Some_lt in E || (assert (ip < length (code m)) by (apply nth_error_Some; congruence); lia).
    - rewrite upd_same. reflexivity.
    - apply Nat.eqb_eq. lia. }
  assert (B : forall bs v0, unvisited m v0 < f ->
     exists bes v2, compileBranches (fun b => comp f m b false) bs v0 = Some (bes, v2) /\ unvisited m v2 < f).
  { induction bs as [|b bs IHb]; intros v0 L0; cbn [compileBranches]; [eauto|].
    destruct (IH m b false v0 L0) as [es [v1 C]]. rewrite C.
    destruct (comp_emits _ _ _ _ _ _ _ C) as [its [EM _]].
    pose proof (unvisited_mono m v0 v1 (proj1 (emits_grow m) _ _ _ _ _ EM)).
    destruct (IHb v1) as [bes [v2 [C2 L2]]]; [lia|]. rewrite C2. eauto. }
  destruct (B (branches ins) _ L1) as [bes [v2 [C2 L2]]]. rewrite C2.
  destruct (next ins) as [n|]; [|eauto].
  destruct (IH m n false v2 L2) as [nes [v3 C3]]. rewrite C3. eauto.
Qed.

Lemma unvisited_le : forall m v, unvisited m v <= length (code m).
Proof. intros. unfold unvisited. etransitivity; [apply filter_length_le|]. rewrite seq_length. lia. Qed.

(** ** One pass *)
Section Run.
Variable vis : nat -> nat.

Definition ipStep (ip : nat) (last : bool) (roots : N) (s : cst) : N * cst :=
  if 1 <? vis ip then
    let newRoots := N.land (table s ip) roots in
    (N.land roots newRoots,
     setTable s (upd (table s) ip newRoots)
              (dirty s || (last && negb (newRoots =? table s ip)%N)))
  else (roots, setTable s (upd (table s) ip roots) (dirty s)).

Fixpoint run1 (x : item) (last : bool) (roots : N) (s : cst) : N * cst :=
  match x with
  | IStart ip | IAgain ip => ipStep ip last roots s
  | IMk i => (N.setbit roots i, s)
  | ICl i => (N.clearbit roots i, s)
  | ITr e => (roots, setMaps s (updT (maps s) e roots)
                             (dirty s || (watch s e && negb (maps s e =? roots)%N)))
  | ICtx l =>
      (roots, (fix go (l : list item) (roots : N) (s : cst) : cst :=
         match l with
         | [] => s
         | y :: l' => let (r', s') := run1 y (match l' with [] => true | _ => false end) roots s in
                      go l' r' s'
         end) l roots s)
  end.

Fixpoint run (tail : bool) (l : list item) (roots : N) (s : cst) : N * cst :=
  match l with
  | [] => (roots, s)
  | y :: l' => let (r', s') := run1 y (match l' with [] => tail | _ => false end) roots s in
               run tail l' r' s'
  end.

Lemma run1_ctx : forall l last roots s, run1 (ICtx l) last roots s = (roots, snd (run true l roots s)).
Proof.
  intros l last roots s. cbn [run1]. f_equal. revert roots s.
  induction l as [|y l IH]; intros; [reflexivity|].
  cbn [run]. destruct (run1 y _ roots s) as [r' s']. apply IH.
Qed.

Lemma run_app : forall a b tail roots s, b <> [] ->
  run tail (a ++ b) roots s = let (r', s') := run false a roots s in run tail b r' s'.
Proof.
  induction a as [|x a IH]; intros b tail roots s Hb; [reflexivity|].
  cbn [app run].
  replace (match a ++ b with [] => tail | _ => false end) with false
    by (destruct a; [destruct b; [congruence|]|]; reflexivity).
  replace (match a with [] => false | _ => false end) with false by (destruct a; reflexivity).
  destruct (run1 x false roots s) as [r' s']. apply IH. exact Hb.
Qed.

Variable all : N.
Variable tl : list te.

Lemma calc_mono : forall f evs roots s x, calc f all tl vis evs roots s = Some x ->
  forall g, f <= g -> calc g all tl vis evs roots s = Some x.
Proof.
  induction f as [|f IH]; intros evs roots s x H g L; [discriminate|].
  destruct g as [|g]; [lia|]. cbn [calc] in *.
  destruct evs as [|[] r]; try exact H; try (eapply IH; [eassumption|lia]).
  - destruct (calc f all tl vis r roots s) as [[r' s']|] eqn:C; [|discriminate].
    rewrite (IH _ _ _ _ C g) by lia. apply IH; [exact H|lia].
  - destruct (1 <? vis ip); (eapply IH; [eassumption|lia]).
  - destruct (tryCatchRoots tl start end_ all s) as [r1 s1].
    destruct (calc f all tl vis r r1 s1) as [[r' s']|] eqn:C; [|discriminate].
    rewrite (IH _ _ _ _ C g) by lia. apply IH; [exact H|lia].
Qed.

Definition endsHere (rest : list event) : bool :=
  match rest with [] => true | PopContextEvent :: _ => true | _ => false end.

Lemma flat_ends : forall l rest,
  endsHere (flat l ++ rest) = match l with [] => endsHere rest | _ => false end.
Proof.
  intros [|x l] rest; [reflexivity|]. cbn [flat]. destruct (flat1_head x) as [e [r [-> N]]].
  cbn. destruct e; congruence.
Qed.

Lemma calc_flat :
  forall l f rest roots s x,
    calc f all tl vis rest (fst (run (endsHere rest) l roots s)) (snd (run (endsHere rest) l roots s)) = Some x ->
    calc (f + length (flat l)) all tl vis (flat l ++ rest) roots s = Some x.
Proof.
  intros l0. apply items_rec2 with
    (P := fun y => forall f rest roots s x,
      calc f all tl vis rest (fst (run1 y (endsHere rest) roots s)) (snd (run1 y (endsHere rest) roots s)) = Some x ->
      calc (f + length (flat1 y)) all tl vis (flat1 y ++ rest) roots s = Some x)
    (Q := fun l => forall f rest roots s x,
      calc f all tl vis rest (fst (run (endsHere rest) l roots s)) (snd (run (endsHere rest) l roots s)) = Some x ->
      calc (f + length (flat l)) all tl vis (flat l ++ rest) roots s = Some x).
  - intros ip f rest roots s x. cbn [flat1 length app run1]. unfold ipStep.
    replace (f + 1) with (S f) by lia. cbn [calc]. unfold endsHere.
    destruct (1 <? vis ip); cbn [fst snd]; auto.
  - intros ip f rest roots s x. cbn [flat1 length app run1]. unfold ipStep.
    replace (f + 1) with (S f) by lia. cbn [calc]. unfold endsHere.
    destruct (1 <? vis ip); cbn [fst snd]; auto.
  - intros i f rest roots s x. cbn [flat1 length app run1].
    replace (f + 1) with (S f) by lia. cbn [calc fst snd]; auto.
  - intros i f rest roots s x. cbn [flat1 length app run1].
    replace (f + 1) with (S f) by lia. cbn [calc fst snd]; auto.
  - intros e f rest roots s x. cbn [flat1 length app run1].
    replace (f + 1) with (S f) by lia. cbn [calc fst snd]; auto.
  - intros l IH f rest roots s x H. rewrite run1_ctx in H. cbn [fst snd] in H.
    rewrite flat1_ctx. cbn [length app]. rewrite app_length. cbn [length].
    rewrite <- app_assoc. cbn [app].
    replace (f + S (length (flat l) + 1)) with (S (f + 1 + length (flat l))) by lia.
    cbn [calc].
    rewrite (IH (f + 1) (PopContextEvent :: rest) roots s (rest, snd (run true l roots s))).
    + apply calc_mono with (f := f); [exact H|lia].
    + cbn [endsHere]. replace (f + 1) with (S f) by lia. reflexivity.
  - intros f rest roots s x H. cbn [flat length app run fst snd] in *.
    rewrite Nat.add_0_r. exact H.
  - intros y l Hy Hl f rest roots s x H. cbn [flat]. rewrite app_length, <- app_assoc.
    replace (f + (length (flat1 y) + length (flat l))) with (f + length (flat l) + length (flat1 y)) by lia.
    apply Hy. rewrite flat_ends. cbn [run] in H.
    destruct (run1 y (match l with [] => endsHere rest | _ => false end) roots s) as [r' s'] eqn:R.
    cbn [fst snd]. apply Hl. exact H.
Qed.

(** A section: the handler of a range. *)
Definition sec := (nat * nat * list item)%type.
Definition flatSec (x : sec) : list event :=
  let '(a, b, l) := x in PushExceptionHandlerEvent a b :: flat l ++ [PopContextEvent].
Definition runSec (x : sec) (s : cst) : cst :=
  let '(a, b, l) := x in
  let (r, s1) := tryCatchRoots tl a b all s in snd (run true l r s1).
Definition runSecs (l : list sec) (s : cst) : cst := fold_left (fun s x => runSec x s) l s.

Lemma calc_secs : forall l roots s f, length (flat_map flatSec l) < f ->
  calc f all tl vis (flat_map flatSec l) roots s = Some ([], runSecs l s).
Proof.
  induction l as [|[[a b] l0] l IH]; intros roots s f L.
  - destruct f; [lia|]. reflexivity.
  - cbn [flat_map flatSec app length] in *. rewrite <- app_assoc in *. cbn [app] in *.
    rewrite app_length in L. cbn [length] in L.
    destruct f as [|f]; [lia|]. cbn [calc]. unfold runSecs. cbn [fold_left runSec].
    destruct (tryCatchRoots tl a b all s) as [r s1] eqn:T.
    assert (C : calc f all tl vis (flat l0 ++ PopContextEvent :: flat_map flatSec l) r s1
                = Some (flat_map flatSec l, snd (run true l0 r s1))).
    { apply calc_mono with (f := 1 + length (flat l0)); [|lia].
      apply calc_flat. reflexivity. }
    rewrite C. apply IH. lia.
Qed.

Lemma calc_log : forall main l s,
  calc (S (length (flat main ++ flat_map flatSec l))) all tl vis (flat main ++ flat_map flatSec l) 0%N s
  = Some ([], runSecs l (snd (run (match l with [] => true | _ => false end) main 0%N s))).
Proof.
  intros main l s. rewrite app_length.
  replace (S (length (flat main) + length (flat_map flatSec l)))
    with (S (length (flat_map flatSec l)) + length (flat main)) by lia.
  apply calc_flat.
  replace (endsHere (flat_map flatSec l)) with (match l with [] => true | _ => false end)
    by (destruct l as [|[[? ?] ?] ?]; reflexivity).
  destruct (run _ main 0%N s) as [r s1]. cbn [fst snd]. apply calc_secs. lia.
Qed.
End Run.
