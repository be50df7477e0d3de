(** Proofs about the order of the machine code. *)
From Coq Require Import List Arith Bool Lia.
Import ListNotations.
From Verif Require Import CLayout_Model CLayout_Spec.

Lemma existsb_In i l : existsb (Nat.eqb i) l = true <-> In i l.
Proof. rewrite existsb_exists. split; [intros [x [I E]]; apply Nat.eqb_eq in E; subst; exact I|intro I; exists i; split; [exact I|apply Nat.eqb_refl]]. Qed.
Lemma In_nth_pos i (l : list nat) : In i l -> exists p, p < length l /\ nth p l 0 = i.
Proof. intro I. destruct (In_nth l i 0 I) as [p [L E]]. eauto. Qed.
Lemma find_seq_spec (f : nat -> bool) : forall n s, match find f (seq s n) with
  | Some x => s <= x < s + n /\ f x = true /\ (forall y, s <= y < x -> f y = false)
  | None => forall y, s <= y < s + n -> f y = false end.
Proof.
  induction n as [|n IH]; intro s; cbn [seq find]; [intros; lia|]. destruct (f s) eqn:E.
  - split; [lia|]. split; [exact E|]. intros; lia.
  - specialize (IH (S s)). destruct (find f (seq (S s) n)).
    + destruct IH as [A [B C]]. split; [lia|]. split; [exact B|]. intros y Y. destruct (Nat.eq_dec y s) as [->|]; [exact E|apply C; lia].
    + intros y Y. destruct (Nat.eq_dec y s) as [->|]; [exact E|apply IH; lia].
Qed.

Lemma skip_tl : forall p (l : list nat) e r, skipn p l = e :: r -> r = skipn (S p) l.
Proof. induction p as [|p IH]; intros [|x l] e r E; try discriminate; [cbn in E; inversion E; reflexivity|]. cbn in E. cbn. apply (IH l e r E). Qed.

Section P.
Context (count : nat) (evs : list nat).
Notation n := (length evs).
Notation ev := (fun p => nth p evs 0).
Notation nx := (nextOf count evs).
Notation bs := (cut nx 0 0 evs).
Notation blk k := (nth k bs (0, 0)).
Notation lst := (lastInstr evs bs).
Hypothesis small : forall i, In i evs -> i < count.

Lemma nx_some i j : nx i = Some j -> i < j /\ In j evs /\ (forall m, i < m -> m < j -> ~ In m evs).
Proof.
  unfold nextOf. pose proof (find_seq_spec (fun m => existsb (Nat.eqb m) evs) (count - S i) (S i)) as F. intro E. rewrite E in F. destruct F as [A [B C]].
  split; [lia|]. split; [apply existsb_In; exact B|]. intros m M1 M2 I. specialize (C m ltac:(lia)). apply existsb_In in I. congruence.
Qed.
Lemma nx_none i : nx i = None -> forall m, i < m -> ~ In m evs.
Proof.
  unfold nextOf. pose proof (find_seq_spec (fun m => existsb (Nat.eqb m) evs) (count - S i) (S i)) as F. intro E. rewrite E in F. intros m M I.
  specialize (F m). specialize (small m I). apply existsb_In in I. rewrite F in I; [discriminate|lia].
Qed.
Lemma nx_inj a b j : In a evs -> In b evs -> nx a = Some j -> nx b = Some j -> a = b.
Proof.
  intros A B E F. destruct (nx_some _ _ E) as [A1 [_ A2]]. destruct (nx_some _ _ F) as [B1 [_ B2]].
  destruct (Nat.lt_trichotomy a b) as [L|[L|L]]; [|exact L|]; exfalso; [exact (A2 b L B1 B)|exact (B2 a L A1 A)].
Qed.

(** *** Blocks *)
Definition breakAt (p : nat) : bool := breakAfter nx (nth p evs 0) (skipn (S p) evs).
Lemma cut_spec : forall es start p, es = skipn p evs -> start <= p -> p <= n -> (p = n -> start = p) ->
  let l := cut nx start p es in
  (forall k, k < length l -> fst (nth k l (0, 0)) < snd (nth k l (0, 0)) <= n /\ p < snd (nth k l (0, 0)) /\ breakAt (snd (nth k l (0, 0)) - 1) = true /\
     (forall q, p <= q -> fst (nth k l (0, 0)) <= q -> S q < snd (nth k l (0, 0)) -> breakAt q = false)) /\
  (l <> [] -> fst (nth 0 l (0, 0)) = start) /\
  (forall k, S k < length l -> fst (nth (S k) l (0, 0)) = snd (nth k l (0, 0))) /\
  (p < n -> l <> [] /\ snd (nth (length l - 1) l (0, 0)) = n).
Proof.
  induction es as [|e rest IH]; intros start p E S1 S2 S3 l.
  - assert (LE : length (skipn p evs) = 0) by (rewrite <- E; reflexivity). rewrite skipn_length in LE. unfold l; cbn. repeat split; try (intros; lia); try congruence.
  - assert (LE : length (skipn p evs) = S (length rest)) by (rewrite <- E; reflexivity). rewrite skipn_length in LE.
    assert (E1 : rest = skipn (S p) evs) by (apply (skip_tl _ _ e); exact (eq_sym E)).
    assert (EV : nth p evs 0 = e) by (rewrite <- (firstn_skipn p evs), app_nth2; rewrite firstn_length, ?Nat.min_l by lia; [rewrite Nat.sub_diag, <- E; reflexivity|lia]).
    assert (BA : breakAt p = breakAfter nx e rest) by (unfold breakAt; rewrite EV, <- E1; reflexivity).
    unfold l; cbn [cut]. destruct (breakAfter nx e rest) eqn:B.
    + destruct (IH (S p) (S p) E1 (le_n _) ltac:(lia) (fun _ => eq_refl)) as [A1 [A2 [A3 A4]]]. set (l1 := cut nx (S p) (S p) rest) in *. repeat split.
      * destruct k as [|k]; cbn [nth fst snd]; [lia|]. cbn [length] in H. apply A1. lia.
      * destruct k as [|k]; cbn [nth fst snd]; [lia|]. cbn [length] in H. apply A1. lia.
      * destruct k as [|k]; cbn [nth fst snd]; [lia|]. cbn [length] in H. destruct (A1 k ltac:(lia)). lia.
      * destruct k as [|k]; cbn [nth fst snd]; [replace (S p - 1) with p by lia; rewrite BA; reflexivity|]. cbn [length] in H. apply A1. lia.
      * intros q Q1 Q2 Q3. destruct k as [|k]; cbn [nth fst snd] in *; [lia|]. cbn [length] in H. destruct (A1 k ltac:(lia)) as [B1 [B2 [B3 B4]]].
        assert (fst (nth k l1 (0, 0)) >= S p) by (clear - A2 A3 A1 H; destruct k as [|k]; [rewrite A2; [lia|destruct l1; cbn in *; [lia|discriminate]]|rewrite A3 by lia; destruct (A1 k ltac:(lia)); lia]).
        apply B4; lia.
      * intros k H. destruct k as [|k]; cbn [nth fst snd]; [|cbn [length] in H; apply A3; lia]. cbn [length] in H. apply A2. destruct l1; cbn in *; [lia|discriminate].
      * discriminate.
      * cbn [length]. replace (S (length l1) - 1) with (length l1) by lia. destruct (Nat.eq_dec (S p) n) as [EQ|NE].
        -- assert (rest = []) by (rewrite E1, EQ; apply skipn_all). assert (l1 = []) by (unfold l1; rewrite H0; reflexivity). rewrite H1. cbn. exact EQ.
        -- destruct (A4 ltac:(lia)) as [A5 A6]. destruct l1 as [|b0 l2] eqn:LL; [congruence|]. rewrite <- A6. cbn [length]. replace (S (length l2) - 1) with (length l2) by lia. reflexivity.
    + assert (NE : S p <> n). { intro EQ. assert (R : rest = []) by (rewrite E1, EQ; apply skipn_all). rewrite R in B. discriminate. }
      destruct (IH start (S p) E1 ltac:(lia) ltac:(lia) ltac:(lia)) as [A1 [A2 [A3 A4]]]. set (l1 := cut nx start (S p) rest) in *. repeat split; auto.
      * apply A1; assumption.
      * apply A1; assumption.
      * destruct (A1 k H). lia.
      * apply A1; assumption.
      * intros q Q1 Q2 Q3. destruct (Nat.eq_dec q p) as [->|]; [rewrite BA; reflexivity|]. apply A1 with (k := k); auto; lia.
      * apply A4. lia.
      * apply A4. lia.
Qed.
Hypothesis some : n > 0.
Notation nb_ := (length bs).
Lemma blk_facts : (forall k, k < nb_ -> fst (blk k) < snd (blk k) <= n /\ breakAt (snd (blk k) - 1) = true /\
     (forall q, fst (blk k) <= q -> S q < snd (blk k) -> breakAt q = false)) /\
  fst (blk 0) = 0 /\ (forall k, S k < nb_ -> fst (blk (S k)) = snd (blk k)) /\ 0 < nb_ /\ snd (blk (nb_ - 1)) = n.
Proof.
  destruct (cut_spec evs 0 0 eq_refl (le_n _) ltac:(lia) ltac:(lia)) as [A1 [A2 [A3 A4]]]. destruct (A4 some) as [A5 A6]. repeat split; auto.
  - apply A1; assumption.
  - apply A1; assumption.
  - apply A1; assumption.
  - intros q Q1 Q2. apply A1 with (k := k); auto; lia.
  - destruct bs; [congruence|cbn; lia].
Qed.
Lemma blk_order k k' : k < k' -> k' < nb_ -> snd (blk k) <= fst (blk k').
Proof.
  destruct blk_facts as [A1 [_ [A3 _]]]. induction k' as [|k' IH]; intros L K; [lia|]. rewrite (A3 k' K). destruct (Nat.eq_dec k k') as [->|]; [lia|].
  specialize (IH ltac:(lia) ltac:(lia)). destruct (A1 k' ltac:(lia)). lia.
Qed.
Lemma blockOf_spec : forall l s p, (forall k, k < length l -> fst (nth k l (0, 0)) < snd (nth k l (0, 0))) -> (l <> [] -> fst (nth 0 l (0, 0)) = s) ->
  (forall k, S k < length l -> fst (nth (S k) l (0, 0)) = snd (nth k l (0, 0))) -> s <= p -> (l <> [] /\ p < snd (nth (length l - 1) l (0, 0))) ->
  blockOf p l < length l /\ fst (nth (blockOf p l) l (0, 0)) <= p < snd (nth (blockOf p l) l (0, 0)).
Proof.
  induction l as [|b l IH]; intros s p A1 A2 A3 S1 [NE S2]; [congruence|]. cbn [blockOf]. destruct (Nat.ltb_spec p (snd b)) as [L|L].
  - cbn [nth length]. specialize (A2 NE). cbn in A2. lia.
  - assert (l <> []) as NL. { intros ->. cbn in S2. lia. }
    destruct (IH (snd b) p) as [B1 B2]; auto.
    + intros k K. exact (A1 (S k) ltac:(cbn; lia)).
    + intros _. apply (A3 0). destruct l; [congruence|cbn; lia].
    + intros k K. exact (A3 (S k) ltac:(cbn; lia)).
    + split; [exact NL|]. cbn [length] in S2. destruct l; [congruence|]. cbn [length] in *. replace (S (length l) - 1) with (length l) by lia. replace (S (S (length l)) - 1) with (S (length l)) in S2 by lia. exact S2.
    + cbn [nth length]. split; [lia|exact B2].
Qed.
Lemma in_block p : p < n -> blockOf p bs < nb_ /\ fst (blk (blockOf p bs)) <= p < snd (blk (blockOf p bs)).
Proof.
  intro L. destruct blk_facts as [A1 [A2 [A3 [A4 A5]]]]. apply (blockOf_spec bs 0 p); auto; try lia.
  - intros k K. apply A1; exact K.
  - split; [destruct bs; [cbn in A4; lia|discriminate]|rewrite A5; exact L].
Qed.
Lemma block_unique p k : k < nb_ -> fst (blk k) <= p < snd (blk k) -> blockOf p bs = k.
Proof.
  intros K P. assert (L : p < n) by (destruct blk_facts as [A1 _]; destruct (A1 k K); lia). destruct (in_block p L) as [B1 B2].
  destruct (Nat.lt_trichotomy (blockOf p bs) k) as [H|[H|H]]; [pose proof (blk_order _ _ H K); lia|exact H|pose proof (blk_order _ _ H B1); lia].
Qed.

(** What the end of a block means, and what it means not to be the end. *)
Definition later (i p : nat) : Prop := exists q, p < q /\ q < n /\ nth q evs 0 = i.
Lemma later_skip i p : existsb (Nat.eqb i) (skipn (S p) evs) = true <-> later i p.
Proof.
  rewrite existsb_In. split.
  - intro I. destruct (In_nth_pos _ _ I) as [q [L E]]. rewrite skipn_length in L. exists (S p + q). split; [lia|]. split; [lia|].
    rewrite <- (firstn_skipn (S p) evs), app_nth2; rewrite firstn_length, Nat.min_l by lia; [|lia]. replace (S p + q - S p) with q by lia. exact E.
  - intros [q [A [B <-]]]. rewrite <- (firstn_skipn (S p) evs) at 1. rewrite app_nth2; rewrite firstn_length, Nat.min_l by lia; [|lia]. apply nth_In. rewrite skipn_length. lia.
Qed.
Lemma skip_cons p : S p < n -> exists r, skipn (S p) evs = nth (S p) evs 0 :: r.
Proof.
  intro L. destruct (skipn (S p) evs) as [|x r] eqn:E; [apply (f_equal (@length nat)) in E; rewrite skipn_length in E; cbn in E; lia|]. exists r. f_equal.
  rewrite <- (firstn_skipn (S p) evs), app_nth2; rewrite firstn_length, Nat.min_l by lia; [rewrite Nat.sub_diag, E; reflexivity|lia].
Qed.
Lemma no_break p : p < n -> breakAt p = false -> S p < n /\ (nth (S p) evs 0 = nth p evs 0 \/ nx (nth p evs 0) = Some (nth (S p) evs 0) /\ ~ later (nth p evs 0) p).
Proof.
  intros L B. unfold breakAt in B. assert (L1 : S p < n).
  { destruct (Nat.eq_dec (S p) n) as [E|]; [|lia]. rewrite E, skipn_all in B. discriminate. }
  split; [exact L1|]. pose proof (later_skip (nth p evs 0) p) as LS. destruct (skip_cons p L1) as [r R]. rewrite R in *. cbn [breakAfter] in B.
  destruct (Nat.eqb_spec (nth (S p) evs 0) (nth p evs 0)) as [E|N]; [left; exact E|right]. cbn [negb andb] in B. apply orb_false_iff in B. destruct B as [B1 B2]. split.
  - destruct (nx (nth p evs 0)) as [m|]; [|discriminate]. apply negb_false_iff, Nat.eqb_eq in B1. subst. reflexivity.
  - intro LA. apply LS in LA. congruence.
Qed.
Hypothesis ord : orderly nx evs.
Lemma no_break' p : p < n -> breakAt p = false ->
  S p < n /\ (nth (S p) evs 0 = nth p evs 0 \/ nx (nth p evs 0) = Some (nth (S p) evs 0) /\ ~ later (nth p evs 0) p /\ (forall q, q <= p -> nth q evs 0 <> nth (S p) evs 0)).
Proof.
  intros L B. destruct (no_break p L B) as [L1 [E|[E1 E2]]]; split; auto. right. repeat split; auto. apply (ord p L1 E1). intros q Q1 Q2 Q3. apply E2. exists q. auto.
Qed.
Lemma posOf_spec i : forall l, In i l -> posOf i l < length l /\ nth (posOf i l) l 0 = i /\ (forall q, q < posOf i l -> nth q l 0 <> i).
Proof.
  induction l as [|e l IH]; intros I; [destruct I|]. cbn [posOf]. destruct (Nat.eqb_spec e i) as [->|N]; [cbn; repeat split; auto; lia|].
  destruct I as [->|I]; [congruence|]. destruct (IH I) as [A [B C]]. cbn [length nth]. repeat split; auto; [lia|]. intros [|q] Q; [exact N|apply C; lia].
Qed.
Lemma posOf_unique i p : p < n -> nth p evs 0 = i -> (forall q, q < p -> nth q evs 0 <> i) -> posOf i evs = p.
Proof.
  intros L E F. assert (I : In i evs) by (rewrite <- E; apply nth_In; exact L). destruct (posOf_spec i evs I) as [A [B C]].
  destruct (Nat.lt_trichotomy (posOf i evs) p) as [H|[H|H]]; [exfalso; exact (F _ H B)|exact H|exfalso; exact (C _ H E)].
Qed.
Lemma lst_pos k : k < nb_ -> snd (blk k) - 1 < n /\ nth (snd (blk k) - 1) evs 0 = lst k /\ In (lst k) evs.
Proof. intro K. destruct blk_facts as [A1 _]. destruct (A1 k K) as [A _]. split; [lia|]. split; [reflexivity|]. apply nth_In. lia. Qed.

(** From an event of [i] in a block on, [i] goes on to the end of the block if it comes again behind the block. *)
Lemma run_to_end k i : k < nb_ -> later i (snd (blk k) - 1) -> forall d q, q + d = snd (blk k) - 1 -> fst (blk k) <= q -> nth q evs 0 = i -> lst k = i.
Proof.
  intros K LA. destruct blk_facts as [A1 _]. destruct (A1 k K) as [A [B C]]. induction d as [|d IH]; intros q Q S1 E.
  - unfold lastInstr. rewrite <- Q, Nat.add_0_r. exact E.
  - apply (IH (S q)); [lia|lia|]. destruct (no_break q ltac:(lia) (C q S1 ltac:(lia))) as [_ [H|[_ H]]]; [congruence|]. exfalso. apply H. rewrite E.
    destruct LA as [x [X1 X2]]. exists x. split; [lia|exact X2].
Qed.
(** The next occurrence of the last instruction of a block starts a block. *)
Definition nextOcc (i p q : nat) : Prop := p < q /\ q < n /\ nth q evs 0 = i /\ (forall r, p < r -> r < q -> nth r evs 0 <> i).
Lemma nextOcc_exists i p : later i p -> exists q, nextOcc i p q.
Proof.
  intros [q [A [B C]]]. revert A B C. induction q as [q IH] using lt_wf_ind. intros A B C.
  destruct (existsb (fun r => nth r evs 0 =? i) (seq (S p) (q - S p))) eqn:E.
  - apply existsb_exists in E. destruct E as [r [R1 R2]]. apply in_seq in R1. apply Nat.eqb_eq in R2. apply (IH r); auto; lia.
  - exists q. repeat split; auto. intros r R1 R2 R3. assert (existsb (fun r => nth r evs 0 =? i) (seq (S p) (q - S p)) = true); [|congruence].
    apply existsb_exists. exists r. split; [apply in_seq; lia|apply Nat.eqb_eq; exact R3].
Qed.
Lemma nextOcc_unique i p q q' : nextOcc i p q -> nextOcc i p q' -> q = q'.
Proof.
  intros [A [B [C D]]] [A' [B' [C' D']]]. destruct (Nat.lt_trichotomy q q') as [L|[L|L]]; [exfalso; exact (D' q A L C)|exact L|exfalso; exact (D q' A' L C')].
Qed.
Lemma nextOcc_starts k q : k < nb_ -> nextOcc (lst k) (snd (blk k) - 1) q -> q = fst (blk (blockOf q bs)) /\ k < blockOf q bs.
Proof.
  intros K [A [B [C D]]]. destruct (in_block q B) as [B1 B2]. destruct blk_facts as [A1 _]. pose proof (A1 k K) as [A2 _]. destruct (lst_pos k K) as [P1 [P2 _]].
  assert (KL : k < blockOf q bs).
  { destruct (Nat.lt_trichotomy (blockOf q bs) k) as [L|[L|L]]; [pose proof (blk_order _ _ L K); lia|rewrite L in B2; lia|exact L]. }
  split; [|exact KL]. destruct (Nat.eq_dec q (fst (blk (blockOf q bs)))) as [|NE]; [assumption|]. exfalso.
  pose proof (blk_order _ _ KL B1) as O. destruct (A1 _ B1) as [A3 [_ A4]].
  destruct (no_break' (q - 1) ltac:(lia) (A4 (q - 1) ltac:(lia) ltac:(lia))) as [_ H]. replace (S (q - 1)) with q in H by lia. destruct H as [H|[_ [_ H]]].
  - apply (D (q - 1)); [lia|lia|congruence].
  - apply (H (snd (blk k) - 1)); [lia|congruence].
Qed.

(** *** The links between blocks *)
Definition nextEnding (m k : nat) : option nat := if k <? m then find (fun k' => lst k' =? lst k) (seq (S k) (m - S k)) else None.
Lemma chain_end m (nb : nat -> option nat) : (forall k, nb k = nextEnding m k) -> forall fuel k, k < m -> m - k <= fuel ->
  let b := endOfChain fuel nb k in k <= b < m /\ lst b = lst k /\ (forall k', b < k' < m -> lst k' <> lst k).
Proof.
  intros NB. induction fuel as [|f IH]; intros k K F; [lia|]. cbn [endOfChain]. rewrite NB. unfold nextEnding. destruct (Nat.ltb_spec k m); [|lia].
  pose proof (find_seq_spec (fun k' => lst k' =? lst k) (m - S k) (S k)) as FS. destruct (find (fun k' => lst k' =? lst k) (seq (S k) (m - S k))) as [k1|].
  - destruct FS as [A [B C]]. apply Nat.eqb_eq in B. destruct (IH k1 ltac:(lia) ltac:(lia)) as [D [E G]]. cbn zeta in *. split; [lia|]. split; [congruence|]. intros k' K'. rewrite <- B. apply G. exact K'.
  - split; [lia|]. split; [reflexivity|]. intros k' K' E. specialize (FS k' ltac:(lia)). apply Nat.eqb_neq in FS. contradiction.
Qed.
Lemma find_ext {B} (f g : B -> bool) l : (forall x, f x = g x) -> find f l = find g l.
Proof. intro E. induction l as [|x l IH]; [reflexivity|]. cbn. rewrite E, IH. reflexivity. Qed.
Lemma find_app {B} (f : B -> bool) l1 l2 : find f (l1 ++ l2) = match find f l1 with Some x => Some x | None => find f l2 end.
Proof. induction l1 as [|x l IH]; [reflexivity|]. cbn. destruct (f x); [reflexivity|exact IH]. Qed.
Lemma link_step m nb : m < nb_ -> (forall k, nb k = nextEnding m k) -> forall k, link1 evs bs nb m k = nextEnding (S m) k.
Proof.
  intros M NB. unfold link1. set (i := lst m). set (f := blockOf (posOf i evs) bs). destruct (lst_pos m M) as [P1 [P2 P3]]. fold i in P2, P3.
  destruct (posOf_spec i evs P3) as [Q1 [Q2 Q3]]. destruct (in_block _ Q1) as [F1 F2]. fold f in F1, F2.
  assert (FM : f <= m). { destruct (Nat.le_gt_cases f m) as [|G]; [assumption|]. exfalso. pose proof (blk_order _ _ G F1) as O. destruct blk_facts as [A1 _]. destruct (A1 m M) as [A2 _].
    apply (Q3 (snd (blk m) - 1)); [lia|exact P2]. }
  assert (NONE : forall k, m <= k -> nb k = None) by (intros k K; rewrite NB; unfold nextEnding; destruct (Nat.ltb_spec k m); [lia|reflexivity]).
  assert (SAME : forall k, k < m -> nextEnding (S m) k = match nb k with Some x => Some x | None => if lst m =? lst k then Some m else None end).
  { intros k K. rewrite NB. unfold nextEnding. destruct (Nat.ltb_spec k (S m)), (Nat.ltb_spec k m); try lia. replace (S m - S k) with ((m - S k) + 1) by lia. rewrite seq_app, find_app.
    destruct (find _ (seq (S k) (m - S k))); [reflexivity|]. cbn. replace (S (k + (m - S k))) with m by lia. destruct (lst m =? lst k); reflexivity. }
  assert (TOP : nextEnding (S m) m = None) by (unfold nextEnding; destruct (Nat.ltb_spec m (S m)); [|reflexivity]; rewrite Nat.sub_diag; reflexivity).
  assert (OUT : forall k, m < k -> nextEnding (S m) k = None) by (intros k K; unfold nextEnding; destruct (Nat.ltb_spec k (S m)); [lia|reflexivity]).
  destruct (Nat.eq_dec f m) as [E|NE].
  - assert (EC : endOfChain nb_ nb f = m). { rewrite E. destruct nb_; [reflexivity|]. cbn. rewrite NONE by lia. reflexivity. }
    rewrite EC, Nat.eqb_refl. intro k. destruct (Nat.lt_trichotomy k m) as [L|[->|L]]; [|rewrite TOP; apply NONE; lia|rewrite (OUT k L); apply NONE; lia].
    rewrite (SAME k L). destruct (nb k); [reflexivity|]. destruct (Nat.eqb_spec (lst m) (lst k)) as [EQ|]; [|reflexivity]. exfalso.
    destruct (lst_pos k ltac:(lia)) as [K1 [K2 _]]. apply (Q3 (snd (blk k) - 1)); [|unfold i; congruence]. pose proof (blk_order _ _ L M). destruct blk_facts as [A1 _]. destruct (A1 k ltac:(lia)). rewrite <- E in H. lia.
  - assert (FL : lst f = i).
    { apply (run_to_end f i F1) with (d := snd (blk f) - 1 - posOf i evs) (q := posOf i evs); [|lia|lia|exact Q2]. exists (snd (blk m) - 1). split; [|split; [exact P1|exact P2]].
      pose proof (blk_order f m ltac:(lia) M). destruct blk_facts as [A1 _]. destruct (A1 m M). lia. }
    destruct (chain_end m nb NB nb_ f ltac:(lia) ltac:(lia)) as [C1 [C2 C3]]. set (b := endOfChain nb_ nb f) in *.
    destruct (Nat.eqb_spec b m); [lia|]. intro k. destruct (Nat.eqb_spec k b) as [->|KB].
    + rewrite (SAME b ltac:(lia)). rewrite NB. unfold nextEnding. destruct (Nat.ltb_spec b m); [|lia].
      pose proof (find_seq_spec (fun k' => lst k' =? lst b) (m - S b) (S b)) as FS. destruct (find _ (seq (S b) (m - S b))) as [k1|].
      * destruct FS as [X [Y _]]. apply Nat.eqb_eq in Y. exfalso. apply (C3 k1); [lia|congruence].
      * rewrite C2, FL. fold i. rewrite Nat.eqb_refl. reflexivity.
    + destruct (Nat.lt_trichotomy k m) as [L|[->|L]]; [|rewrite TOP; apply NONE; lia|rewrite (OUT k L); apply NONE; lia].
      rewrite (SAME k L). destruct (nb k) eqn:NK; [reflexivity|]. destruct (Nat.eqb_spec (lst m) (lst k)) as [EQ|]; [|reflexivity]. exfalso.
      rewrite NB in NK. unfold nextEnding in NK. destruct (Nat.ltb_spec k m); [|lia]. pose proof (find_seq_spec (fun k' => lst k' =? lst k) (m - S k) (S k)) as FS. rewrite NK in FS.
      destruct (Nat.lt_trichotomy k b) as [K1|[K1|K1]]; [|contradiction|].
      * specialize (FS b ltac:(lia)). apply Nat.eqb_neq in FS. apply FS. unfold i in *. congruence.
      * apply (C3 k); [lia|]. unfold i in *. congruence.
Qed.
Lemma links_ok : forall k, links evs bs k = nextEnding nb_ k.
Proof.
  unfold links. assert (G : forall m, m <= nb_ -> forall k, fold_left (link1 evs bs) (seq 0 m) (fun _ => None) k = nextEnding m k).
  { induction m as [|m IH]; intros M k; [reflexivity|]. rewrite seq_S, fold_left_app. cbn [fold_left Nat.add]. apply link_step; [lia|]. apply IH. lia. }
  apply G. lia.
Qed.

(** *** What follows an event *)
Definition follows (p : nat) (o : option nat) : Prop :=
  match o with
  | Some q => nextOcc (nth p evs 0) p q \/ ~ later (nth p evs 0) p /\ exists j, nx (nth p evs 0) = Some j /\ q = posOf j evs
  | None => ~ later (nth p evs 0) p /\ nx (nth p evs 0) = None
  end.
Lemma follows_fun p o o' : follows p o -> follows p o' -> o = o'.
Proof.
  assert (NL : forall q, nextOcc (nth p evs 0) p q -> later (nth p evs 0) p) by (intros q [A [B [C _]]]; exists q; auto).
  destruct o as [q|], o' as [q'|]; cbn; intros H H'.
  - destruct H as [H|[H [j [J ->]]]], H' as [H'|[H' [j' [J' ->]]]].
    + f_equal. exact (nextOcc_unique _ _ _ _ H H').
    + exfalso. apply H'. exact (NL q H).
    + exfalso. apply H. exact (NL q' H').
    + congruence.
  - destruct H as [H|[_ [j [J _]]]], H' as [H1 H2]; [exfalso; apply H1; exact (NL q H)|congruence].
  - destruct H' as [H'|[_ [j [J _]]]], H as [H1 H2]; [exfalso; apply H1; exact (NL q' H')|congruence].
  - reflexivity.
Qed.
Lemma inside k q : k < nb_ -> fst (blk k) <= q -> S q < snd (blk k) -> follows q (Some (S q)).
Proof.
  intros K Q1 Q2. destruct blk_facts as [A1 _]. destruct (A1 k K) as [A2 [_ A3]]. destruct (no_break' q ltac:(lia) (A3 q Q1 Q2)) as [L [E|[E1 [E2 E3]]]].
  - left. repeat split; auto. intros; lia.
  - right. split; [exact E2|]. eexists. split; [exact E1|]. symmetry. apply posOf_unique; auto. intros r R. apply E3. lia.
Qed.
(** A block that [i] starts, behind its last block that ends in [i]. *)
Lemma run_over k q i : k < nb_ -> q < snd (blk k) -> lst k <> i -> forall d, q + d = snd (blk k) -> fst (blk k) <= q -> nth q evs 0 = i ->
  exists j, nx i = Some j /\ blockOf (posOf j evs) bs = k.
Proof.
  intros K Q NE d. revert q Q. destruct blk_facts as [A1 _]. destruct (A1 k K) as [A2 [_ A3]]. induction d as [|d IH]; intros q Q Q1 Q2 E; [lia|].
  destruct (Nat.eq_dec (S q) (snd (blk k))) as [EQ|NQ]; [exfalso; apply NE; unfold lastInstr; rewrite <- EQ, <- E; f_equal; lia|].
  destruct (no_break' q ltac:(lia) (A3 q Q2 ltac:(lia))) as [L [H|[H1 [H2 H3]]]].
  - apply (IH (S q)); [lia|lia|lia|congruence].
  - exists (nth (S q) evs 0). split; [rewrite <- E; exact H1|]. apply block_unique; [exact K|]. rewrite (posOf_unique _ (S q)); auto; [lia|]. intros r R. apply H3. lia.
Qed.
Lemma at_end k : k < nb_ ->
  match links evs bs k with
  | Some k' => k' < nb_ /\ follows (snd (blk k) - 1) (Some (fst (blk k')))
  | None => match nx (lst k) with
            | Some j => let k' := blockOf (posOf j evs) bs in k' < nb_ /\ follows (snd (blk k) - 1) (Some (fst (blk k')))
            | None => follows (snd (blk k) - 1) None
            end
  end.
Proof.
  intro K. rewrite links_ok. destruct (lst_pos k K) as [P1 [P2 P3]]. destruct blk_facts as [A1 _]. unfold nextEnding. destruct (Nat.ltb_spec k nb_); [|lia].
  pose proof (find_seq_spec (fun k' => lst k' =? lst k) (nb_ - S k) (S k)) as FS. destruct (find _ (seq (S k) (nb_ - S k))) as [k'|].
  - destruct FS as [X [Y Z]]. apply Nat.eqb_eq in Y. assert (K' : k' < nb_) by lia. split; [exact K'|].
    destruct (lst_pos k' K') as [P1' [P2' _]]. pose proof (blk_order k k' ltac:(lia) K') as O. destruct (A1 k' K') as [A2' _]. destruct (A1 k K) as [A2 _].
    assert (LA : later (lst k) (snd (blk k) - 1)) by (exists (snd (blk k') - 1); split; [lia|]; split; [exact P1'|congruence]).
    destruct (nextOcc_exists _ _ LA) as [q Q]. left. rewrite P2. destruct (nextOcc_starts k q K Q) as [S1 S2]. destruct Q as [Q1 [Q2 [Q3 Q4]]]. destruct (in_block q Q2) as [B1 B2].
    assert (KQ : blockOf q bs = k').
    { destruct (Nat.lt_trichotomy (blockOf q bs) k') as [L|[L|L]]; [|exact L|].
      - exfalso. assert (lst (blockOf q bs) = lst k).
        { apply (run_to_end _ (lst k) B1) with (d := snd (blk (blockOf q bs)) - 1 - q) (q := q); [|lia|lia|exact Q3].
          exists (snd (blk k') - 1). pose proof (blk_order _ _ L K'). split; [lia|]. split; [exact P1'|congruence]. }
        specialize (Z (blockOf q bs) ltac:(lia)). apply Nat.eqb_neq in Z. contradiction.
      - exfalso. pose proof (blk_order _ _ L B1). apply (Q4 (snd (blk k') - 1)); [lia|lia|congruence]. }
    rewrite <- KQ, <- S1. repeat split; auto.
  - assert (NO : forall k', k < k' -> k' < nb_ -> lst k' <> lst k) by (intros k' X Y; specialize (FS k' ltac:(lia)); apply Nat.eqb_neq in FS; exact FS).
    destruct (existsb (Nat.eqb (lst k)) (skipn (S (snd (blk k) - 1)) evs)) eqn:LB.
    + apply later_skip in LB. destruct (nextOcc_exists _ _ LB) as [q Q]. destruct (nextOcc_starts k q K Q) as [S1 S2]. pose proof Q as [Q1 [Q2 [Q3 Q4]]]. destruct (in_block q Q2) as [B1 B2].
      destruct (run_over (blockOf q bs) q (lst k) B1 ltac:(lia) (NO _ S2 B1) (snd (blk (blockOf q bs)) - q) ltac:(lia) ltac:(lia) Q3) as [j [J1 J2]].
      rewrite J1. cbn zeta. rewrite J2. split; [exact B1|]. left. rewrite P2, <- S1. exact Q.
    + assert (NL : ~ later (lst k) (snd (blk k) - 1)) by (intro LA; apply later_skip in LA; congruence).
      destruct (nx (lst k)) as [j|] eqn:J; [|split; [rewrite P2; exact NL|rewrite P2; exact J]]. cbn zeta.
      destruct (nx_some _ _ J) as [J1 [J2 J3]]. destruct (posOf_spec j evs J2) as [Q1 [Q2 Q3]]. destruct (in_block _ Q1) as [B1 B2]. split; [exact B1|].
      right. rewrite P2. split; [exact NL|]. exists j. split; [exact J|]. set (p0 := posOf j evs) in *. set (kj := blockOf p0 bs) in *.
      destruct (Nat.eq_dec p0 (fst (blk kj))) as [|NE]; [congruence|]. exfalso. destruct (A1 kj B1) as [A2 [_ A3]].
      destruct (no_break' (p0 - 1) ltac:(lia) (A3 (p0 - 1) ltac:(lia) ltac:(lia))) as [_ H0]. replace (S (p0 - 1)) with p0 in H0 by lia. destruct H0 as [H0|[H1 [H2 _]]].
      * apply (Q3 (p0 - 1)); [lia|congruence].
      * rewrite Q2 in H1. assert (EI : nth (p0 - 1) evs 0 = lst k) by (apply (nx_inj _ _ j); auto; apply nth_In; lia).
        destruct (A1 k K) as [A2k [A2b _]]. destruct (Nat.lt_trichotomy (p0 - 1) (snd (blk k) - 1)) as [L|[L|L]].
        -- apply H2. rewrite EI. exists (snd (blk k) - 1). auto.
        -- specialize (A3 (p0 - 1) ltac:(lia) ltac:(lia)). rewrite L in A3. congruence.
        -- apply NL. exists (p0 - 1). split; [lia|]. split; [lia|exact EI].
Qed.

(** *** The whole order *)
Fixpoint chained (l : list nat) : Prop := match l with [] => True | p :: r => p < n /\ follows p (hd_error r) /\ chained r end.
Lemma hd_filter (f : nat -> bool) l : hd_error (filter f l) = find f l.
Proof. induction l as [|x l IH]; [reflexivity|]. cbn. destruct (f x); [reflexivity|exact IH]. Qed.
Lemma chained_occ i rest : chained rest -> hd_error rest = option_map (fun j => posOf j evs) (nx i) ->
  forall m a, a + m = n -> chained (filter (fun p => nth p evs 0 =? i) (seq a m) ++ rest).
Proof.
  intros CR HR. induction m as [|m IH]; intros a A; [exact CR|]. cbn [seq filter]. destruct (Nat.eqb_spec (nth a evs 0) i) as [E|E]; [|apply IH; lia].
  cbn [app chained]. split; [lia|]. split; [|apply IH; lia].
  pose proof (find_seq_spec (fun p => nth p evs 0 =? i) m (S a)) as FS. rewrite <- hd_filter in FS. destruct (filter _ (seq (S a) m)) as [|q l] eqn:FF.
  - cbn [app hd_error] in *. assert (NL : ~ later (nth a evs 0) a). { intros [q [Q1 [Q2 Q3]]]. specialize (FS q ltac:(lia)). apply Nat.eqb_neq in FS. congruence. }
    rewrite HR. rewrite E in *. destruct (nx i) as [j|] eqn:J; cbn; rewrite E; [|split; assumption]. right. split; [exact NL|]. exists j. auto.
  - cbn [app hd_error follows] in *. destruct FS as [X [Y Z]]. apply Nat.eqb_eq in Y. left. repeat split; [lia|lia|congruence|]. intros r R1 R2 R3. specialize (Z r ltac:(lia)). apply Nat.eqb_neq in Z. congruence.
Qed.
Lemma hd_positions i : hd_error (positions i evs) = if existsb (Nat.eqb i) evs then Some (posOf i evs) else None.
Proof.
  unfold positions. rewrite hd_filter. pose proof (find_seq_spec (fun p => nth p evs 0 =? i) n 0) as FS. destruct (existsb (Nat.eqb i) evs) eqn:E.
  - apply existsb_In in E. destruct (posOf_spec i evs E) as [A [B C]]. destruct (find _ _) as [q|].
    + destruct FS as [X [Y Z]]. apply Nat.eqb_eq in Y. f_equal. symmetry. apply posOf_unique; auto; [lia|]. intros r R. specialize (Z r ltac:(lia)). apply Nat.eqb_neq in Z. exact Z.
    + specialize (FS _ (conj (Nat.le_0_l _) A)). apply Nat.eqb_neq in FS. contradiction.
  - destruct (find _ _) as [q|]; [|reflexivity]. destruct FS as [X [Y _]]. apply Nat.eqb_eq in Y. assert (existsb (Nat.eqb i) evs = true); [|congruence]. apply existsb_In. rewrite <- Y. apply nth_In. lia.
Qed.
Lemma hd_app {B} (l1 l2 : list B) : hd_error (l1 ++ l2) = match hd_error l1 with Some x => Some x | None => hd_error l2 end.
Proof. destruct l1; reflexivity. Qed.
Lemma hd_rest : forall m s, hd_error (flat_map (fun i => positions i evs) (seq s m)) = option_map (fun j => posOf j evs) (find (fun x => existsb (Nat.eqb x) evs) (seq s m)).
Proof.
  induction m as [|m IH]; intro s; [reflexivity|]. cbn [seq flat_map find]. rewrite hd_app, hd_positions. destruct (existsb (Nat.eqb s) evs); [reflexivity|apply IH].
Qed.
Lemma chained_all : forall m s, s + m = count -> chained (flat_map (fun i => positions i evs) (seq s m)).
Proof.
  induction m as [|m IH]; intros s E; [exact I|]. cbn [seq flat_map]. apply chained_occ; [apply IH; lia| |reflexivity].
  rewrite hd_rest. unfold nextOf. replace (count - S s) with m by lia. reflexivity.
Qed.
Lemma chained_app a b : chained (a ++ b) -> chained b.
Proof. induction a as [|x a IH]; [auto|]. intros [_ [_ H]]. exact (IH H). Qed.

Lemma chained_block k : k < nb_ -> forall d q r, q + d = snd (blk k) -> fst (blk k) <= q -> 0 < d -> chained (q :: r) -> exists r', q :: r = seq q d ++ r' /\ chained r' /\ follows (snd (blk k) - 1) (hd_error r').
Proof.
  intro K. induction d as [|d IH]; intros q r E Q D C; [lia|]. destruct d as [|d].
  - exists r. cbn [chained] in C. destruct C as [_ [F C]]. repeat split; auto. replace (snd (blk k) - 1) with q by lia. exact F.
  - cbn [chained] in C. destruct C as [_ [F C]]. pose proof (follows_fun _ _ _ F (inside k q K Q ltac:(lia))) as H. destruct r as [|q' r]; [discriminate|]. cbn in H. inversion H; subst q'.
    destruct (IH (S q) r ltac:(lia) ltac:(lia) ltac:(lia) C) as [r' [R1 [R2 R3]]]. exists r'. cbn [seq app] in *. rewrite R1. auto.
Qed.
Notation span := (fun k => seq (fst (blk k)) (snd (blk k) - fst (blk k))).
Lemma walk_ok : forall fuel k r, k < nb_ -> chained (fst (blk k) :: r) -> length (fst (blk k) :: r) <= fuel ->
  exists ks, walk nx fuel evs bs (links evs bs) k = Some ks /\ flat_map span ks = fst (blk k) :: r.
Proof.
  induction fuel as [|f IH]; intros k r K C L; [cbn in L; lia|]. destruct blk_facts as [A1 _]. destruct (A1 k K) as [A2 _].
  destruct (chained_block k K (snd (blk k) - fst (blk k)) (fst (blk k)) r ltac:(lia) ltac:(lia) ltac:(lia) C) as [r' [R1 [R2 R3]]].
  rewrite R1 in *. rewrite app_length, seq_length in L. cbn [walk]. pose proof (at_end k K) as AE.
  assert (GO : forall k', k' < nb_ -> follows (snd (blk k) - 1) (Some (fst (blk k'))) ->
    exists ks, option_map (cons k) (walk nx f evs bs (links evs bs) k') = Some ks /\ flat_map span ks = span k ++ r').
  { intros k' K' F. pose proof (follows_fun _ _ _ R3 F) as H. destruct r' as [|q r2]; [discriminate|]. cbn in H. inversion H; subst q.
    destruct (IH k' r2 K' R2 ltac:(lia)) as [ks [W1 W2]]. exists (k :: ks). rewrite W1. split; [reflexivity|]. cbn [flat_map]. rewrite W2. reflexivity. }
  destruct (links evs bs k) as [k'|]; [destruct AE; apply GO; assumption|]. destruct (nx (lst k)) as [j|]; [destruct AE; apply GO; assumption|].
  exists [k]. split; [reflexivity|]. cbn [flat_map]. pose proof (follows_fun _ _ _ R3 AE) as H. destruct r'; [reflexivity|discriminate].
Qed.
End P.

(** Every event is put exactly once. *)
From Coq Require Import Permutation.
Lemma perm_insert p e (F : nat -> list nat) : forall m s, s <= e < s + m ->
  Permutation (flat_map (fun i => if e =? i then p :: F i else F i) (seq s m)) (p :: flat_map F (seq s m)).
Proof.
  assert (SKIP : forall m s, e < s -> flat_map (fun i => if e =? i then p :: F i else F i) (seq s m) = flat_map F (seq s m)).
  { induction m as [|m IH]; intros s L; [reflexivity|]. cbn. destruct (Nat.eqb_spec e s); [lia|]. rewrite IH by lia. reflexivity. }
  induction m as [|m IH]; intros s L; [lia|]. cbn. destruct (Nat.eqb_spec e s) as [->|N].
  - rewrite SKIP by lia. reflexivity.
  - rewrite (IH (S s)) by lia. symmetry. apply Permutation_middle.
Qed.
Lemma perm_by (f : nat -> nat) count : forall l, (forall p, In p l -> f p < count) -> Permutation (flat_map (fun i => filter (fun p => f p =? i) l) (seq 0 count)) l.
Proof.
  induction l as [|p l IH]; intro H.
  - replace (flat_map _ (seq 0 count)) with (@nil nat); [constructor|]. induction (seq 0 count) as [|x xs IHx]; [reflexivity|]. cbn. exact IHx.
  - cbn [filter]. rewrite perm_insert by (specialize (H p (or_introl eq_refl)); lia). constructor. apply IH. intros q Q. apply H. right. exact Q.
Qed.
Lemma inOrder_all count evs : (forall i, In i evs -> i < count) -> Permutation (inOrder count evs) (seq 0 (length evs)).
Proof. intro S. apply (perm_by (fun p => nth p evs 0)). intros p P. apply S. apply nth_In. apply in_seq in P. lia. Qed.

Theorem layout_ok count evs : (forall i, In i evs -> i < count) -> 0 < length evs -> nth 0 evs 0 = 0 -> orderly (nextOf count evs) evs -> layout count evs = Some (inOrder count evs).
Proof.
  intros S L F O. pose proof (Permutation_length (inOrder_all count evs S)) as LEN. rewrite seq_length in LEN.
  assert (C : chained count evs (inOrder count evs)) by (apply chained_all; first [exact L | reflexivity | exact O | exact S]).
  assert (H : hd_error (inOrder count evs) = Some 0).
  { unfold inOrder. rewrite (hd_rest evs) by exact L. assert (I0 : In 0 evs) by (rewrite <- F; apply nth_In; exact L). specialize (S 0 I0). destruct count as [|c]; [lia|]. cbn [seq find].
    apply existsb_In in I0. rewrite I0. cbn. f_equal. apply posOf_unique; auto. intros; lia. }
  destruct (inOrder count evs) as [|x r] eqn:IO; [discriminate|]. cbn in H. inversion H; subst x. unfold layout.
  destruct (blk_facts count evs L) as [_ [B0 [_ [B1 _]]]].
  destruct (walk_ok count evs L O (length evs) 0 r B1) as [ks [W1 W2]]; [rewrite B0; exact C|rewrite B0; lia|]. rewrite W1. cbn. rewrite W2, B0. reflexivity.
Qed.

Lemma together_orderly count evs : together evs -> orderly (nextOf count evs) evs.
Proof.
  intros T p L N LA q Q E. assert (NE : nth p evs 0 <> nth (S p) evs 0) by (intro X; apply (LA (S p)); [lia|exact L|congruence]).
  destruct (Nat.eq_dec q p) as [->|]; [contradiction|]. apply NE. rewrite <- E. apply (T q p (S p)); auto; lia.
Qed.
Lemma nodup_together evs : NoDup evs -> together evs.
Proof. intros N p q r A B C E. rewrite (proj1 (NoDup_nth evs 0) N p r ltac:(lia) C E) in A. lia. Qed.

Lemma positions_once evs i : NoDup evs -> map (fun p => nth p evs 0) (positions i evs) = if existsb (Nat.eqb i) evs then [i] else [].
Proof.
  intro ND. assert (G : forall m a, a + m = length evs -> map (fun p => nth p evs 0) (filter (fun p => nth p evs 0 =? i) (seq a m)) = if existsb (Nat.eqb i) (skipn a evs) then [i] else []).
  { induction m as [|m IH]; intros a A; [rewrite skipn_all2 by lia; reflexivity|]. cbn [seq filter]. destruct (skipn a evs) as [|e r] eqn:SK; [apply (f_equal (@length nat)) in SK; rewrite skipn_length in SK; cbn in SK; lia|].
    assert (NE : nth a evs 0 = e) by (rewrite <- (firstn_skipn a evs), app_nth2; rewrite firstn_length, ?Nat.min_l by lia; [rewrite Nat.sub_diag, SK; reflexivity|lia]).
    rewrite NE. pose proof (skip_tl _ _ _ _ SK) as R. specialize (IH (S a) ltac:(lia)). rewrite <- R in IH. cbn [existsb]. rewrite (Nat.eqb_sym i e). destruct (Nat.eqb_spec e i) as [->|N]; [|exact IH].
    cbn [map orb]. rewrite NE, IH. destruct (existsb (Nat.eqb i) r) eqn:X; [|reflexivity]. exfalso. apply existsb_In in X. rewrite <- (firstn_skipn a evs), SK in ND. apply NoDup_remove_2 in ND. apply ND. apply in_or_app. right. exact X. }
  apply (G (length evs) 0 eq_refl).
Qed.
Lemma inOrder_once count evs : NoDup evs -> map (fun p => nth p evs 0) (inOrder count evs) = filter (fun i => existsb (Nat.eqb i) evs) (seq 0 count).
Proof.
  intro ND. unfold inOrder. induction (seq 0 count) as [|i l IH]; [reflexivity|]. cbn [flat_map filter]. rewrite map_app, IH, (positions_once evs i ND). destruct (existsb (Nat.eqb i) evs); reflexivity.
Qed.

(** *** The walk over the bytecode *)
Section E.
Context (len : nat) (code : nat -> instr).
Lemma emit_mono : forall f ks vis evs ip r, emit len code f ks vis evs ip = Some r -> forall f', f <= f' -> emit len code f' ks vis evs ip = Some r.
Proof.
  induction f as [|f IH]; intros ks vis evs ip r E f' L; [discriminate|]. destruct f' as [|f']; [lia|]. cbn [emit] in *.
  destruct ip as [i|].
  - destruct ((i <? len) && negb (existsb (Nat.eqb i) vis)); [|apply IH; [exact E|lia]]. destruct (code i); apply IH; try exact E; lia.
  - destruct ks as [|[]]; [exact E|apply IH; [exact E|lia]|apply IH; [exact E|lia]|apply IH; [exact E|lia]|]. destruct cs; apply IH; try exact E; lia.
Qed.
Lemma emitAll_mono f f' : f <= f' -> forall es vis evs r, emitAll len code f es vis evs = Some r -> emitAll len code f' es vis evs = Some r.
Proof.
  intros L. induction es as [|e es IH]; intros vis evs r E; [exact E|]. cbn [emitAll] in *. destruct (emit len code f [] vis evs (Some e)) as [[v w]|] eqn:F; [|discriminate].
  rewrite (emit_mono _ _ _ _ _ _ F f' L). apply IH. exact E.
Qed.
(** The walk comes to an end. *)
Definition unseen (vis : list nat) : nat := length (filter (fun i => negb (existsb (Nat.eqb i) vis)) (seq 0 len)).
Lemma filter_weaken (f g : nat -> bool) l : (forall x, g x = true -> f x = true) -> length (filter g l) <= length (filter f l).
Proof. intro H. induction l as [|x l IH]; [cbn; lia|]. cbn. specialize (H x). destruct (g x); [rewrite (H eq_refl); cbn; lia|destruct (f x); cbn; lia]. Qed.
Lemma unseen_less i vis : i < len -> existsb (Nat.eqb i) vis = false -> unseen (i :: vis) < unseen vis.
Proof.
  intros L E. unfold unseen. assert (I : In i (seq 0 len)) by (apply in_seq; lia). induction (seq 0 len) as [|x l IH]; [destruct I|]. cbn [filter].
  pose proof (filter_weaken (fun i0 => negb (existsb (Nat.eqb i0) vis)) (fun i0 => negb (existsb (Nat.eqb i0) (i :: vis))) l) as W.
  destruct (Nat.eq_dec x i) as [->|N].
  - rewrite E. cbn [existsb]. rewrite Nat.eqb_refl. cbn. cbn in W. assert (forall x, negb ((x =? i) || existsb (Nat.eqb x) vis) = true -> negb (existsb (Nat.eqb x) vis) = true) as H.
    { intros y Y. destruct (existsb (Nat.eqb y) vis); [destruct (y =? i); discriminate|reflexivity]. }
    specialize (W H). lia.
  - destruct I as [->|I]; [congruence|]. specialize (IH I). cbn [existsb] in *. destruct (Nat.eqb_spec x i); [congruence|]. cbn [orb]. destruct (negb (existsb (Nat.eqb x) vis)); cbn [length]; lia.
Qed.
Definition weight1 (t : todo) : nat := match t with Unbranch _ => 2 | Untable0 _ _ cs => 2 * length cs + 8 | Untable1 _ _ cs => 2 * length cs + 5 | Unswitch _ cs => 2 * length cs + 3 end.
Definition weight (ks : list todo) : nat := list_sum (map weight1 ks).
Lemma weight_cons t ks : weight (t :: ks) = weight1 t + weight ks.
Proof. reflexivity. Qed.
Lemma emit_ends : forall v vis, unseen vis <= v -> forall w ks ip, weight ks + (match ip with Some _ => 1 | None => 0 end) <= w -> forall evs, exists f r, emit len code f ks vis evs ip = Some r.
Proof.
  induction v as [v IHv] using lt_wf_ind. intros vis V. induction w as [w IHw] using lt_wf_ind. intros ks ip W evs. destruct ip as [i|].
  - destruct ((i <? len) && negb (existsb (Nat.eqb i) vis)) eqn:B.
    + pose proof B as B'. apply andb_true_iff in B'. destruct B' as [B1 B2]. apply Nat.ltb_lt in B1. apply negb_true_iff in B2. pose proof (unseen_less i vis B1 B2) as U.
      assert (G : forall ks' ip' evs', exists f r, emit len code f ks' (i :: vis) evs' ip' = Some r) by (intros; apply (IHv (unseen (i :: vis)) ltac:(lia) _ (le_n _) _ _ _ (le_n _))).
      destruct (code i) eqn:CI.
      * destruct (G ks (Some (i + n)) (S i :: evs)) as [f [r F]]. exists (S f), r. cbn [emit]. rewrite B, CI. exact F.
      * destruct (G ks (Some t) (S i :: evs)) as [f [r F]]. exists (S f), r. cbn [emit]. rewrite B, CI. exact F.
      * destruct (G (Unbranch (i + n) :: ks) (Some t) (S i :: evs)) as [f [r F]]. exists (S f), r. cbn [emit]. rewrite B, CI. exact F.
      * destruct (G ks None (S i :: evs)) as [f [r F]]. exists (S f), r. cbn [emit]. rewrite B, CI. exact F.
      * destruct (G (Unswitch d cs :: ks) None (S i :: evs)) as [f [r F]]. exists (S f), r. cbn [emit]. rewrite B, CI. exact F.
      * destruct (G (Untable0 i d cs :: ks) (Some d) (S i :: evs)) as [f [r F]]. exists (S f), r. cbn [emit]. rewrite B, CI. exact F.
    + destruct (IHw (weight ks) ltac:(lia) ks None (Nat.eq_le_incl _ _ (Nat.add_0_r _)) evs) as [f [r F]]. exists (S f), r. cbn [emit]. rewrite B. exact F.
  - destruct ks as [|t ks]; [exists 1; eexists; reflexivity|]. assert (W' : weight1 t + weight ks <= w) by (rewrite Nat.add_0_r in W; exact W).
    assert (G : forall ks' ip' evs', weight ks' + (match ip' with Some _ => 1 | None => 0 end) < weight1 t + weight ks -> exists f r, emit len code f ks' vis evs' ip' = Some r).
    { intros ks' ip' evs' L. apply (IHw _ (Nat.lt_le_trans _ _ _ L W') _ _ (le_n _)). }
    destruct t as [j|i d cs|i d cs|d [|c cs]].
    + destruct (G ks (Some j) evs) as [f [r F]]; [cbn [weight1 length]; lia|]. exists (S f), r. exact F.
    + destruct (G (Untable1 i d cs :: ks) (Some d) (S i :: evs)) as [f [r F]]; [rewrite weight_cons; cbn [weight1]; lia|]. exists (S f), r. exact F.
    + destruct (G (Unswitch d cs :: ks) None (S i :: evs)) as [f [r F]]; [rewrite weight_cons; cbn [weight1 length]; lia|]. exists (S f), r. exact F.
    + destruct (G ks (Some d) evs) as [f [r F]]; [cbn [weight1 length]; lia|]. exists (S f), r. exact F.
    + destruct (G (Unswitch d cs :: ks) (Some c) evs) as [f [r F]]; [rewrite weight_cons; cbn [weight1 length]; lia|]. exists (S f), r. exact F.
Qed.
Lemma events_end es : forall vis evs, exists f r, emitAll len code f es vis evs = Some r.
Proof.
  induction es as [|e es IH]; intros vis evs; [exists 0; eexists; reflexivity|]. destruct (emit_ends _ vis (le_n _) _ [] (Some e) (le_n _) evs) as [f1 [[v w] F1]].
  destruct (IH v w) as [f2 [r F2]]. exists (f1 + f2), r. cbn [emitAll]. rewrite (emit_mono _ _ _ _ _ _ F1 (f1 + f2) ltac:(lia)). apply (emitAll_mono f2 (f1 + f2) ltac:(lia)). exact F2.
Qed.

(** Every instruction visited has an event; no other; without a tableswitch, one. *)
Definition plainTodo (t : todo) : Prop := match t with Untable0 _ _ _ | Untable1 _ _ _ => False | _ => True end.
Definition fits (vis evs : list nat) : Prop := (forall i, In i evs -> i = 0 \/ exists j, i = S j /\ In j vis) /\ (forall j, In j vis -> In (S j) evs /\ j < len).
Definition tabled (vis : list nat) (t : todo) : Prop := match t with Untable0 i _ _ | Untable1 i _ _ => In i vis | _ => True end.
Lemma emit_fits : forall f ks vis evs ip v w, emit len code f ks vis evs ip = Some (v, w) -> Forall (tabled vis) ks -> fits vis evs -> fits v w.
Proof.
  induction f as [|f IH]; intros ks vis evs ip v w E T H; [discriminate|]. cbn [emit] in E.
  assert (MORE : forall i l, Forall (tabled vis) l -> Forall (tabled (i :: vis)) l) by (intros i l FA; eapply Forall_impl; [|exact FA]; intros []; cbn; auto).
  destruct ip as [i|].
  - destruct ((i <? len) && negb (existsb (Nat.eqb i) vis)) eqn:B; [|apply (IH _ _ _ _ _ _ E T H)].
    apply andb_true_iff in B. destruct B as [B1 B2]. apply Nat.ltb_lt in B1.
    assert (F' : fits (i :: vis) (S i :: evs)).
    { destruct H as [H1 H2]. split.
      - intros x [<-|I]; [right; exists i; split; [reflexivity|left; reflexivity]|]. destruct (H1 x I) as [->|[j [-> J]]]; [left; reflexivity|right; exists j; split; [reflexivity|right; exact J]].
      - intros j [<-|I]; [split; [left; reflexivity|exact B1]|]. destruct (H2 j I). split; [right|]; assumption. }
    destruct (code i); apply (IH _ _ _ _ _ _ E); auto; constructor; cbn; auto.
  - destruct ks as [|[j|i d cs|i d cs|d [|c cs]] ks]; [inversion E; subst; exact H| | | | |]; inversion T; subst; apply (IH _ _ _ _ _ _ E); auto.
    + destruct H as [H4 H5]. split; [|intros j J; destruct (H5 j J); split; [right|]; assumption]. intros x [<-|I]; [right; exists i; split; [reflexivity|assumption]|auto].
    + constructor; cbn; auto.
    + destruct H as [H4 H5]. split; [|intros j J; destruct (H5 j J); split; [right|]; assumption]. intros x [<-|I]; [right; exists i; split; [reflexivity|assumption]|auto].
Qed.
Lemma emit_once (noTable : forall i d cs, i < len -> code i <> Table d cs) : forall f ks vis evs ip v w, emit len code f ks vis evs ip = Some (v, w) -> Forall plainTodo ks -> fits vis evs -> NoDup evs -> NoDup w.
Proof.
  induction f as [|f IH]; intros ks vis evs ip v w E T H ND; [discriminate|]. cbn [emit] in E. destruct ip as [i|].
  - destruct ((i <? len) && negb (existsb (Nat.eqb i) vis)) eqn:B; [|apply (IH _ _ _ _ _ _ E T H ND)].
    apply andb_true_iff in B. destruct B as [B1 B2]. apply Nat.ltb_lt in B1. apply negb_true_iff in B2.
    assert (NV : ~ In i vis) by (intro I; apply existsb_In in I; congruence).
    assert (F' : fits (i :: vis) (S i :: evs)).
    { destruct H as [H1 H2]. split.
      - intros x [<-|I]; [right; exists i; split; [reflexivity|left; reflexivity]|]. destruct (H1 x I) as [->|[j [-> J]]]; [left; reflexivity|right; exists j; split; [reflexivity|right; exact J]].
      - intros j [<-|I]; [split; [left; reflexivity|exact B1]|]. destruct (H2 j I). split; [right|]; assumption. }
    assert (ND' : NoDup (S i :: evs)). { constructor; [|exact ND]. intro I. destruct (proj1 H _ I) as [X|[j [X J]]]; [discriminate|]. inversion X; subst. contradiction. }
    destruct (code i) eqn:CI; try (exfalso; exact (noTable i _ _ B1 CI)); apply (IH _ _ _ _ _ _ E); auto; constructor; cbn; auto.
  - destruct ks as [|[j|i d cs|i d cs|d [|c cs]] ks]; [inversion E; subst; exact ND| | | | |]; inversion T as [|? ? T1 T2]; subst; try (destruct T1); apply (IH _ _ _ _ _ _ E); auto; constructor; cbn; auto.
Qed.
Lemma emitAll_fits f : forall es vis evs v w, emitAll len code f es vis evs = Some (v, w) -> fits vis evs -> fits v (rev w).
Proof.
  induction es as [|e es IH]; intros vis evs v w E H; [inversion E; subst; rewrite rev_involutive; exact H|]. cbn [emitAll] in E.
  destruct (emit len code f [] vis evs (Some e)) as [[v1 w1]|] eqn:F; [|discriminate]. apply (IH _ _ _ _ E). apply (emit_fits _ _ _ _ _ _ _ F); [constructor|exact H].
Qed.
Lemma emitAll_once (noTable : forall i d cs, i < len -> code i <> Table d cs) f : forall es vis evs v w, emitAll len code f es vis evs = Some (v, w) -> fits vis evs -> NoDup evs -> NoDup w.
Proof.
  induction es as [|e es IH]; intros vis evs v w E H ND; [inversion E; subst; apply NoDup_rev; exact ND|]. cbn [emitAll] in E.
  destruct (emit len code f [] vis evs (Some e)) as [[v1 w1]|] eqn:F; [|discriminate]. apply (IH _ _ _ _ E); [apply (emit_fits _ _ _ _ _ _ _ F); [constructor|exact H]|apply (emit_once noTable _ _ _ _ _ _ _ F); [constructor|exact H|exact ND]].
Qed.
(** The entrance stays the first event. *)
Lemma emit_last : forall f ks vis evs ip v w, emit len code f ks vis evs ip = Some (v, w) -> exists a, w = a ++ evs.
Proof.
  induction f as [|f IH]; intros ks vis evs ip v w E; [discriminate|]. cbn [emit] in E.
  assert (ONE : forall x ks' vis' ip', emit len code f ks' vis' (x :: evs) ip' = Some (v, w) -> exists a, w = a ++ evs) by (intros x ks' vis' ip' X; destruct (IH _ _ _ _ _ _ X) as [a ->]; exists (a ++ [x]); rewrite <- app_assoc; reflexivity).
  destruct ip as [i|].
  - destruct ((i <? len) && negb (existsb (Nat.eqb i) vis)); [|apply (IH _ _ _ _ _ _ E)]. destruct (code i); apply (ONE _ _ _ _ E).
  - destruct ks as [|[j|i d cs|i d cs|d [|c cs]] ks]; [inversion E; subst; exists []; reflexivity|apply (IH _ _ _ _ _ _ E)|apply (ONE _ _ _ _ E)|apply (ONE _ _ _ _ E)|apply (IH _ _ _ _ _ _ E)|apply (IH _ _ _ _ _ _ E)].
Qed.
Lemma emitAll_first f : forall es vis evs v w, emitAll len code f es vis evs = Some (v, w) -> exists a, w = rev evs ++ a.
Proof.
  induction es as [|e es IH]; intros vis evs v w E; [inversion E; subst; exists []; symmetry; apply app_nil_r|]. cbn [emitAll] in E.
  destruct (emit len code f [] vis evs (Some e)) as [[v1 w1]|] eqn:F; [|discriminate]. destruct (IH _ _ _ _ E) as [a ->]. destruct (emit_last _ _ _ _ _ _ _ F) as [b ->]. exists (rev b ++ a). rewrite rev_app_distr, app_assoc. reflexivity.
Qed.
Lemma events_ok f es v w : events len code f es = Some (v, w) -> (forall i, In i w -> i = 0 \/ exists j, i = S j /\ In j v) /\ (forall j, In j v -> In (S j) w /\ j < len) /\ 0 < length w /\ nth 0 w 0 = 0 /\ (forall i, In i w -> i < S len).
Proof.
  intro E. assert (F0 : fits [] [0]) by (split; [intros i [<-|[]]; left; reflexivity|intros j []]). destruct (emitAll_fits _ _ _ _ _ _ E F0) as [A B].
  destruct (emitAll_first _ _ _ _ _ _ E) as [a EA]. cbn in EA. 
  assert (A' : forall i, In i w -> i = 0 \/ exists j, i = S j /\ In j v) by (intros i I; apply A; apply -> in_rev; exact I).
  assert (B' : forall j, In j v -> In (S j) w /\ j < len) by (intros j J; destruct (B j J) as [X Y]; split; [apply in_rev; exact X|exact Y]).
  split; [exact A'|]. split; [exact B'|]. rewrite EA. split; [cbn; lia|]. split; [reflexivity|]. rewrite <- EA. intros i I. destruct (A' i I) as [->|[j [-> J]]]; [lia|]. destruct (B' j J). lia.
Qed.
End E.
