(** Proofs about reading constant pools. *)
From Coq Require Import NArith ZArith List Bool Lia Arith.
From Coq Require Import ZifyN ZifyNat ZifyBool.
From Verif Require Import Res Stream_Model Stream_Spec Stream_Proofs CPool_Model CPool_Spec.
Import ListNotations.
Local Open Scope N_scope.
Local Open Scope res_scope.
Ltac Zify.zify_post_hook ::= Z.div_mod_to_equations.
Arguments N.pow : simpl never.

Section Reading.
Variable d : list N.
Hypothesis dbytes : Forall (fun b => b < 256) d.
Hypothesis dsize : N.of_nat (length d) < 2 ^ 32.

Definition mk (p : N) : stream := {| data := d; ssize := N.of_nat (length d); position := p; errors := 0 |}.
Definition lies (p : N) (bs : list N) : Prop :=
  exists pre post, d = pre ++ bs ++ post /\ N.of_nat (length pre) = p.

Lemma mk_good : forall p, p <= N.of_nat (length d) -> good (mk p).
Proof. intros p H. unfold good, mk; cbn [ssize data position]. auto. Qed.

Lemma lies_bound : forall p bs, lies p bs -> p + N.of_nat (length bs) <= N.of_nat (length d).
Proof. intros p bs (a & b & -> & H). rewrite !app_length. lia. Qed.

Lemma lies_padded : forall p bs, lies p bs -> padded d p (N.of_nat (length bs)) = bs.
Proof.
  intros p bs (a & b & E & H). unfold padded.
  assert (F : firstn (N.to_nat (N.of_nat (length bs))) (skipn (N.to_nat p) d) = bs).
  { rewrite E, Nat2N.id, skipn_app, <- H, Nat2N.id, skipn_all, Nat.sub_diag. cbn [skipn app].
    rewrite firstn_app, Nat.sub_diag, firstn_all. cbn [firstn]. apply app_nil_r. }
  rewrite F. replace (N.to_nat (N.of_nat (length bs)) - length bs)%nat with 0%nat by lia. apply app_nil_r.
Qed.

Lemma lies_app : forall p a b, lies p (a ++ b) -> lies p a /\ lies (p + N.of_nat (length a)) b.
Proof.
  intros p a b (x & y & E & H). split.
  - exists x, (b ++ y). rewrite E, !app_assoc. auto.
  - exists (x ++ a), y. rewrite E, !app_assoc. split; [reflexivity|]. rewrite app_length. lia.
Qed.

Lemma lies_bytes : forall p bs, lies p bs -> Forall (fun b => b < 256) bs.
Proof.
  intros p bs (a & b & E & _). pose proof dbytes as H. rewrite E in H. apply Forall_app in H as (_ & H).
  apply Forall_app in H as (H & _). exact H.
Qed.

Lemma be_length : forall w x, length (be w x) = w.
Proof. induction w; intros x; cbn [be]; [reflexivity|]. rewrite app_length, IHw. cbn. lia. Qed.

Lemma be_value : forall w x, x < 256 ^ N.of_nat w -> bigEndian (be w x) = x.
Proof.
  induction w as [|w IH]; intros x H; cbn [be].
  - change (256 ^ N.of_nat 0) with 1 in H. cbn. lia.
  - rewrite bigEndian_app. cbn [length]. change (256 ^ N.of_nat 1) with 256.
    change (bigEndian [x mod 256]) with (x mod 256).
    rewrite Nat2N.inj_succ, N.pow_succ_r' in H.
    rewrite IH by (apply N.div_lt_upper_bound; lia). pose proof (N.div_mod x 256). lia.
Qed.

Lemma be_bytes : forall w x, Forall (fun b => b < 256) (be w x).
Proof.
  induction w; intros x; cbn [be]; [constructor|]. apply Forall_app. split; [apply IHw|].
  constructor; [|constructor]. apply N.mod_lt. lia.
Qed.

Lemma stream_eq : forall s p, ssize s = N.of_nat (length d) -> data s = d -> position s = p -> errors s = 0 -> s = mk p.
Proof. intros [a b c e] p; cbn. intros. subst. reflexivity. Qed.

Lemma num_exact : forall (f : stream -> res (N * stream)) w,
  (forall s, good s -> exists v s', f s = Ok (v, s') /\ num_post s (N.of_nat w) v s') ->
  forall p x, lies p (be w x) -> x < 256 ^ N.of_nat w ->
  checked (f (mk p)) = Ok (x, mk (p + N.of_nat w)).
Proof.
  intros f w Hf p x L Hx. pose proof (lies_bound _ _ L) as B. rewrite be_length in B.
  destruct (Hf (mk p)) as (v & s' & E & V & _ & D & G & P & M & F); [apply mk_good; lia|].
  cbn [data position errors mk] in *.
  assert (FF : fits d p (N.of_nat w) = true) by (unfold fits; apply N.leb_le; lia).
  rewrite FF in F. cbn [negb] in F. apply N.ltb_ge in F.
  assert (s' = mk (p + N.of_nat w)) as ->.
  { destruct G as (G1 & _). rewrite D in G1. apply stream_eq; auto; lia. }
  pose proof (lies_padded _ _ L) as PP. rewrite be_length in PP. rewrite PP, be_value in V by assumption.
  unfold checked. rewrite E. cbn [bind snd errors mk]. rewrite V. reflexivity.
Qed.

Lemma rd1 : forall p x, lies p [x] -> checked (read1 (mk p)) = Ok (x, mk (p + 1)).
Proof.
  intros p x L. pose proof (lies_bytes _ _ L) as B. inversion B; subst.
  apply (num_exact read1 1 read1_ok).
  - cbn [be app]. rewrite N.mod_small by assumption. exact L.
  - assumption.
Qed.
Lemma rd2 : forall p x, lies p (be 2 x) -> x < 2 ^ 16 -> checked (read2 (mk p)) = Ok (x, mk (p + 2)).
Proof. intros p x L H. apply (num_exact read2 2 read2_ok p x L). exact H. Qed.
Lemma rd4 : forall p x, lies p (be 4 x) -> x < 2 ^ 32 -> checked (read4 (mk p)) = Ok (x, mk (p + 4)).
Proof. intros p x L H. apply (num_exact read4 4 read4_ok p x L). exact H. Qed.
Lemma rd8 : forall p x, lies p (be 8 x) -> x < 2 ^ 64 -> checked (read8 (mk p)) = Ok (x, mk (p + 8)).
Proof. intros p x L H. apply (num_exact read8 8 read8_ok p x L). exact H. Qed.

Lemma rdn : forall p b, lies p b -> checked (read (mk p) (N.of_nat (length b))) = Ok (b, mk (p + N.of_nat (length b))).
Proof.
  intros p b L. pose proof (lies_bound _ _ L) as B.
  rewrite read_ok; [|apply mk_good; lia|lia]. unfold checked. cbn [bind snd].
  assert (FF : fits (data (mk p)) (position (mk p)) (N.of_nat (length b)) = true)
    by (unfold fits; cbn [data position mk]; apply N.leb_le; lia).
  unfold after. rewrite FF. cbn [withPos errors mk data position ssize].
  rewrite (lies_padded _ _ L). reflexivity.
Qed.

Lemma skn : forall p n, p + n <= N.of_nat (length d) -> skipA (mk p) n = Ok (mk (p + n)).
Proof.
  intros p n B. unfold skipA. rewrite skip_ok; [|apply mk_good; lia|lia].
  assert (FF : fits (data (mk p)) (position (mk p)) n = true)
    by (unfold fits; cbn [data position mk]; apply N.leb_le; lia).
  unfold after. rewrite FF. reflexivity.
Qed.

Lemma rd2less : forall p x, lies p (be 2 x) -> 0 < x -> x < 2 ^ 16 -> read2less (mk p) = Ok (x - 1, mk (p + 2)).
Proof.
  intros p x L H0 H. unfold read2less. rewrite (rd2 p x L H). cbn [bind fst snd].
  rewrite sub32_ok by (change (2 ^ 32) with 4294967296; change (2 ^ 16) with 65536 in *; lia). reflexivity.
Qed.

(** * Lists *)
Lemma setNth_length : forall {A} (l : list A) i x, length (setNth l i x) = length l.
Proof. induction l as [|y l IH]; intros [|i] x; cbn; auto. Qed.
Lemma setNth_same : forall {A} (l : list A) i x, (i < length l)%nat -> nth_error (setNth l i x) i = Some x.
Proof. induction l as [|y l IH]; intros [|i] x H; cbn in *; try lia; [reflexivity|]. apply IH. lia. Qed.
Lemma setNth_other : forall {A} (l : list A) i j x, i <> j -> nth_error (setNth l i x) j = nth_error l j.
Proof. induction l as [|y l IH]; intros [|i] [|j] x H; cbn; try congruence; auto. Qed.

Lemma at_ok : forall {A} (l : list A) i x, nth_error l (N.to_nat i) = Some x -> at_ l i = Ok x.
Proof.
  intros A l i x H. unfold at_. assert ((N.to_nat i < length l)%nat) by (apply nth_error_Some; congruence).
  replace (i <? N.of_nat (length l)) with true by lia. rewrite H. reflexivity.
Qed.

Lemma nth_error_ext' : forall {A} (a b : list A), (forall i, nth_error a i = nth_error b i) -> a = b.
Proof.
  induction a as [|x a IH]; intros [|y b] H; auto.
  - specialize (H 0%nat). discriminate.
  - specialize (H 0%nat). discriminate.
  - pose proof (H 0%nat) as E. cbn in E. injection E as ->. f_equal. apply IH. intros i. apply (H (S i)).
Qed.

(** * Entries *)
Section Entries.
Variable es : list entry.
Hypothesis Hlegal : legal es.
Variable ix : list (option N).

Definition isAt (i : N) (e : entry) : Prop := nth_error (slots es) (N.to_nat i) = Some (Some e).
Hypothesis Hix : forall i e, isAt i e -> exists p, nth_error ix (N.to_nat i) = Some (Some p) /\ lies p (encode e).

Definition sl (j : nat) : slot := slotOf es (nth j (slots es) None).
Definition dyn (j : nat) : bool := match nth j (slots es) None with Some (InvokeDynamic _ _) => true | _ => false end.

Lemma isAt_sl : forall i e, isAt i e -> sl (N.to_nat i) = slotOf es (Some e).
Proof. intros i e H. unfold sl. rewrite (nth_error_nth _ _ _ H). reflexivity. Qed.
Lemma isAt_dyn : forall i e, isAt i e -> dyn (N.to_nat i) = match e with InvokeDynamic _ _ => true | _ => false end.
Proof. intros i e H. unfold dyn. rewrite (nth_error_nth _ _ _ H). reflexivity. Qed.

Lemma slots_in : forall l x, In (Some x) (slots l) -> In x l.
Proof.
  induction l as [|e l IH]; cbn; intros x H; [exact H|]. apply in_app_or in H as [H|H]; [|right; auto].
  left. destruct e; cbn in H; intuition congruence.
Qed.
Lemma isAt_legal : forall i e, isAt i e -> fitsEntry e /\ meaning es e <> None.
Proof.
  intros i e H. destruct Hlegal as (_ & L). rewrite Forall_forall in L. apply L. apply slots_in.
  eapply nth_error_In. exact H.
Qed.

Lemma entryAt_isAt : forall i e, entryAt es i = Some e -> 0 < i /\ isAt (i - 1) e.
Proof.
  intros i e H. unfold entryAt in H. destruct (i =? 0) eqn:E; [discriminate|]. split; [lia|]. unfold isAt.
  destruct (Nat.lt_ge_cases (N.to_nat (i - 1)) (length (slots es))) as [L|L].
  - rewrite (nth_error_nth' _ None L), H. reflexivity.
  - rewrite nth_overflow in H by assumption. discriminate.
Qed.

Definition inv (p : pst) : Prop :=
  length (pool p) = length (slots es) /\ (exists q, strm p = mk q)
  /\ forall j x, nth_error (pool p) j = Some x -> x = Word 0 \/ x = sl j.
Definition ext (p p' : pst) : Prop :=
  invs p' = invs p /\ inv p'
  /\ forall j, nth_error (pool p') j = nth_error (pool p) j \/ (dyn j = false /\ nth_error (pool p') j = Some (sl j)).

Lemma ext_refl : forall p, inv p -> ext p p.
Proof. intros p H. split; [reflexivity|split; [assumption|]]. auto. Qed.
Lemma ext_trans : forall a b c, ext a b -> ext b c -> ext a c.
Proof.
  intros a b c (A1 & A2 & A3) (B1 & B2 & B3). split; [congruence|split; [assumption|]].
  intros j. destruct (B3 j) as [E|E]; [|auto]. rewrite E. apply A3.
Qed.
Lemma ext_keeps : forall a b j, ext a b -> nth_error (pool a) j = Some (sl j) -> nth_error (pool b) j = Some (sl j).
Proof. intros a b j (_ & _ & H) E. destruct (H j) as [F|(_ & F)]; congruence. Qed.

Lemma onStream_ext : forall p q, inv p -> ext p (onStream p (mk q)).
Proof.
  intros p q (H1 & H2 & H3). split; [reflexivity|split]; [|auto]. split; [assumption|split; [eexists; reflexivity|assumption]].
Qed.

Lemma set_ext : forall p i e x, inv p -> isAt i e -> dyn (N.to_nat i) = false -> x = sl (N.to_nat i) ->
  ext p (setSlot p i x) /\ nth_error (pool (setSlot p i x)) (N.to_nat i) = Some (sl (N.to_nat i)).
Proof.
  intros p i e x (H1 & H2 & H3) A D ->.
  assert (L : (N.to_nat i < length (pool p))%nat).
  { rewrite H1. apply nth_error_Some. unfold isAt in A. congruence. }
  assert (K : nth_error (pool (setSlot p i (sl (N.to_nat i)))) (N.to_nat i) = Some (sl (N.to_nat i)))
    by (cbn [setSlot pool]; apply setNth_same, L).
  split; [|exact K]. split; [reflexivity|]. split.
  - split; [cbn [setSlot pool]; rewrite setNth_length; assumption|]. split; [assumption|].
    intros j y Hy. destruct (Nat.eq_dec (N.to_nat i) j) as [<-|NE].
    + rewrite K in Hy. injection Hy as <-. auto.
    + cbn [setSlot pool] in Hy. rewrite setNth_other in Hy by assumption. apply H3. assumption.
  - intros j. destruct (Nat.eq_dec (N.to_nat i) j) as [<-|NE]; [auto|]. left. cbn [setSlot pool].
    apply setNth_other. assumption.
Qed.

(** What parsing the entry [e] at [i] does, given enough depth. *)
Definition parses (f : nat) (i : N) (e : entry) : Prop := forall p, inv p ->
  exists p', parsePoolEntry f ix i p = Ok (N.of_nat (length (places e)), p') /\ ext p p'
    /\ nth_error (pool p') (N.to_nat i) = Some (sl (N.to_nat i)).

Lemma once_ok : forall p i e s (k : res pst) o, inv p -> isAt i e -> sl (N.to_nat i) = Obj o -> (exists q, s = mk q) ->
  (nth_error (pool p) (N.to_nat i) = Some (Word 0) ->
     exists q, k = Ok q /\ ext p q /\ nth_error (pool q) (N.to_nat i) = Some (sl (N.to_nat i))) ->
  exists p', (do z <- isNull p i; if z then (do q <- k; Ok (1, q)) else Ok (1, onStream p s)) = Ok (1, p')
    /\ ext p p' /\ nth_error (pool p') (N.to_nat i) = Some (sl (N.to_nat i)).
Proof.
  intros p i e s k o Hinv A O (q0 & ->) K. pose proof Hinv as (H1 & H2 & H3).
  destruct (nth_error (pool p) (N.to_nat i)) as [x|] eqn:E.
  2:{ exfalso. apply nth_error_None in E. rewrite H1 in E. apply nth_error_None in E. unfold isAt in A. congruence. }
  unfold isNull. rewrite (at_ok _ _ _ E). cbn [bind].
  destruct (H3 _ _ E) as [->| ->].
  - destruct (K eq_refl) as (q & -> & X & Y). cbn [bind]. eauto.
  - rewrite O. exists (onStream p (mk q0)). split; [reflexivity|]. split; [apply onStream_ext; assumption|].
    cbn [onStream pool]. rewrite <- O. exact E.
Qed.

Lemma start : forall i e tag body p, isAt i e -> encode e = tag :: body -> inv p ->
  exists pos, at_ ix i = Ok (Some pos) /\ checked (read1 (setPosition (strm p) pos)) = Ok (tag, mk (pos + 1))
    /\ lies (pos + 1) body.
Proof.
  intros i e tag body p A E (_ & (q & Q) & _). destruct (Hix _ _ A) as (pos & P & L). exists pos.
  rewrite E in L. apply (lies_app pos [tag] body) in L as (L1 & L2). split; [apply at_ok; assumption|]. split; [|exact L2].
  rewrite Q. apply (rd1 pos tag L1).
Qed.

Ltac head A Hinv :=
  match goal with |- exists _, parsePoolEntry _ _ ?i ?p = _ /\ _ =>
    let pos := fresh "pos" in let S1 := fresh "S1" in let S2 := fresh "S2" in let L := fresh "L" in
    destruct (start i _ _ _ p A eq_refl Hinv) as (pos & S1 & S2 & L);
    cbn [parsePoolEntry]; rewrite S1; cbn [bind of_option]; rewrite S2; cbn [bind fst snd] end.

Lemma parse_number : forall f i e v, isAt i e -> (e = Integer v \/ e = Float v \/ e = Long v \/ e = Double v) -> parses (S f) i e.
Proof.
  intros f i e v A C p Hinv. pose proof (isAt_legal _ _ A) as (F & _). pose proof (isAt_sl _ _ A) as SL. pose proof (isAt_dyn _ _ A) as D.
  destruct C as [->|[->|[->| ->]]]; head A Hinv; cbn [fitsEntry] in F.
  1,2: rewrite (rd4 _ v L F). 3,4: rewrite (rd8 _ v L F). all: cbn [bind fst snd].
  all: match goal with |- context [setSlot (onStream ?pp (mk ?q)) _ _] =>
    destruct (onStream_ext p q Hinv) as (O1 & O2 & O3);
    destruct (set_ext (onStream p (mk q)) i _ (Word v) O2 A D) as (X & Y); [rewrite SL; reflexivity|];
    eexists; split; [reflexivity|]; split; [|exact Y]; eapply ext_trans; [split; eauto|exact X] end.
Qed.

Lemma parse_utf8 : forall f i b, isAt i (Utf8 b) -> parses (S f) i (Utf8 b).
Proof.
  intros f i b A p Hinv. pose proof (isAt_legal _ _ A) as (F & _). pose proof (isAt_sl _ _ A) as SL. pose proof (isAt_dyn _ _ A) as D.
  head A Hinv. cbn [fitsEntry] in F. destruct F as (F & _). apply lies_app in L as (L1 & L2). rewrite be_length in L2.
  eapply once_ok; [eassumption|exact A|rewrite SL; reflexivity|eexists; reflexivity|]. intros _.
  rewrite (rd2 _ _ L1 F). cbn [bind fst snd]. change (N.of_nat 2) with 2 in L2.
  rewrite (rdn _ _ L2). cbn [bind fst snd].
  match goal with |- context [setSlot (onStream ?pp (mk ?q)) _ _] =>
    destruct (onStream_ext p q Hinv) as (O1 & O2 & O3);
    destruct (set_ext (onStream p (mk q)) i _ (Obj (OBytes b)) O2 A D) as (X & Y); [rewrite SL; reflexivity|];
    eexists; split; [reflexivity|]; split; [|exact Y]; eapply ext_trans; [split; eauto|exact X] end.
Qed.

Lemma text_at : forall i b, text es i = Some b -> 0 < i /\ isAt (i - 1) (Utf8 b).
Proof.
  intros i b H. unfold text in H. destruct (entryAt es i) as [[]|] eqn:E; try discriminate. injection H as ->.
  apply entryAt_isAt. exact E.
Qed.
Lemma asBytes_ok : forall p i b, isAt i (Utf8 b) -> nth_error (pool p) (N.to_nat i) = Some (sl (N.to_nat i)) -> asBytes p i = Ok b.
Proof. intros p i b A E. unfold asBytes. rewrite (at_ok _ _ _ E), (isAt_sl _ _ A). reflexivity. Qed.

Lemma parse_one : forall f i e b, isAt i e ->
  (e = Class b \/ e = String b \/ e = MethodType b) -> parses (S (S f)) i e.
Proof.
  intros f i e b A C p Hinv.
  pose proof (isAt_legal _ _ A) as (F & M). pose proof (isAt_sl _ _ A) as SL. pose proof (isAt_dyn _ _ A) as D.
  assert (T : exists t, text es b = Some t).
  { destruct C as [->|[->| ->]]; cbn [meaning] in M; destruct (text es b); eauto; cbn in M; congruence. }
  destruct T as (t & T). destruct (text_at _ _ T) as (B0 & B).
  assert (F' : b < 2 ^ 16) by (destruct C as [->|[->| ->]]; exact F).
  pose proof (parse_utf8 f _ _ B) as PB.
  revert PB. generalize (S f) as f1. intros f1 PB.
  destruct C as [->|[->| ->]]; head A Hinv; cbn [meaning slotOf] in SL; rewrite T in SL; cbn [option_map stored] in SL;
    (eapply once_ok; [eassumption|exact A|exact SL|eexists; reflexivity|]; intros _;
     rewrite (rd2less _ _ L B0 F'); cbn [bind fst snd];
     match goal with |- context [onStream ?pp (mk ?q)] =>
       pose proof (onStream_ext p q Hinv) as O; destruct O as (O1 & O2 & O3);
       destruct (PB _ O2) as (p' & Q & X & Y); rewrite Q; cbn [bind fst snd];
       assert (O : ext p p') by (eapply ext_trans; [split; eauto|exact X]);
       first [rewrite (asBytes_ok _ _ _ B Y) | rewrite (at_ok _ _ _ Y)]; cbn [bind];
       pose proof O as (_ & OI & _);
       match goal with |- context [setSlot _ i ?v] =>
         destruct (set_ext p' i _ v OI A D) as (X1 & Y1);
         [rewrite SL; try rewrite (isAt_sl _ _ B); reflexivity|];
         exists (setSlot p' i v); split; [reflexivity|]; split; [eapply ext_trans; eassumption|exact Y1] end end).
Qed.

Lemma parse_nameType : forall f i a b, isAt i (NameAndType a b) -> parses (S (S f)) i (NameAndType a b).
Proof.
  intros f i a b A p Hinv.
  pose proof (isAt_legal _ _ A) as ((Fa & Fb) & M). pose proof (isAt_sl _ _ A) as SL. pose proof (isAt_dyn _ _ A) as D.
  cbn [meaning slotOf] in M, SL. destruct (text es a) as [ta|] eqn:Ta; [|congruence]. destruct (text es b) as [tb|] eqn:Tb; [|congruence].
  cbn [stored] in SL. destruct (text_at _ _ Ta) as (A0 & Aa). destruct (text_at _ _ Tb) as (B0 & Ab).
  pose proof (parse_utf8 f _ _ Aa) as PA. pose proof (parse_utf8 f _ _ Ab) as PB. revert PA PB. generalize (S f) as f1. intros f1 PA PB.
  head A Hinv. apply lies_app in L as (L1 & L2). rewrite be_length in L2. change (N.of_nat 2) with 2 in L2.
  eapply once_ok; [eassumption|exact A|exact SL|eexists; reflexivity|]. intros _.
  rewrite (rd2less _ _ L1 A0 Fa); cbn [bind fst snd]. rewrite (rd2less _ _ L2 B0 Fb); cbn [bind fst snd].
  match goal with |- context [onStream ?pp (mk ?q)] => pose proof (onStream_ext p q Hinv) as O end.
  destruct (PA _ (proj1 (proj2 O))) as (p1 & Q1 & X1 & Y1). rewrite Q1. cbn [bind fst snd].
  pose proof (ext_trans _ _ _ O X1) as O1.
  destruct (PB _ (proj1 (proj2 O1))) as (p2 & Q2 & X2 & Y2). rewrite Q2. cbn [bind fst snd].
  pose proof (ext_trans _ _ _ O1 X2) as O2.
  rewrite (asBytes_ok _ _ _ Aa (ext_keeps _ _ _ X2 Y1)). cbn [bind].
  rewrite (asBytes_ok _ _ _ Ab Y2). cbn [bind].
  destruct (set_ext p2 i _ (Obj (OPair ta tb)) (proj1 (proj2 O2)) A D) as (X3 & Y3); [rewrite SL; reflexivity|].
  eexists. split; [reflexivity|]. split; [eapply ext_trans; eassumption|exact Y3].
Qed.

Lemma className_at : forall i c, className es i = Some c -> 0 < i /\ exists j, isAt (i - 1) (Class j) /\ text es j = Some c.
Proof.
  intros i c H. unfold className in H. destruct (entryAt es i) as [[]|] eqn:E; try discriminate.
  apply entryAt_isAt in E as (E0 & E1). eauto.
Qed.
Lemma nameType_at : forall i n t, nameType es i = Some (n, t) ->
  0 < i /\ exists a b, isAt (i - 1) (NameAndType a b) /\ text es a = Some n /\ text es b = Some t.
Proof.
  intros i n t H. unfold nameType in H. destruct (entryAt es i) as [[]|] eqn:E; try discriminate.
  apply entryAt_isAt in E as (E0 & E1). destruct (text es i0) eqn:T1; [|discriminate]. destruct (text es j) eqn:T2; [|discriminate].
  injection H as -> ->. split; [assumption|]. eauto 6.
Qed.
Lemma asReference_class : forall p i j c, isAt i (Class j) -> text es j = Some c ->
  nth_error (pool p) (N.to_nat i) = Some (sl (N.to_nat i)) -> asReference p i = Ok (0, None, Some c, None).
Proof. intros p i j c A T E. unfold asReference. rewrite (at_ok _ _ _ E), (isAt_sl _ _ A). cbn [slotOf meaning]. rewrite T. reflexivity. Qed.
Lemma asPair_ok : forall p i a b n t, isAt i (NameAndType a b) -> text es a = Some n -> text es b = Some t ->
  nth_error (pool p) (N.to_nat i) = Some (sl (N.to_nat i)) -> asPair p i = Ok (n, t).
Proof. intros p i a b n t A T1 T2 E. unfold asPair. rewrite (at_ok _ _ _ E), (isAt_sl _ _ A). cbn [slotOf meaning]. rewrite T1, T2. reflexivity. Qed.

Lemma parse_member : forall f i m a b, isAt i (Member m a b) -> parses (S (S (S f))) i (Member m a b).
Proof.
  intros f i m a b A p Hinv.
  pose proof (isAt_legal _ _ A) as ((Fa & Fb) & M). pose proof (isAt_sl _ _ A) as SL. pose proof (isAt_dyn _ _ A) as D.
  cbn [meaning slotOf] in M, SL. unfold memberOf in M, SL. destruct (className es a) as [c|] eqn:Ta; [|cbn in M; congruence].
  destruct (nameType es b) as [[n t]|] eqn:Tb; [|cbn in M; congruence].
  cbn [stored option_map] in SL. destruct (className_at _ _ Ta) as (A0 & j & Aa & Tc). destruct (nameType_at _ _ _ Tb) as (B0 & a1 & b1 & Ab & Tn & Tt).
  pose proof (parse_one f _ _ j Aa (or_introl eq_refl)) as PA.
  pose proof (parse_nameType f _ _ _ Ab) as PB. revert PA PB. generalize (S (S f)) as f1. intros f1 PA PB.
  assert (ST : exists pos tag, at_ ix i = Ok (Some pos) /\ checked (read1 (setPosition (strm p) pos)) = Ok (tag, mk (pos + 1))
    /\ lies (pos + 1) (be 2 a ++ be 2 b) /\ (tag = 9 \/ tag = 10 \/ tag = 11)).
  { destruct m; destruct (start i _ _ _ p A eq_refl Hinv) as (pos & S1 & S2 & L); exists pos; eexists; eauto 8. }
  destruct ST as (pos & tag & S1 & S2 & L & TG). cbn [parsePoolEntry]. rewrite S1. cbn [bind of_option]. rewrite S2. cbn [bind fst snd].
  apply lies_app in L as (L1 & L2). rewrite be_length in L2. change (N.of_nat 2) with 2 in L2.
  destruct TG as [->|[->| ->]].
  all: eapply once_ok; [eassumption|exact A|exact SL|eexists; reflexivity|]; intros _.
  all: rewrite (rd2less _ _ L1 A0 Fa); cbn [bind fst snd]; rewrite (rd2less _ _ L2 B0 Fb); cbn [bind fst snd].
  all: match goal with |- context [onStream ?pp (mk ?q)] => pose proof (onStream_ext p q Hinv) as O end.
  all: destruct (PA _ (proj1 (proj2 O))) as (p1 & Q1 & X1 & Y1); rewrite Q1; cbn [bind fst snd].
  all: pose proof (ext_trans _ _ _ O X1) as O1.
  all: destruct (PB _ (proj1 (proj2 O1))) as (p2 & Q2 & X2 & Y2); rewrite Q2; cbn [bind fst snd].
  all: pose proof (ext_trans _ _ _ O1 X2) as O2.
  all: rewrite (asReference_class _ _ _ _ Aa Tc (ext_keeps _ _ _ X2 Y1)); cbn [bind].
  all: rewrite (asPair_ok _ _ _ _ _ _ Ab Tn Tt Y2); cbn [bind fst snd].
  all: destruct (set_ext p2 i _ (Obj (OReference 0 (Some c) (Some n) (Some t))) (proj1 (proj2 O2)) A D) as (X3 & Y3); [rewrite SL; reflexivity|].
  all: eexists; split; [reflexivity|]; split; [eapply ext_trans; eassumption|exact Y3].
Qed.

Lemma parse_handle : forall f i k a, isAt i (MethodHandle k a) -> parses (S (S (S (S f)))) i (MethodHandle k a).
Proof.
  intros f i k a A p Hinv.
  pose proof (isAt_legal _ _ A) as ((Fk & Fa) & M). pose proof (isAt_sl _ _ A) as SL. pose proof (isAt_dyn _ _ A) as D.
  cbn [meaning slotOf] in M, SL. destruct (entryAt es a) as [[]|] eqn:EA; try congruence.
  destruct (memberOf es i0 j) as [[[c n] t]|] eqn:MO; [|cbn in M; congruence]. cbn [stored option_map] in SL.
  apply entryAt_isAt in EA as (A0 & Aa).
  pose proof (parse_member f _ _ _ _ Aa) as PA. revert PA. generalize (S (S (S f))) as f1. intros f1 PA.
  head A Hinv. apply lies_app in L as (L1 & L2). rewrite be_length in L2. change (N.of_nat 1) with 1 in L2.
  eapply once_ok; [eassumption|exact A|exact SL|eexists; reflexivity|]. intros _.
  cbn [be app] in L1. rewrite N.mod_small in L1 by assumption. rewrite (rd1 _ _ L1). cbn [bind fst snd].
  rewrite (rd2less _ _ L2 A0 Fa); cbn [bind fst snd].
  match goal with |- context [onStream ?pp (mk ?q)] => pose proof (onStream_ext p q Hinv) as O end.
  destruct (PA _ (proj1 (proj2 O))) as (p1 & Q1 & X1 & Y1). rewrite Q1. cbn [bind fst snd].
  pose proof (ext_trans _ _ _ O X1) as O1.
  assert (AR : asReference p1 (a - 1) = Ok (0, Some c, Some n, Some t)).
  { unfold asReference. rewrite (at_ok _ _ _ Y1), (isAt_sl _ _ Aa). cbn [slotOf meaning]. rewrite MO. reflexivity. }
  rewrite AR. cbn [bind].
  destruct (set_ext p1 i _ (Obj (OReference k (Some c) (Some n) (Some t))) (proj1 (proj2 O1)) A D) as (X3 & Y3); [rewrite SL; reflexivity|].
  eexists. split; [reflexivity|]. split; [eapply ext_trans; eassumption|exact Y3].
Qed.

(** All entries but dynamic calls. *)
Lemma parse_plain : forall f i e, isAt i e -> dyn (N.to_nat i) = false -> parses (S (S (S (S f)))) i e.
Proof.
  intros f i e A D. rewrite (isAt_dyn _ _ A) in D.
  destruct e; try discriminate D.
  - apply parse_utf8, A.
  - eapply parse_number; eauto.
  - eapply parse_number; eauto.
  - eapply parse_number; eauto.
  - eapply parse_number; eauto 6.
  - eapply parse_one; eauto.
  - eapply parse_one; eauto.
  - apply parse_nameType, A.
  - apply parse_member, A.
  - apply parse_handle, A.
  - eapply parse_one; eauto.
Qed.

Lemma parse_dynamic : forall f i b a p n t, isAt i (InvokeDynamic b a) -> nameType es a = Some (n, t) -> inv p ->
  nth_error (pool p) (N.to_nat i) = Some (Word 0) ->
  exists p', parsePoolEntry (S (S (S (S f)))) ix i p = Ok (1, p') /\ inv p'
    /\ invs p' = invs p ++ [OInvocation b n t]
    /\ nth_error (pool p') (N.to_nat i) = Some (sl (N.to_nat i))
    /\ forall j, j <> N.to_nat i -> nth_error (pool p') j = nth_error (pool p) j \/ (dyn j = false /\ nth_error (pool p') j = Some (sl j)).
Proof.
  intros f i b a p n t A NT Hinv Z.
  pose proof (isAt_legal _ _ A) as ((Fb & Fa) & _). pose proof (isAt_sl _ _ A) as SL.
  cbn [meaning slotOf] in SL. rewrite NT in SL. cbn [option_map stored] in SL.
  destruct (nameType_at _ _ _ NT) as (A0 & a1 & b1 & Aa & Tn & Tt).
  pose proof (parse_nameType (S f) _ _ _ Aa) as PA. revert PA. generalize (S (S (S f))) as f1. intros f1 PA.
  head A Hinv. apply lies_app in L as (L1 & L2). rewrite be_length in L2. change (N.of_nat 2) with 2 in L2.
  unfold isNull. rewrite (at_ok _ _ _ Z). cbn [bind].
  rewrite (rd2 _ _ L1 Fb). cbn [bind fst snd]. rewrite (rd2less _ _ L2 A0 Fa); cbn [bind fst snd].
  match goal with |- context [onStream ?pp (mk ?q)] => pose proof (onStream_ext p q Hinv) as O end.
  destruct (PA _ (proj1 (proj2 O))) as (p1 & Q1 & X1 & Y1). rewrite Q1. cbn [bind fst snd].
  pose proof (ext_trans _ _ _ O X1) as (E1 & (I1 & I2 & I3) & E3).
  rewrite (asPair_ok _ _ _ _ _ _ Aa Tn Tt Y1). cbn [bind fst snd].
  assert (LL : (N.to_nat i < length (pool p1))%nat).
  { rewrite I1. apply nth_error_Some. unfold isAt in A. congruence. }
  eexists. split; [reflexivity|]. unfold inv. cbn [strm pool invs setSlot]. rewrite setNth_length, setNth_same by assumption.
  split; [|split; [rewrite E1; reflexivity|split; [rewrite SL; reflexivity|]]].
  - split; [assumption|split; [assumption|]]. intros j x Hx. destruct (Nat.eq_dec (N.to_nat i) j) as [<-|NE].
    + rewrite setNth_same in Hx by assumption. injection Hx as <-. right. rewrite SL. reflexivity.
    + rewrite setNth_other in Hx by assumption. auto.
  - intros j NE. rewrite setNth_other by congruence. apply E3.
Qed.
End Entries.

(** * The first pass *)
Definition floatMark (fl i : N) (e : entry) : N :=
  match e with Float _ => N.setbit fl i | Double _ => N.setbit (N.setbit fl i) (i + 1) | _ => fl end.

Lemma scan_step : forall f i count c q e, i < count -> sstrm c = mk q -> lies q (encode e) -> fitsEntry e ->
  scan (S f) i count c
  = scan f (i + N.of_nat (length (places e))) count
      {| sstrm := mk (q + N.of_nat (length (encode e)));
         index_ := setNth (index_ c) (N.to_nat i) (Some q);
         mask := if isObject (Some e) then markObject (mask c) i else mask c;
         floats := floatMark (floats c) i e |}.
Proof.
  intros f i count c q e Hi Hs L F.
  pose proof (lies_bound _ _ L) as B.
  assert (H1 : exists tag body, encode e = tag :: body) by (destruct e as [| | | | | | | |[]| | |]; cbn [encode app]; eauto).
  destruct H1 as (tag & body & E). pose proof L as L'. rewrite E in L'. apply (lies_app q [tag] body) in L' as (L1 & L2).
  cbn [scan]. replace (i <? count) with true by lia. rewrite Hs, (rd1 _ _ L1). cbn [bind fst snd position mk].
  change (N.of_nat (length [tag])) with 1 in L2.
  assert (ET : tag = hd 0 (encode e) /\ body = tl (encode e)) by (rewrite E; auto). destruct ET as (-> & ->). clear E L1.
  destruct e as [b|v|v|v|v|a|a|a a2|[] a a2|k a|a|b a];
    cbn [encode places isObject floatMark length hd tl app] in *; rewrite ?app_length, ?be_length in B; cbn [length] in B.
  1:{ cbn [fitsEntry] in F. destruct F as (F & _). apply lies_app in L2 as (L3 & L4). rewrite be_length in L4.
      rewrite (rd2 _ _ L3 F). cbn [bind fst snd]. rewrite skn by lia. cbn [bind].
      rewrite !app_length, be_length. cbn [length].
      replace (q + 1 + 2 + N.of_nat (length b)) with (q + N.of_nat (1 + (2 + length b))) by lia. reflexivity. }
  all: rewrite skn by lia; cbn [bind]; rewrite ?app_length, ?be_length; cbn [length].
  all: match goal with |- context [mk (?qq + 1 + ?n)] => match goal with |- context [mk (?qq + N.of_nat ?m)] =>
         replace (q + 1 + n) with (q + N.of_nat m) by lia end end; reflexivity.
Qed.

Lemma testbit_set : forall m i b, N.testbit (N.setbit m i) b = (N.testbit m b || (i =? b)).
Proof. intros. rewrite N.setbit_eqb. apply orb_comm. Qed.

Definition marks (i : N) (l : list bool) (b : N) : bool := (i <=? b) && nth (N.to_nat (b - i)) l false.

Lemma marks_app : forall i x l b, marks i (x ++ l) b
  = (if b <? i + N.of_nat (length x) then marks i x b else marks (i + N.of_nat (length x)) l b).
Proof.
  intros i x l b. unfold marks. destruct (b <? i + N.of_nat (length x)) eqn:E.
  - destruct (i <=? b) eqn:E1; [|reflexivity]. cbn [andb]. apply app_nth1. lia.
  - replace (i <=? b) with true by lia. replace (i + N.of_nat (length x) <=? b) with true by lia. cbn [andb].
    rewrite app_nth2 by lia. f_equal. lia.
Qed.
Lemma marks_out : forall i x b, i + N.of_nat (length x) <= b -> marks i x b = false.
Proof. intros i x b H. unfold marks. rewrite nth_overflow by lia. apply andb_false_r. Qed.
Lemma marks_before : forall i x b, b < i -> marks i x b = false.
Proof. intros i x b H. unfold marks. replace (i <=? b) with false by lia. reflexivity. Qed.

Definition floatsOf (e : entry) : list bool :=
  match e with Float _ => [true] | Double _ => [true; true] | Long _ => [false; false] | _ => [false] end.
Lemma floating_eq : forall l, floating l = flat_map floatsOf l.
Proof. reflexivity. Qed.
Lemma floatsOf_length : forall e, length (floatsOf e) = length (places e).
Proof. destruct e; reflexivity. Qed.

Lemma mark1 : forall i x b, marks i [x] b = x && (i =? b).
Proof.
  intros i x b. unfold marks. destruct (i <=? b) eqn:E; cbn [andb].
  - destruct (i =? b) eqn:E2.
    + replace (N.to_nat (b - i)) with 0%nat by lia. cbn. rewrite andb_true_r. reflexivity.
    + rewrite nth_overflow by (cbn; lia). rewrite andb_false_r. reflexivity.
  - replace (i =? b) with false by lia. rewrite andb_false_r. reflexivity.
Qed.

Lemma objectMark_ok : forall m i e b,
  N.testbit (if isObject (Some e) then markObject m i else m) b
  = N.testbit m b || marks (i + 2) (map isObject (places e)) b.
Proof.
  intros m i e b. unfold markObject.
  assert (H : marks (i + 2) (map isObject (places e)) b = isObject (Some e) && (i + 2 =? b)).
  { destruct e; cbn [places map isObject]; try (rewrite mark1; reflexivity).
    all: rewrite (marks_app (i + 2) [false] [false]), !mark1; cbn [andb]; destruct (_ <? _); reflexivity. }
  rewrite H. destruct (isObject (Some e)); [rewrite testbit_set; reflexivity|]. cbn [andb]. rewrite orb_false_r. reflexivity.
Qed.
Lemma floatMark_ok : forall fl i e b, N.testbit (floatMark fl i e) b = N.testbit fl b || marks i (floatsOf e) b.
Proof.
  intros fl i e b. destruct e; cbn [floatMark floatsOf]; rewrite ?mark1; cbn [andb]; rewrite ?orb_false_r, ?testbit_set; try reflexivity.
  - rewrite (marks_app i [false] [false]), !mark1; cbn [andb]; destruct (_ <? _); rewrite orb_false_r; reflexivity.
  - rewrite (marks_app i [true] [true]), !mark1; cbn [andb length]. change (N.of_nat 1) with 1.
    destruct (b <? i + 1) eqn:E.
    + replace (i + 1 =? b) with false by lia. rewrite orb_false_r. reflexivity.
    + replace (i =? b) with false by lia. rewrite orb_false_r. reflexivity.
Qed.

Lemma places_length : forall e, (1 <= length (places e))%nat.
Proof. destruct e; cbn; lia. Qed.

Lemma scan_ok : forall es f i count c q, sstrm c = mk q -> lies q (flat_map encode es) -> Forall fitsEntry es ->
  count = i + N.of_nat (length (slots es)) -> length (index_ c) = N.to_nat count -> (length (slots es) <= f)%nat ->
  exists c', scan f i count c = Ok c'
    /\ sstrm c' = mk (q + N.of_nat (length (flat_map encode es)))
    /\ length (index_ c') = length (index_ c)
    /\ (forall j, (j < N.to_nat i)%nat -> nth_error (index_ c') j = nth_error (index_ c) j)
    /\ (forall j e, nth_error (slots es) j = Some (Some e) ->
          exists p, nth_error (index_ c') (N.to_nat i + j) = Some (Some p) /\ lies p (encode e))
    /\ (forall b, N.testbit (mask c') b = N.testbit (mask c) b || marks (i + 2) (map isObject (slots es)) b)
    /\ (forall b, N.testbit (floats c') b = N.testbit (floats c) b || marks i (floating es) b).
Proof.
  induction es as [|e es IH]; intros f i count c q Hs L F Hc Hl Hf.
  - cbn in Hc. exists c. replace (scan f i count c) with (Ok c) by (destruct f; cbn [scan]; replace (i <? count) with false by lia; reflexivity).
    split; [reflexivity|]. cbn [flat_map length slots map floating]. split; [rewrite Hs; f_equal; lia|]. split; [reflexivity|].
    split; [reflexivity|]. split; [intros [|j] e; discriminate|].
    split; intros b; unfold marks, floating; cbn [flat_map map slots]; rewrite nth_overflow by (cbn; lia); rewrite andb_false_r, orb_false_r; reflexivity.
  - cbn [flat_map] in L. apply lies_app in L as (L1 & L2). inversion F as [|x y F1 F2]; subst x y.
    assert (SE : slots (e :: es) = places e ++ slots es) by reflexivity. rewrite SE in *. rewrite app_length in *.
    pose proof (places_length e) as PL.
    destruct f as [|f]; [lia|]. rewrite (scan_step f i count c q e) by (auto; lia).
    destruct (IH f (i + N.of_nat (length (places e))) count
      {| sstrm := mk (q + N.of_nat (length (encode e)));
         index_ := setNth (index_ c) (N.to_nat i) (Some q);
         mask := if isObject (Some e) then markObject (mask c) i else mask c;
         floats := floatMark (floats c) i e |} (q + N.of_nat (length (encode e)))) as (c' & E & S' & LI & LO & LN & LM & LF);
      auto; try lia; [cbn [index_]; rewrite setNth_length; assumption|].
    cbn [index_ mask floats] in *. exists c'. split; [exact E|]. cbn [flat_map]. rewrite app_length.
    split; [rewrite S'; f_equal; lia|]. split; [rewrite LI; apply setNth_length|].
    split; [intros j Hj; rewrite LO by lia; apply setNth_other; lia|].
    split; [|split].
    + intros j e' Hj. destruct (Nat.lt_ge_cases j (length (places e))) as [H|H].
      * rewrite nth_error_app1 in Hj by assumption.
        assert (j = 0%nat /\ e' = e) as (-> & ->).
        { destruct e, j as [|[|j]]; cbn in Hj; try discriminate; try (split; congruence); destruct j; discriminate. }
        exists q. split; [|assumption]. rewrite LO by lia. rewrite Nat.add_0_r. apply setNth_same. lia.
      * rewrite nth_error_app2 in Hj by assumption. destruct (LN _ _ Hj) as (p & P & LP). exists p. split; [|assumption].
        rewrite <- P. f_equal. lia.
    + intros b. rewrite LM, objectMark_ok, map_app, <- orb_assoc. f_equal.
      rewrite (marks_app (i + 2)), map_length.
      replace (i + N.of_nat (length (places e)) + 2) with (i + 2 + N.of_nat (length (places e))) by lia.
      destruct (b <? _) eqn:E1; [rewrite (marks_before (i + 2 + N.of_nat (length (places e))) _ b) by lia; apply orb_false_r|].
      rewrite marks_out by (rewrite map_length; lia). reflexivity.
    + intros b. rewrite LF, floatMark_ok, <- orb_assoc. f_equal. change (floating (e :: es)) with (floatsOf e ++ floating es).
      rewrite (marks_app i), floatsOf_length.
      destruct (b <? _) eqn:E1; [rewrite (marks_before (i + N.of_nat (length (places e))) _ b) by lia; apply orb_false_r|].
      rewrite marks_out by (rewrite floatsOf_length; lia). reflexivity.
Qed.

(** * The second pass *)
Definition dynOf (es : list entry) (e : entry) : list obj :=
  match e with
  | InvokeDynamic b i => match nameType es i with Some (n, t) => [OInvocation b n t] | None => [] end
  | _ => []
  end.

Section All.
Variable es : list entry.
Hypothesis Hlegal : legal es.
Variable ix : list (option N).
Hypothesis Hix : forall i e, isAt es i e -> exists p, nth_error ix (N.to_nat i) = Some (Some p) /\ lies p (encode e).

Lemma parseAll_ok : forall rest done f depth i count p,
  es = done ++ rest -> i = N.of_nat (length (slots done)) -> count = N.of_nat (length (slots es)) ->
  (length (slots rest) <= f)%nat -> (4 <= depth)%nat -> inv es p ->
  (forall j, (j < length (slots done))%nat -> nth_error (pool p) j = Some (sl es j)) ->
  (forall j, (length (slots done) <= j < length (slots es))%nat -> dyn es j = true -> nth_error (pool p) j = Some (Word 0)) ->
  exists p', parseAll f depth ix i count p = Ok p' /\ inv es p'
    /\ (forall j, (j < length (slots es))%nat -> nth_error (pool p') j = Some (sl es j))
    /\ invs p' = invs p ++ flat_map (dynOf es) rest.
Proof.
  induction rest as [|e rest IH]; intros done f depth i count p He Hi Hc Hf Hd Hinv Hdone Hdyn.
  - rewrite app_nil_r in He. subst done. exists p.
    replace (parseAll f depth ix i count p) with (Ok p) by (destruct f; cbn [parseAll]; replace (i <? count) with false by lia; reflexivity).
    cbn [flat_map]. rewrite app_nil_r. auto.
  - assert (SE : slots es = slots done ++ places e ++ slots rest) by (rewrite He; unfold slots; rewrite flat_map_app; reflexivity).
    assert (SD : slots (done ++ [e]) = slots done ++ places e) by (unfold slots; rewrite flat_map_app; cbn; rewrite app_nil_r; reflexivity).
    pose proof (places_length e) as PL.
    assert (LE : length (slots es) = (length (slots done) + length (places e) + length (slots rest))%nat)
      by (rewrite SE, !app_length; lia).
    assert (Hf' : (length (places e) + length (slots rest) <= f)%nat) by (revert Hf; unfold slots; cbn [flat_map]; rewrite app_length; auto).
    assert (A : isAt es i e).
    { unfold isAt. rewrite SE, nth_error_app2 by lia. replace (N.to_nat i - length (slots done))%nat with 0%nat by lia.
      destruct e; reflexivity. }
    destruct f as [|f]; [lia|]. destruct depth as [|[|[|[|depth]]]]; try lia.
    cbn [parseAll]. replace (i <? count) with true by lia.
    assert (STEP : exists p1, parsePoolEntry (S (S (S (S depth)))) ix i p = Ok (N.of_nat (length (places e)), p1)
      /\ inv es p1 /\ invs p1 = invs p ++ dynOf es e /\ nth_error (pool p1) (N.to_nat i) = Some (sl es (N.to_nat i))
      /\ forall j, j <> N.to_nat i -> nth_error (pool p1) j = nth_error (pool p) j \/ (dyn es j = false /\ nth_error (pool p1) j = Some (sl es j))).
    { destruct (dyn es (N.to_nat i)) eqn:D.
      - pose proof D as D'. rewrite (isAt_dyn _ _ _ A) in D'. destruct e; try discriminate D'.
        destruct (isAt_legal _ Hlegal _ _ A) as (_ & M). cbn [meaning] in M. destruct (nameType es i0) as [[n t]|] eqn:NT; [|cbn in M; congruence].
        destruct (parse_dynamic es Hlegal ix Hix depth i _ _ p n t A NT Hinv) as (p1 & Q & I1 & V & W & X).
        { apply Hdyn; [lia|assumption]. }
        exists p1. cbn [dynOf]. rewrite NT. auto.
      - destruct (parse_plain es Hlegal ix Hix depth i e A D p Hinv) as (p1 & Q & (V & I1 & X) & W).
        exists p1. split; [exact Q|]. split; [assumption|]. split; [|auto].
        rewrite V. rewrite (isAt_dyn _ _ _ A) in D. destruct e; try discriminate D; symmetry; apply app_nil_r. }
    destruct STEP as (p1 & Q & I1 & V & W & X). rewrite Q. cbn [bind fst snd].
    assert (SECOND : forall j, (length (slots done) < j < length (slots done) + length (places e))%nat ->
      sl es j = Word 0 /\ nth j (slots es) None = None).
    { intros j Hj. assert (N0 : nth j (slots es) None = None).
      { rewrite SE, app_nth2 by lia. rewrite app_nth1 by lia.
        destruct (j - length (slots done))%nat as [|[|k]] eqn:Ek; [lia| |].
        - destruct e; reflexivity.
        - destruct e; cbn [places length] in Hj; lia. }
      unfold sl. rewrite N0. auto. }
    destruct (IH (done ++ [e]) f (S (S (S (S depth)))) (i + N.of_nat (length (places e))) count p1) as (p2 & Q2 & I2 & A2 & V2); auto.
    + rewrite <- app_assoc. exact He.
    + rewrite SD, app_length. lia.
    + lia.
    + rewrite SD, app_length. intros j Hj.
      destruct (Nat.eq_dec j (N.to_nat i)) as [->|NE]; [exact W|].
      destruct (X j NE) as [E|(_ & E)]; [|exact E].
      destruct (Nat.lt_ge_cases j (length (slots done))) as [H|H]; [rewrite E; apply Hdone, H|].
      destruct (SECOND j) as (S1 & S2); [lia|].
      assert (J : exists x, nth_error (pool p1) j = Some x).
      { destruct (nth_error (pool p1) j) eqn:EJ; [eauto|]. apply nth_error_None in EJ. destruct I1 as (I1 & _). lia. }
      destruct J as (x & J). rewrite J. destruct I1 as (_ & _ & I3). destruct (I3 _ _ J) as [->| ->]; congruence.
    + rewrite SD, app_length. intros j Hj D.
      destruct (X j) as [E|(E & _)]; [lia| |congruence]. rewrite E. apply Hdyn; [lia|assumption].
    + exists p2. split; [exact Q2|]. split; [assumption|]. split; [assumption|].
      rewrite V2, V. cbn [flat_map]. apply app_assoc_reverse.
Qed.
End All.

Lemma sizes : forall c, 0 < c -> c < 2 ^ 16 ->
  exists len, makeSingletonOfSize (add32 c (poolMaskSize c)) = Ok len /\ poolSize len = c
    /\ len = c + poolMaskSize c + singletonMaskSize (c + poolMaskSize c)
    /\ singletonCount len = c + poolMaskSize c
    /\ c <= 64 * poolMaskSize c /\ c + poolMaskSize c + 2 <= 64 * singletonMaskSize (c + poolMaskSize c).
Proof.
  intros c H0 H. change (2 ^ 16) with 65536 in H. unfold makeSingletonOfSize, poolSize, poolMaskSizeOf, singletonCount, maskSizeOf, singletonMaskSize, poolMaskSize, ceilingDivide, add32, sub32.
  change (2 ^ 32) with 4294967296.
  assert (P : (c + (64 - 1)) mod 4294967296 / 64 = (c + 63) / 64) by (rewrite N.mod_small by lia; f_equal; lia).
  rewrite P. set (m := (c + 63) / 64). assert (M : 64 * m < c + 64 /\ c <= 64 * m) by (unfold m; lia). clearbody m. clear P.
  rewrite (N.mod_small (c + m)) by lia.
  replace (c + m =? 0) with false by lia.
  assert (P : ((c + m + 2) mod 4294967296 + (64 - 1)) mod 4294967296 / 64 = (c + m + 65) / 64)
    by (rewrite (N.mod_small (c + m + 2)) by lia; rewrite N.mod_small by lia; f_equal; lia).
  rewrite P. set (k := (c + m + 65) / 64). assert (K : 64 * k < c + m + 66 /\ c + m + 2 <= 64 * k) by (unfold k; lia). clearbody k. clear P.
  rewrite (N.mod_small (c + m + k)) by lia.
  replace (c + m + k =? 0) with false by lia.
  assert (P : ((c + m + k + 2) mod 4294967296 + (65 - 1)) mod 4294967296 / 65 = k)
    by (rewrite (N.mod_small (c + m + k + 2)) by lia; rewrite N.mod_small by lia; lia).
  assert (P2 : (c + m + k + 4294967296 - k) mod 4294967296 = c + m) by lia.
  exists (c + m + k). replace (c + m + k =? 0) with false by lia. rewrite P, P2.
  replace (c + m <? c + m + k) with true by lia. split; [reflexivity|].
  assert (P3 : (c + m + (65 - 1)) mod 4294967296 / 65 = m) by (rewrite N.mod_small by lia; lia).
  rewrite P3. repeat split; lia.
Qed.

Lemma parsePool_ok : forall es depth p, legal es -> (4 <= depth)%nat -> lies p (poolBytes es) ->
  exists r, parsePool depth (mk p) = Ok r
    /\ entries r = map (slotOf es) (slots es)
    /\ invocations r = dynamics es
    /\ rest r = mk (p + N.of_nat (length (poolBytes es)))
    /\ (es <> [] -> poolSize (length_ r) = N.of_nat (length (slots es))
        /\ N.testbit (objectBits r) 0 = true /\ N.testbit (objectBits r) 1 = false)
    /\ (forall i, N.testbit (objectBits r) (i + 2) = isObject (nth (N.to_nat i) (slots es) None))
    /\ (forall i, N.testbit (floatBits r) i = nth (N.to_nat i) (floating es) false).
Proof.
  intros es depth p Hl Hd L. pose proof Hl as (Hn & Hf). unfold poolBytes in L. apply lies_app in L as (L1 & L2).
  rewrite be_length in L2. change (N.of_nat 2) with 2 in L2.
  unfold parsePool. rewrite (rd2 _ _ L1 Hn). cbn [bind fst snd].
  change (2 ^ 16) with 65536 in Hn.
  rewrite sub32_ok by (change (2 ^ 32) with 4294967296; lia).
  replace (N.of_nat (length (slots es)) + 1 - 1) with (N.of_nat (length (slots es))) by lia.
  set (n := length (slots es)) in *.
  destruct (Nat.eq_dec n 0) as [Z|NZ].
  - destruct es as [|e es']; [|exfalso; unfold n in Z; unfold slots in Z; cbn [flat_map] in Z; rewrite app_length in Z; pose proof (places_length e); lia].
    rewrite Z. change (makeSingletonOfSize (add32 (N.of_nat 0) (poolMaskSize (N.of_nat 0)))) with (Ok 0).
    cbn [bind]. change (N.of_nat 0 =? 0) with true. cbv iota. eexists. split; [reflexivity|].
    cbn [entries invocations rest length_ objectBits floatBits slots flat_map map].
    split; [reflexivity|split; [reflexivity|split; [reflexivity|split; [congruence|]]]].
    split; intros i; rewrite N.bits_0; symmetry; destruct (N.to_nat i); reflexivity.
  - destruct (sizes (N.of_nat n)) as (len & E & PS & _); [lia|change (2 ^ 16) with 65536; lia|]. rewrite E. cbn [bind].
    replace (N.of_nat n =? 0) with false by lia. rewrite Nat2N.id.
    destruct (scan_ok es n 0 (N.of_nat n) {| sstrm := mk (p + 2); index_ := repeat None n; mask := 1; floats := 0 |} (p + 2))
      as (t & T & TS & TL & _ & TI & TM & TF); auto; try lia.
    { eapply Forall_impl; [|exact Hf]. cbn. intros a (H & _). exact H. }
    { cbn [index_]. rewrite repeat_length. lia. }
    rewrite T. cbn [bind]. cbn [mask floats] in *.
    destruct (parseAll_ok es Hl (index_ t)) with (rest := es) (done := @nil entry) (f := n) (depth := depth) (i := 0) (count := N.of_nat n)
      (p := {| strm := sstrm t; pool := repeat (Word 0) n; invs := [] |}) as (q & Q & (Q1 & (qq & Q2) & _) & Q3 & Q4); auto.
    { intros i e A. unfold isAt in A. destruct (TI _ _ A) as (pp & P1 & P2). exists pp. auto. }
    { split; [cbn [pool]; apply repeat_length|]. split; [cbn [strm]; eauto|]. cbn [pool]. intros j x Hx. left.
      apply nth_error_In in Hx. apply repeat_spec in Hx. exact Hx. }
    { cbn. intros; lia. }
    { cbn [pool]. intros j Hj _. rewrite (nth_error_nth' _ (Word 0)) by (rewrite repeat_length; lia). f_equal. apply nth_repeat. }
    rewrite Q. cbn [bind]. eexists. split; [reflexivity|].
    cbn [entries invocations rest length_ objectBits floatBits].
    split; [|split; [|split; [|split; [|split]]]].
    + apply nth_error_ext'. intros j. destruct (Nat.lt_ge_cases j n) as [H|H].
      * rewrite (Q3 j H). symmetry. rewrite (nth_error_nth' _ (slotOf es None)) by (rewrite map_length; exact H). rewrite map_nth. reflexivity.
      * transitivity (@None slot); [apply nth_error_None; lia|symmetry; apply nth_error_None; rewrite map_length; exact H].
    + rewrite Q4. reflexivity.
    + rewrite Q2, TS. unfold setPosition, withPos, mk. cbn [position data ssize errors]. f_equal.
      unfold poolBytes. rewrite app_length, be_length. lia.
    + intros _. split; [exact PS|]. rewrite !TM. split.
      * reflexivity.
      * rewrite marks_before by lia. reflexivity.
    + intros i. rewrite TM. replace (N.testbit 1 (i + 2)) with false.
      2:{ symmetry. change 1 with (2 ^ 0). rewrite N.pow2_bits_eqb. lia. }
      unfold marks. replace (0 + 2 <=? i + 2) with true by lia. cbn [orb andb].
      replace (N.to_nat (i + 2 - (0 + 2))) with (N.to_nat i) by lia. change false with (isObject None). apply map_nth.
    + intros i. rewrite TF, N.bits_0. unfold marks. replace (0 <=? i) with true by lia. cbn [orb andb]. f_equal. lia.
Qed.
End Reading.

(** * Files that are not legal *)
Definition fileOf (l : list N) : stream := newStream l (N.of_nat (length l)).

(** One entry, a class whose name is the entry itself. *)
Definition selfNamed : list N := [0; 2; 7; 0; 1].
Lemma self_loops : forall depth q, parsePoolEntry depth [Some 2] 0
    {| strm := setPosition (fileOf selfNamed) q; pool := [Word 0]; invs := [] |} = Fuel.
Proof.
  induction depth as [|d IH]; intros q; [reflexivity|]. cbn [parsePoolEntry].
  set (X := parsePoolEntry d) in *. pose proof (IH 5) as E. clearbody X.
  vm_compute in E. vm_compute. rewrite E. reflexivity.
Qed.
Lemma selfNamed_loops : forall depth, parsePool depth (fileOf selfNamed) = Fuel.
Proof.
  intros depth. assert (E : parsePool depth (fileOf selfNamed) =
    bind (bind (parsePoolEntry depth [Some 2] 0 {| strm := setPosition (fileOf selfNamed) 5; pool := [Word 0]; invs := [] |})
       (fun r => parseAll 0 depth [Some 2] (0 + fst r) 1 (snd r))) (fun p =>
    Ok {| length_ := 3; entries := pool p; objectBits := 5; floatBits := 0; invocations := invs p; rest := setPosition (strm p) 5 |})) by reflexivity.
  rewrite E, self_loops. reflexivity.
Qed.
