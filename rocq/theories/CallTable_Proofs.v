From Coq Require Import NArith Lia Bool List PeanoNat.
From Verif Require Import CallTable_Model.
Import ListNotations.

Lemma pos_land_le : forall p q, (Pos.land p q <= N.pos q)%N.
Proof.
  induction p as [p IH|p IH|]; destruct q as [q|q|]; cbn [Pos.land]; try lia;
    specialize (IH q); destruct (Pos.land p q); cbn in *; lia.
Qed.
Lemma land_le : forall a b, (N.land a b <= b)%N.
Proof. intros [|a] [|b]; cbn; try lia. apply pos_land_le. Qed.
Lemma index_lt : forall len key, 1 <= len -> index len key < len.
Proof. intros. unfold index. pose proof (land_le key (N.of_nat len - 1)). lia. Qed.

Lemma upd_length : forall A (l : list A) i v, i < length l -> length (upd l i v) = length l.
Proof.
  intros. unfold upd. rewrite app_length. cbn [length]. rewrite firstn_length, skipn_length. lia.
Qed.
Lemma upd_nth : forall A (l : list A) i v j d, i < length l -> nth j (upd l i v) d = if Nat.eqb j i then v else nth j l d.
Proof.
  intros A l i v j d H. unfold upd.
  assert (L : length (firstn i l) = i) by (rewrite firstn_length; lia).
  destruct (Nat.eqb_spec j i) as [->|N].
  - rewrite app_nth2; rewrite L; [|lia]. rewrite Nat.sub_diag. reflexivity.
  - destruct (Nat.lt_ge_cases j i).
    + rewrite app_nth1 by lia. rewrite <- (firstn_skipn i l) at 2. rewrite app_nth1 by lia. reflexivity.
    + rewrite app_nth2 by lia. rewrite L. destruct (j - i) as [|k] eqn:D; [lia|]. cbn [nth].
      rewrite <- (firstn_skipn (S i) l) at 2. rewrite app_nth2; rewrite firstn_length; [|lia]. f_equal. lia.
Qed.
Lemma upd_nth_error : forall A (l : list A) i v j, i < length l ->
  nth_error (upd l i v) j = if Nat.eqb j i then Some v else nth_error l j.
Proof.
  intros A l i v j H. unfold upd.
  assert (L : length (firstn i l) = i) by (rewrite firstn_length; lia).
  destruct (Nat.eqb_spec j i) as [->|N].
  - rewrite nth_error_app2; rewrite L; [|lia]. rewrite Nat.sub_diag. reflexivity.
  - destruct (Nat.lt_ge_cases j i).
    + rewrite nth_error_app1 by lia. rewrite <- (firstn_skipn i l) at 2. rewrite nth_error_app1 by lia. reflexivity.
    + rewrite nth_error_app2 by lia. rewrite L. destruct (j - i) as [|k] eqn:D; [lia|]. cbn [nth_error].
      rewrite <- (firstn_skipn (S i) l) at 2. rewrite nth_error_app2; rewrite firstn_length; [|lia]. f_equal. lia.
Qed.

(** Chains. *)
Inductive chain (ns : list node) : option nat -> list nat -> Prop :=
| chain_nil : chain ns None []
| chain_cons : forall i n l, nth_error ns i = Some n -> chain ns (next n) l -> chain ns (Some i) (i :: l).

Definition agree (B : nat) (ns ns' : list node) : Prop := forall i, i < B -> nth_error ns' i = nth_error ns i.

Lemma chain_agree : forall B ns ns' p ids, agree B ns ns' -> chain ns p ids -> Forall (fun i => i < B) ids -> chain ns' p ids.
Proof.
  intros B ns ns' p ids A C. induction C; intros F; constructor 1 || idtac.
  inversion F; subst. econstructor; [rewrite A by assumption; eassumption|auto].
Qed.
Lemma agree_app : forall ns ext, agree (length ns) ns (ns ++ ext).
Proof. intros ns ext i H. apply nth_error_app1. exact H. Qed.
Lemma agree_le : forall B B' ns ns', B' <= B -> agree B ns ns' -> agree B' ns ns'.
Proof. intros B B' ns ns' L A i H. apply A. lia. Qed.
Lemma agree_trans : forall B ns1 ns2 ns3, agree B ns1 ns2 -> agree B ns2 ns3 -> agree B ns1 ns3.
Proof. intros B n1 n2 n3 A1 A2 i H. rewrite A2, A1 by exact H. reflexivity. Qed.
Lemma agree_refl : forall B ns, agree B ns ns.
Proof. intros B ns i H. reflexivity. Qed.

Definition entry (ns : list node) (i : nat) (y : N * N) : Prop :=
  exists n, nth_error ns i = Some n /\ y = (addr n, target n).

Definition gchain (ns : list node) (B : nat) (st : list (N * N)) (p : option nat) : Prop :=
  exists ids, chain ns p ids /\ NoDup ids /\ Forall (fun i => i < B) ids
    /\ forall i y, In i ids -> entry ns i y -> In y st.
Definition has (ns : list node) (B : nat) (p : option nat) (y : N * N) : Prop :=
  exists ids, chain ns p ids /\ Forall (fun i => i < B) ids /\ exists i, In i ids /\ entry ns i y.

Definition tgood (ns : list node) (B : nat) (st : list (N * N)) (tb : table) : Prop :=
  1 <= length tb /\ forall k, gchain ns B st (nth k tb None).
Definition tcontains (ns : list node) (B : nat) (tb : table) (y : N * N) : Prop :=
  has ns B (nth (index (length tb) (fst y)) tb None) y.

Lemma Forall_lt_le : forall B B' l, B <= B' -> Forall (fun i => i < B) l -> Forall (fun i => i < B') l.
Proof. intros B B' l L F. eapply Forall_impl; [|exact F]. cbn. intros. lia. Qed.

Lemma gchain_mono : forall ns ns' B B' st st' p, agree B ns ns' -> B <= B' -> incl st st' ->
  gchain ns B st p -> gchain ns' B' st' p.
Proof.
  intros ns ns' B B' st st' p A L I (ids & C & D & F & E). exists ids.
  split; [eapply chain_agree; eassumption|]. split; [exact D|]. split; [eapply Forall_lt_le; eassumption|].
  intros i y Hi (n & Hn & ->). apply I. apply (E i); [exact Hi|]. exists n. split; [|reflexivity].
  rewrite Forall_forall in F. rewrite <- A by (apply F; exact Hi). exact Hn.
Qed.
Lemma has_mono : forall ns ns' B B' p y, agree B ns ns' -> B <= B' -> has ns B p y -> has ns' B' p y.
Proof.
  intros ns ns' B B' p y A L (ids & C & F & i & Hi & n & Hn & E). exists ids.
  split; [eapply chain_agree; eassumption|]. split; [eapply Forall_lt_le; eassumption|].
  exists i. split; [exact Hi|]. exists n. split; [|exact E].
  rewrite Forall_forall in F. rewrite A by (apply F; exact Hi). exact Hn.
Qed.
Lemma tgood_mono : forall ns ns' B B' st st' tb, agree B ns ns' -> B <= B' -> incl st st' ->
  tgood ns B st tb -> tgood ns' B' st' tb.
Proof. intros ns ns' B B' st st' tb A L I [G1 G2]. split; [exact G1|]. intros k. eapply gchain_mono; eauto. Qed.
Lemma tcontains_mono : forall ns ns' B B' tb y, agree B ns ns' -> B <= B' -> tcontains ns B tb y -> tcontains ns' B' tb y.
Proof. intros. unfold tcontains in *. eapply has_mono; eauto. Qed.

(** A node put at the head of its chain. *)
Lemma push : forall ns ns' n st tb x,
  tgood ns n st tb -> agree n ns ns' -> nth_error ns' n = Some x ->
  next x = nth (index (length tb) (addr x)) tb None -> In (addr x, target x) st ->
  let tb' := upd tb (index (length tb) (addr x)) (Some n) in
  tgood ns' (S n) st tb' /\ length tb' = length tb
  /\ (forall y, tcontains ns n tb y -> tcontains ns' (S n) tb' y)
  /\ tcontains ns' (S n) tb' (addr x, target x).
Proof.
  intros ns ns' n st tb x [G1 G2] A X NX IX tb'. set (k := index (length tb) (addr x)) in *.
  assert (Hk : k < length tb) by (apply index_lt; exact G1).
  assert (L : length tb' = length tb) by (apply upd_length; exact Hk).
  assert (FR : forall ids, Forall (fun i => i < n) ids -> ~ In n ids).
  { intros ids F I. rewrite Forall_forall in F. specialize (F n I). lia. }
  split; [split; [lia|]|split; [exact L|]; split].
  - intros j. unfold tb'. rewrite upd_nth by exact Hk. destruct (Nat.eqb_spec j k) as [E|E].
    + destruct (gchain_mono ns ns' n n st st (nth k tb None) A ltac:(lia) (incl_refl _) (G2 k)) as (ids & C & D & F & H).
      exists (n :: ids). split; [econstructor; [exact X|rewrite NX; exact C]|].
      split; [constructor; [apply FR; exact F|exact D]|].
      split; [constructor; [lia|eapply Forall_lt_le; [|exact F]; lia]|].
      intros i y [<-|Hi] He; [|eapply H; eassumption].
      destruct He as (m & Hm & ->). assert (m = x) by congruence. subst. exact IX.
    + eapply gchain_mono; [exact A| |apply incl_refl|apply G2]. lia.
  - intros y (ids & C & F & i & Hi & He). unfold tcontains. rewrite L. unfold tb'. rewrite upd_nth by exact Hk.
    destruct (Nat.eqb_spec (index (length tb) (fst y)) k) as [E|E].
    + rewrite E in C. exists (n :: ids). split; [econstructor; [exact X|rewrite NX; eapply chain_agree; eassumption]|].
      split; [constructor; [lia|eapply Forall_lt_le; [|exact F]; lia]|].
      exists i. split; [right; exact Hi|]. destruct He as (m & Hm & ->). exists m. split; [|reflexivity].
      rewrite Forall_forall in F. rewrite A by (apply F; exact Hi). exact Hm.
    + eapply has_mono; [exact A| |exists ids; eauto]. lia.
  - unfold tcontains. rewrite L. cbn [fst]. fold k. unfold tb'. rewrite upd_nth, Nat.eqb_refl by exact Hk.
    destruct (gchain_mono ns ns' n n st st (nth k tb None) A ltac:(lia) (incl_refl _) (G2 k)) as (ids & C & D & F & H).
    exists (n :: ids). split; [econstructor; [exact X|rewrite NX; exact C]|].
    split; [constructor; [lia|eapply Forall_lt_le; [|exact F]; lia]|].
    exists n. split; [left; reflexivity|]. exists x. split; [exact X|reflexivity].
Qed.

Lemma nodup_bound : forall ids B, NoDup ids -> Forall (fun i => i < B) ids -> length ids <= B.
Proof.
  intros ids B D F. rewrite <- (seq_length B 0). apply NoDup_incl_length; [exact D|].
  intros i I. rewrite Forall_forall in F. apply in_seq. specialize (F i I). lia.
Qed.

Lemma rehash_ok : forall ids f ns new p st ns' new',
  chain ns p ids -> length ids < f -> (forall i y, In i ids -> entry ns i y -> In y st) ->
  tgood ns (length ns) st new -> rehash f ns new p = (ns', new') ->
  (exists ext, ns' = ns ++ ext) /\ tgood ns' (length ns') st new' /\ length new' = length new
  /\ (forall y, tcontains ns (length ns) new y -> tcontains ns' (length ns') new' y)
  /\ (forall i y, In i ids -> entry ns i y -> tcontains ns' (length ns') new' y).
Proof.
  induction ids as [|i ids IH]; intros f ns new p st ns' new' C Lf E G R; (destruct f as [|f]; [cbn in Lf; lia|]).
  - inversion C; subst. cbn in R. injection R as <- <-. split; [exists []; rewrite app_nil_r; reflexivity|].
    split; [exact G|]. split; [reflexivity|]. split; [auto|]. intros i y [].
  - inversion C as [|i' o l Ho C']; subst. cbn [rehash] in R. rewrite Ho in R.
    set (k := index (length new) (addr o)) in *.
    set (x := {| addr := addr o; target := target o; next := nth k new None |}) in *.
    assert (Lo : i < length ns) by (apply nth_error_Some; congruence).
    assert (X : nth_error (ns ++ [x]) (length ns) = Some x).
    { rewrite nth_error_app2, Nat.sub_diag by lia. reflexivity. }
    destruct (push ns (ns ++ [x]) (length ns) st new x G (agree_app _ _) X) as (P1 & P2 & P3 & P4).
    { reflexivity. }
    { cbn. apply (E i); [left; reflexivity|]. exists o. auto. }
    cbn [addr target] in P1, P2, P3, P4. change (addr x) with (addr o) in *. fold k in P1, P2, P3, P4.
    assert (LN : length (ns ++ [x]) = S (length ns)) by (rewrite app_length; cbn; lia).
    assert (LT : forall i0 y, In i0 ids -> entry (ns ++ [x]) i0 y -> entry ns i0 y).
    { intros i0 y I0 (m & Hm & ->). exists m. split; [|reflexivity]. clear - I0 Hm C'. 
      assert (i0 < length ns).
      { revert C'. generalize (next o). induction ids as [|q ids IHq]; [destruct I0|]. intros p C. inversion C; subst.
        destruct I0 as [<-|I0]; [apply nth_error_Some; congruence|]. eapply IHq; eauto. }
      rewrite nth_error_app1 in Hm by assumption. exact Hm. }
    assert (FB : Forall (fun q => q < length ns) ids).
    { clear - C'. revert C'. generalize (next o). induction ids as [|q ids IHq]; constructor; inversion C'; subst.
      - apply nth_error_Some; congruence.
      - eapply IHq. eassumption. }
    destruct (IH f (ns ++ [x]) (upd new k (Some (length ns))) (next o) st ns' new') as (Q0 & Q1 & Q2 & Q3 & Q4).
    + eapply chain_agree; [apply agree_app|exact C'|exact FB].
    + cbn in Lf. lia.
    + intros i0 y I0 Hy. apply (E i0); [right; exact I0|]. apply LT; assumption.
    + rewrite LN. exact P1.
    + exact R.
    + rewrite LN in Q3.
      split; [destruct Q0 as [ext ->]; exists (x :: ext); rewrite <- app_assoc; reflexivity|].
      split; [exact Q1|]. split; [congruence|]. split.
      * intros y Hy. apply Q3. apply P3. exact Hy.
      * intros i0 y [<-|I0] Hy.
        -- destruct Hy as (m & Hm & ->). assert (m = o) by congruence. subst. apply Q3. exact P4.
        -- apply (Q4 i0); [exact I0|]. destruct Hy as (m & Hm & ->). exists m. split; [|reflexivity].
           rewrite Forall_forall in FB. rewrite nth_error_app1 by (apply FB; exact I0). exact Hm.
Qed.

Lemma rehashAll_ok : forall heads ns new st ns' new',
  (forall p, In p heads -> gchain ns (length ns) st p) ->
  tgood ns (length ns) st new -> rehashAll ns new heads = (ns', new') ->
  (exists ext, ns' = ns ++ ext) /\ tgood ns' (length ns') st new' /\ length new' = length new
  /\ (forall y, tcontains ns (length ns) new y -> tcontains ns' (length ns') new' y)
  /\ (forall p y, In p heads -> has ns (length ns) p y -> tcontains ns' (length ns') new' y).
Proof.
  induction heads as [|p heads IH]; intros ns new st ns' new' GH G R; cbn [rehashAll] in R.
  - injection R as <- <-. split; [exists []; rewrite app_nil_r; reflexivity|]. split; [exact G|]. split; [reflexivity|].
    split; [auto|]. intros p y [].
  - destruct (rehash (S (length ns)) ns new p) as [ns1 new1] eqn:R1.
    destruct (GH p ltac:(left; reflexivity)) as (ids & C & D & F & E).
    destruct (rehash_ok ids (S (length ns)) ns new p st ns1 new1 C ltac:(pose proof (nodup_bound ids _ D F); lia) E G R1)
      as ([ext ->] & Q1 & Q2 & Q3 & Q4).
    assert (LL : length ns <= length (ns ++ ext)) by (rewrite app_length; lia).
    destruct (IH (ns ++ ext) new1 st ns' new') as ([ext2 ->] & S1 & S2 & S3 & S4); [|exact Q1|exact R|].
    { intros q Hq. eapply gchain_mono; [apply agree_app|exact LL|apply incl_refl|]. apply GH. right. exact Hq. }
    split; [exists (ext ++ ext2); rewrite app_assoc; reflexivity|].
    split; [exact S1|]. split; [congruence|]. split; [auto|].
    intros q y [<-|Hq] Hy.
    + apply S3. destruct Hy as (ids' & C' & F' & i & Hi & He). apply (Q4 i); [|exact He].
      assert (ids' = ids) as <-; [|exact Hi]. clear - C C'. revert ids' C'. induction C; intros ids' C'; inversion C'; subst; [reflexivity|].
      f_equal. assert (n0 = n) by congruence. subst. apply IHC. assumption.
    + apply (S4 q); [exact Hq|]. eapply has_mono; [apply agree_app|exact LL|exact Hy].
Qed.

(** The invariant. *)
Definition bound (s : state) : nat :=
  match wr s with Linking _ n | Linked _ n => n | _ => length (nodes s) end.

Definition tab (s : state) (t : nat) : table := nth t (tables s) [].
Definition holds (s : state) (t : nat) (y : N * N) : Prop := tcontains (nodes s) (bound s) (tab s t) y.
Definition holdsAll (s : state) (t : nat) : Prop := t < length (tables s) /\ forall y, In y (inserted s) -> holds s t y.

Definition writerOk (s : state) : Prop :=
  match wr s with
  | Idle => True
  | Linking w n => length (nodes s) = S n /\ holdsAll s w
      /\ exists x, nth_error (nodes s) n = Some x /\ In (addr x, target x) (started s)
  | Linked w n => length (nodes s) = S n /\ holdsAll s w
      /\ exists x, nth_error (nodes s) n = Some x /\ In (addr x, target x) (started s)
         /\ next x = nth (index (length (tab s w)) (addr x)) (tab s w) None
  | Stored w n => holdsAll s w
      /\ exists x, nth_error (nodes s) n = Some x /\ holds s w (addr x, target x)
  end.

Definition readerOk (s : state) (kr : N * reader) : Prop :=
  match snd kr with
  | Begun => True
  | HasTable t => t < length (tables s)
  | At p => gchain (nodes s) (bound s) (started s) p
  | Found None => True
  | Found (Some v) => In (fst kr, v) (started s)
  end.

Record Inv (s : state) : Prop := {
  i_tables : forall t, t < length (tables s) -> tgood (nodes s) (bound s) (started s) (tab s t);
  i_root : holdsAll s (root s);
  i_ins : incl (inserted s) (started s);
  i_writer : writerOk s;
  i_readers : Forall (readerOk s) (readers s) }.

(** What every step keeps. *)
Record Keeps (s s' : state) : Prop := {
  k_agree : agree (bound s) (nodes s) (nodes s');
  k_bound : bound s <= bound s';
  k_tables : length (tables s) <= length (tables s');
  k_holds : forall t y, t < length (tables s) -> holds s t y -> holds s' t y;
  k_started : incl (started s) (started s');
  k_ins : incl (inserted s) (inserted s') }.

Lemma keeps_reader : forall s s' kr, Keeps s s' -> readerOk s kr -> readerOk s' kr.
Proof.
  intros s s' [key [|t|p|[v|]]] K; unfold readerOk; cbn [fst snd]; auto.
  - intros H. pose proof (k_tables _ _ K). lia.
  - apply gchain_mono; [apply (k_agree _ _ K)|apply (k_bound _ _ K)|apply (k_started _ _ K)].
  - apply (k_started _ _ K).
Qed.
Lemma keeps_readers : forall s s', Keeps s s' -> Forall (readerOk s) (readers s) -> Forall (readerOk s') (readers s).
Proof. intros s s' K F. eapply Forall_impl; [|exact F]. intros. eapply keeps_reader; eassumption. Qed.

Lemma insert_ok : forall s a t, Inv s -> wr s = Idle -> Inv (beginInsert s a t) /\ Keeps s (beginInsert s a t).
Proof.
  intros s a t I W. pose proof I as [It Ir Ii Iw Id].
  assert (B : bound s = length (nodes s)) by (unfold bound; rewrite W; reflexivity).
  set (s' := beginInsert s a t). unfold beginInsert in s'.
  set (old := nth (root s) (tables s) []) in *.
  assert (T : exists ext tbs w,
    nodes s' = (nodes s ++ ext) ++ [{| addr := a; target := t; next := None |}] /\ tables s' = tables s ++ tbs
    /\ root s' = root s /\ wr s' = Linking w (length (nodes s ++ ext)) /\ readers s' = readers s
    /\ started s' = (a, t) :: started s /\ inserted s' = inserted s
    /\ w < length (tables s') /\ (forall u, length (tables s) <= u < length (tables s') -> tgood (nodes s ++ ext) (length (nodes s ++ ext)) (started s) (nth u (tables s') []))
    /\ (forall y, In y (inserted s) -> tcontains (nodes s ++ ext) (length (nodes s ++ ext)) (nth w (tables s') []) y)).
  { subst s'. destruct (Nat.leb (2 * length old) (S (size s))).
    - destruct (resizeTable (nodes s) old (2 * length old)) as [ns new] eqn:R. cbn.
      assert (G0 : tgood (nodes s) (length (nodes s)) (started s) old).
      { rewrite <- B. apply It. apply Ir. }
      destruct (rehashAll_ok old (nodes s) (repeat None (2 * length old)) (started s) ns new) as ([ext ->] & S1 & S2 & S3 & S4).
      + intros p Hp. destruct (In_nth old p None Hp) as (k & _ & <-). apply G0.
      + split; [rewrite repeat_length; destruct G0; lia|]. intros k. rewrite nth_repeat. exists [].
        split; [constructor|]. split; [constructor|]. split; [constructor|]. intros i y [].
      + exact R.
      + exists ext, [new], (length (tables s)). cbn.
        split; [reflexivity|]. split; [reflexivity|]. split; [reflexivity|]. split; [reflexivity|].
        split; [reflexivity|]. split; [reflexivity|]. split; [reflexivity|].
        split; [rewrite app_length; cbn; lia|]. split.
        * intros u Hu. rewrite app_length in Hu. cbn in Hu. replace u with (length (tables s)) by lia.
          rewrite nth_middle. exact S1.
        * intros y Hy. rewrite nth_middle.
          destruct Ir as [_ Ir]. specialize (Ir y Hy). unfold holds, tcontains in Ir. fold old in Ir.
          change (tab s (root s)) with old in Ir. rewrite B in Ir.
          destruct (nth_in_or_default (index (length old) (fst y)) old None) as [Hin|Hd].
          -- apply (S4 _ y Hin). exact Ir.
          -- rewrite Hd in Ir. destruct Ir as (ids & C & _ & i & Hi & _). inversion C; subst. destruct Hi.
    - cbn. exists [], [], (root s). rewrite !app_nil_r.
      split; [reflexivity|]. split; [reflexivity|]. split; [reflexivity|]. split; [reflexivity|].
      split; [reflexivity|]. split; [reflexivity|]. split; [reflexivity|].
      split; [apply Ir|]. split; [intros; lia|].
      intros y Hy. rewrite <- B. apply Ir. exact Hy. }
  clearbody s'. destruct T as (ext & tbs & w & Tn & Tt & Tr & Tw & Td & Ts & Ti & Lw & Gn & Cw).
  set (x := {| addr := a; target := t; next := None |}) in *.
  assert (B' : bound s' = length (nodes s ++ ext)) by (unfold bound; rewrite Tw; reflexivity).
  assert (LL : length (nodes s) <= length (nodes s ++ ext)) by (rewrite app_length; lia).
  assert (INC : incl (started s) (started s')) by (rewrite Ts; intros z Hz; right; exact Hz).
  assert (TO : forall u, u < length (tables s) -> tab s' u = tab s u).
  { intros u Hu. unfold tab. rewrite Tt. apply app_nth1. exact Hu. }
  assert (AG : agree (length (nodes s)) (nodes s) (nodes s')).
  { rewrite Tn, <- app_assoc. apply agree_app. }
  assert (AG2 : agree (length (nodes s ++ ext)) (nodes s ++ ext) (nodes s')) by (rewrite Tn; apply agree_app).
  assert (K : Keeps s s').
  { split.
    - rewrite B. exact AG.
    - rewrite B, B'. exact LL.
    - rewrite Tt, app_length. lia.
    - intros u y Hu H. unfold holds in *. rewrite TO by exact Hu. eapply tcontains_mono; [| |exact H].
      + rewrite B. exact AG.
      + rewrite B, B'. exact LL.
    - exact INC.
    - rewrite Ti. apply incl_refl. }
  split; [|exact K]. split.
  - intros u Hu. destruct (Nat.lt_ge_cases u (length (tables s))).
    + rewrite TO by assumption. eapply tgood_mono; [| |exact INC|apply It; assumption].
      * rewrite B. exact AG.
      * rewrite B, B'. exact LL.
    + rewrite B'. eapply tgood_mono; [exact AG2|lia|exact INC|]. apply Gn. lia.
  - rewrite Tr. split; [destruct Ir; rewrite Tt, app_length; lia|].
    intros y Hy. rewrite Ti in Hy. destruct Ir as [Ir1 Ir2]. apply (k_holds _ _ K); auto.
  - rewrite Ti. intros z Hz. apply INC. apply Ii. exact Hz.
  - unfold writerOk. rewrite Tw. split; [rewrite Tn, app_length; cbn; lia|]. split.
    + split; [exact Lw|]. intros y Hy. rewrite Ti in Hy. unfold holds. rewrite B'.
      eapply tcontains_mono; [exact AG2|lia|]. apply Cw. exact Hy.
    + exists x. split; [rewrite Tn, nth_error_app2, Nat.sub_diag by lia; reflexivity|].
      rewrite Ts. left. reflexivity.
  - rewrite Td. apply (keeps_readers s); assumption.
Qed.

Lemma keeps_refl_same : forall s s', nodes s' = nodes s -> tables s' = tables s -> started s' = started s ->
  bound s' = bound s -> incl (inserted s) (inserted s') -> Keeps s s'.
Proof.
  intros s s' N T S0 B I. split; try (rewrite ?N, ?T, ?S0, ?B; auto using agree_refl, incl_refl; lia).
  intros t y _ H. unfold holds, tab in *. rewrite N, T, B. exact H.
Qed.

Lemma holdsAll_keeps : forall s s' t, Keeps s s' -> inserted s' = inserted s -> holdsAll s t -> holdsAll s' t.
Proof.
  intros s s' t K I [H1 H2]. split; [pose proof (k_tables _ _ K); lia|]. intros y Hy. rewrite I in Hy.
  apply (k_holds _ _ K); auto.
Qed.

Lemma step_ok : forall s e s', Inv s -> step s e = Some s' -> Inv s' /\ Keeps s s'.
Proof.
  intros s e s' I St. pose proof I as [It Ir Ii Iw Id]. unfold step in St.
  destruct e as [a t| | | |key|r].
  - destruct (wr s) eqn:W; try discriminate. injection St as <-. apply insert_ok; assumption.
  - destruct (wr s) as [|w n|w n|w n] eqn:W; try discriminate.
    unfold writerOk in Iw. rewrite W in Iw. destruct Iw as (L & Hw & x & X & Xs). rewrite X in St.
    fold (tab s w) in St.
    set (x' := {| addr := addr x; target := target x; next := nth (index (length (tab s w)) (addr x)) (tab s w) None |}) in St.
    assert (B : bound s = n) by (unfold bound; rewrite W; reflexivity).
    set (s1 := withWriter s (upd (nodes s) n x') (tables s) (root s) (Linked w n) (inserted s)) in St.
    injection St as <-.
    assert (AG : agree n (nodes s) (upd (nodes s) n x')).
    { intros i Hi. rewrite upd_nth_error by lia. destruct (Nat.eqb_spec i n); [lia|reflexivity]. }
    assert (K : Keeps s s1).
    { split; cbn; rewrite ?B; auto using incl_refl.
      intros u y Hu H. unfold holds in *. rewrite B in H. eapply tcontains_mono; [exact AG| |exact H]. cbn. lia. }
    split; [|exact K]. split.
    + intros u Hu. change (tab s1 u) with (tab s u). eapply tgood_mono; [| |apply incl_refl|apply It; exact Hu].
      * rewrite B. exact AG.
      * rewrite B. cbn. lia.
    + apply (holdsAll_keeps s); auto.
    + exact Ii.
    + unfold writerOk. cbn [wr s1 withWriter]. split; [cbn; rewrite upd_length by lia; exact L|].
      split; [apply (holdsAll_keeps s); auto|].
      exists x'. cbn [nodes s1 withWriter]. split; [rewrite upd_nth_error, Nat.eqb_refl by lia; reflexivity|].
      split; [exact Xs|reflexivity].
    + apply (keeps_readers s); assumption.
  - destruct (wr s) as [|w n|w n|w n] eqn:W; try discriminate.
    unfold writerOk in Iw. rewrite W in Iw. destruct Iw as (L & Hw & x & X & Xs & Xn). rewrite X in St.
    fold (tab s w) in St. pose proof Hw as [Hw1 Hw2].
    assert (B : bound s = n) by (unfold bound; rewrite W; reflexivity).
    destruct (push (nodes s) (nodes s) n (started s) (tab s w) x) as (P1 & P2 & P3 & P4); auto using agree_refl.
    { rewrite <- B. apply It. exact Hw1. }
    set (tb' := upd (tab s w) (index (length (tab s w)) (addr x)) (Some n)) in *.
    set (s1 := withWriter s (nodes s) (upd (tables s) w tb') (root s) (Stored w n) (inserted s)) in St.
    injection St as <-.
    assert (B1 : bound s1 = S n) by (unfold bound; cbn; exact L).
    assert (TT : forall u, tab s1 u = if Nat.eqb u w then tb' else tab s u).
    { intros u. unfold tab. cbn. apply upd_nth. exact Hw1. }
    assert (TL : length (tables s1) = length (tables s)) by (cbn; apply upd_length; exact Hw1).
    assert (K : Keeps s s1).
    { split; rewrite ?B, ?B1, ?TL; auto using incl_refl; try (cbn; auto using agree_refl, incl_refl; fail).
      intros u y Hu H. unfold holds in *. rewrite B in H. rewrite B1, TT.
      destruct (Nat.eqb_spec u w) as [->|]; [apply P3; exact H|]. eapply tcontains_mono; [apply agree_refl| |exact H]. lia. }
    split; [|exact K]. split.
    + intros u Hu. rewrite B1, TT. destruct (Nat.eqb_spec u w) as [->|]; [exact P1|].
      eapply tgood_mono; [apply agree_refl| |apply incl_refl|apply It; lia]. lia.
    + apply (holdsAll_keeps s); auto.
    + exact Ii.
    + unfold writerOk. cbn [wr s1 withWriter]. split; [apply (holdsAll_keeps s); auto|].
      exists x. split; [exact X|]. unfold holds. rewrite B1, TT, Nat.eqb_refl. exact P4.
    + apply (keeps_readers s); assumption.
  - destruct (wr s) as [|w n|w n|w n] eqn:W; try discriminate.
    unfold writerOk in Iw. rewrite W in Iw. destruct Iw as (Hw & x & X & Hx). rewrite X in St.
    set (s1 := withWriter s (nodes s) (tables s) w Idle ((addr x, target x) :: inserted s)) in St.
    injection St as <-.
    assert (B : bound s1 = bound s) by (unfold bound; cbn; rewrite W; reflexivity).
    assert (K : Keeps s s1).
    { apply keeps_refl_same; auto. cbn. intros z Hz. right. exact Hz. }
    destruct Hw as [Hw1 Hw2].
    assert (XS : In (addr x, target x) (started s)).
    { destruct Hx as (ids & C & F & i & Hi & He). destruct (It w Hw1) as [_ G].
      destruct (G (index (length (tab s w)) (fst (addr x, target x)))) as (ids2 & C2 & _ & F2 & E2).
      apply (E2 i); [|exact He].
      assert (ids2 = ids) as ->; [|exact Hi]. clear - C C2. revert ids2 C2. induction C; intros ids' C'; inversion C'; subst; [reflexivity|].
      f_equal. assert (n0 = n) by congruence. subst. apply IHC. assumption. }
    split; [|exact K]. split.
    + intros u Hu. rewrite B. apply It. exact Hu.
    + split; [exact Hw1|]. intros y [<-|Hy]; apply (k_holds _ _ K); auto.
    + intros z [<-|Hz]; [exact XS|apply Ii; exact Hz].
    + exact Logic.I.
    + apply (keeps_readers s); assumption.
  - injection St as <-. assert (K : Keeps s (withReaders s (readers s ++ [(key, Begun)]))).
    { apply keeps_refl_same; auto using incl_refl. }
    split; [|exact K]. split; auto. cbn. apply Forall_app. split; [exact Id|]. constructor; [exact Logic.I|constructor].
  - destruct (nth_error (readers s) r) as [[key rd]|] eqn:Er; [|destruct (wr s); discriminate].
    assert (St' : Some (withReaders s (upd (readers s) r (key, goReader s key rd))) = Some s') by (destruct (wr s); exact St).
    clear St. injection St' as <-.
    assert (K : Keeps s (withReaders s (upd (readers s) r (key, goReader s key rd)))).
    { apply keeps_refl_same; auto using incl_refl. }
    split; [|exact K]. split; auto. cbn [readers withReaders].
    assert (Lr : r < length (readers s)) by (apply nth_error_Some; congruence).
    pose proof (proj1 (Forall_forall _ _) Id (key, rd) (nth_error_In _ _ Er)) as R1.
    assert (R2 : readerOk s (key, goReader s key rd)).
    { unfold readerOk in *. cbn [fst snd] in *. destruct rd as [|t|[i|]|v]; cbn [goReader].
      - apply Ir.
      - apply It. exact R1.
      - destruct R1 as (ids & C & D & F & E). inversion C as [|i' n l Hn C']; subst. rewrite Hn.
        destruct (N.eqb_spec (addr n) key) as [<-|].
        + apply (E i); [left; reflexivity|]. exists n. auto.
        + inversion D; subst. inversion F; subst. exists l. split; [exact C'|]. split; [assumption|]. split; [assumption|].
          intros j y Hj. apply E. right. exact Hj.
      - exact Logic.I.
      - exact R1. }
    unfold upd. apply Forall_app. split.
    + apply Forall_forall. intros z Hz. apply (proj1 (Forall_forall _ _) Id).
      rewrite <- (firstn_skipn r (readers s)). apply in_or_app. left. exact Hz.
    + constructor; [exact R2|]. apply Forall_forall. intros z Hz. apply (proj1 (Forall_forall _ _) Id).
      rewrite <- (firstn_skipn (S r) (readers s)). apply in_or_app. right. exact Hz.
Qed.

Lemma run_ok : forall es s s', Inv s -> run s es = Some s' -> Inv s' /\ incl (started s) (started s') /\ incl (inserted s) (inserted s').
Proof.
  induction es as [|e es IH]; intros s s' I R; cbn in R.
  - injection R as <-. auto using incl_refl.
  - destruct (step s e) as [s1|] eqn:E; [|discriminate]. destruct (step_ok s e s1 I E) as [I1 K].
    destruct (IH s1 s' I1 R) as (I' & H1 & H2). split; [exact I'|]. split; eapply incl_tran; eauto; apply K.
Qed.

Lemma initial_ok : Inv initial.
Proof.
  split.
  - intros t Ht. cbn in Ht. assert (t = 0) as -> by lia. split; [cbn; lia|]. intros k.
    change (tab initial 0) with (repeat (@None nat) 128). rewrite nth_repeat.
    exists []. split; [constructor|]. split; [constructor|]. split; [constructor|]. intros i y [].
  - split; [cbn; lia|]. intros y [].
  - intros z [].
  - exact Logic.I.
  - constructor.
Qed.

(** A lookup of a key whose insertion has finished. *)
Definition must (s : state) (key v : N) (rd : reader) : Prop :=
  match rd with
  | Begun => In (key, v) (inserted s)
  | HasTable t => holds s t (key, v)
  | At p => has (nodes s) (bound s) p (key, v)
  | Found r => r <> None
  end.

Lemma must_keeps : forall s s' key v rd, Keeps s s' -> readerOk s (key, rd) -> must s key v rd -> must s' key v rd.
Proof.
  intros s s' key v [|t|p|r] K R; unfold must; auto.
  - apply (k_ins _ _ K).
  - apply (k_holds _ _ K). exact R.
  - apply has_mono; [apply (k_agree _ _ K)|apply (k_bound _ _ K)].
Qed.
Lemma must_go : forall s key v rd, Inv s -> must s key v rd -> must s key v (goReader s key rd).
Proof.
  intros s key v [|t|[i|]|r] I M; cbn [goReader must] in *.
  - apply I. exact M.
  - exact M.
  - destruct M as (ids & C & F & j & Hj & He). inversion C as [|i' n l Hn C']; subst. rewrite Hn.
    destruct (N.eqb_spec (addr n) key) as [E|E]; [discriminate|]. cbn.
    inversion F; subst. exists l. split; [exact C'|]. split; [assumption|]. exists j. split; [|exact He].
    destruct Hj as [<-|Hj]; [|exact Hj]. destruct He as (m & Hm & Q). congruence.
  - destruct M as (ids & C & F & j & Hj & He). inversion C; subst. destruct Hj.
  - exact M.
Qed.

Lemma must_step : forall s e s' r key v rd, Inv s -> step s e = Some s' ->
  nth_error (readers s) r = Some (key, rd) -> must s key v rd ->
  exists rd', nth_error (readers s') r = Some (key, rd') /\ must s' key v rd'.
Proof.
  intros s e s' r key v rd I St Er M. destruct (step_ok s e s' I St) as [I' K].
  assert (Ro : readerOk s (key, rd)).
  { apply (proj1 (Forall_forall _ _) (i_readers s I)). eapply nth_error_In. exact Er. }
  assert (Lr : r < length (readers s)) by (apply nth_error_Some; congruence).
  destruct e as [a t| | | |key'|r'].
  5:{ cbn in St. injection St as <-. exists rd. split; [cbn; rewrite nth_error_app1 by exact Lr; exact Er|].
      eapply must_keeps; eassumption. }
  5:{ assert (St' : match nth_error (readers s) r' with
      | Some (key, rd) => Some (withReaders s (upd (readers s) r' (key, goReader s key rd))) | None => None end = Some s')
      by (unfold step in St; destruct (wr s); exact St). clear St.
      destruct (nth_error (readers s) r') as [[k' rd']|] eqn:E'; [|discriminate]. injection St' as <-.
      assert (Lr' : r' < length (readers s)) by (apply nth_error_Some; congruence).
      cbn [readers withReaders]. rewrite upd_nth_error by exact Lr'.
      destruct (Nat.eqb_spec r r') as [->|].
      - rewrite Er in E'. injection E' as <- <-. eexists. split; [reflexivity|]. apply (must_go s) in M; [|exact I].
        destruct (goReader s key rd); exact M.
      - exists rd. split; [exact Er|]. eapply must_keeps; eassumption. }
  all: exists rd; (split; [|eapply must_keeps; eassumption]); unfold step in St; destruct (wr s); try discriminate.
  - injection St as <-. unfold beginInsert. destruct (Nat.leb _ _); [destruct (resizeTable _ _ _)|]; exact Er.
  - destruct (nth_error (nodes s) n); [|discriminate]. injection St as <-. exact Er.
  - destruct (nth_error (nodes s) n); [|discriminate]. injection St as <-. exact Er.
  - destruct (nth_error (nodes s) n); [|discriminate]. injection St as <-. exact Er.
Qed.
Lemma must_run : forall es s s' r key v rd, Inv s -> run s es = Some s' ->
  nth_error (readers s) r = Some (key, rd) -> must s key v rd ->
  exists rd', nth_error (readers s') r = Some (key, rd') /\ must s' key v rd'.
Proof.
  induction es as [|e es IH]; intros s s' r key v rd I R Er M; cbn in R.
  - injection R as <-. eauto.
  - destruct (step s e) as [s1|] eqn:E; [|discriminate].
    destruct (must_step s e s1 r key v rd I E Er M) as (rd1 & Er1 & M1).
    apply (IH s1 s' r key v rd1); auto. apply (step_ok s e s1 I E).
Qed.

(** The number of steps a lookup still needs. *)
Inductive rank (s : state) : reader -> nat -> Prop :=
| rank_at : forall p ids, chain (nodes s) p ids -> Forall (fun i => i < bound s) ids -> rank s (At p) (S (length ids))
| rank_found : forall v, rank s (Found v) 0.

Lemma rank_exists : forall s key p, readerOk s (key, At p) -> exists k, rank s (At p) k.
Proof. intros s key p (ids & C & D & F & E). exists (S (length ids)). constructor; assumption. Qed.
Lemma rank_keeps : forall s s' rd k, Keeps s s' -> rank s rd k -> rank s' rd k.
Proof.
  intros s s' rd k K R. inversion R; subst; constructor.
  - eapply chain_agree; [apply (k_agree _ _ K)|eassumption|eassumption].
  - eapply Forall_lt_le; [apply (k_bound _ _ K)|eassumption].
Qed.
Lemma rank_go : forall s key rd k, rank s rd (S k) -> rank s (goReader s key rd) k \/ rank s (goReader s key rd) 0.
Proof.
  intros s key rd k R. inversion R as [p ids C F|]; subst. destruct p as [i|]; cbn [goReader].
  - inversion C as [|i' n l Hn C']; subst. rewrite Hn. inversion F; subst.
    destruct (N.eqb_spec (addr n) key); [right; constructor|left]. cbn. constructor; assumption.
  - right. constructor.
Qed.
