(** Proofs about streams. *)
From Coq Require Import NArith ZArith List Bool Arith Lia.
From Verif Require Import JIo_Model JIo_Spec.
Import ListNotations.
Local Open Scope nat_scope.

(** * Lists *)
Lemma blit_ok : forall {A} (d : list A) i s, i + length s <= length d ->
  blit d i s = Some (firstn i d ++ s ++ skipn (i + length s) d).
Proof. intros A d i s H. unfold blit. replace (_ <=? _) with true by (symmetry; apply Nat.leb_le; exact H). reflexivity. Qed.
Lemma blit_length : forall {A} (d : list A) i s, i + length s <= length d ->
  length (firstn i d ++ s ++ skipn (i + length s) d) = length d.
Proof. intros. rewrite !app_length, firstn_length, skipn_length. lia. Qed.
Lemma blit_prefix : forall {A} (d : list A) i s, i + length s <= length d ->
  firstn (i + length s) (firstn i d ++ s ++ skipn (i + length s) d) = firstn i d ++ s.
Proof.
  intros A d i s H. rewrite app_assoc, firstn_app.
  assert (L : length (firstn i d ++ s) = i + length s) by (rewrite app_length, firstn_length; lia).
  rewrite L, Nat.sub_diag. cbn [firstn]. rewrite app_nil_r, <- L. apply firstn_all.
Qed.
Lemma slice0 : forall {A} (l : list A) n, slice l 0 n = firstn n l.
Proof. reflexivity. Qed.
Lemma skipn_skipn' : forall {A} (l : list A) a b, skipn a (skipn b l) = skipn (b + a) l.
Proof. intros A l a b. revert l. induction b as [|b IH]; intros l; [reflexivity|]. destruct l; cbn; [destruct a; reflexivity|apply IH]. Qed.
Lemma slice_split : forall {A} (l : list A) i n k, k <= n -> slice l i n = slice l i k ++ slice l (i + k) (n - k).
Proof.
  intros A l i n k H. unfold slice. rewrite <- skipn_skipn'. generalize (skipn i l) as m. clear l i.
  revert n H. induction k as [|k IH]; intros n H m; [cbn; rewrite Nat.sub_0_r; reflexivity|].
  destruct n; [lia|]. destruct m; cbn; [rewrite firstn_nil; reflexivity|]. f_equal. apply IH. lia.
Qed.
Lemma slice_length : forall {A} (l : list A) i n, i + n <= length l -> length (slice l i n) = n.
Proof. intros. unfold slice. rewrite firstn_length, skipn_length. lia. Qed.
Lemma slice_head : forall {A} (l : list A) i n c, nth_error l i = Some c -> 0 < n -> slice l i n = c :: slice l (S i) (n - 1).
Proof.
  intros A l i n c. unfold slice. revert i. induction l as [|x l IH]; intros i H Hn; [destruct i; discriminate|].
  destruct i as [|i].
  - cbn in H. injection H as ->. destruct n; [lia|]. cbn [skipn firstn]. rewrite Nat.sub_succ, Nat.sub_0_r. reflexivity.
  - cbn [skipn]. apply IH; assumption.
Qed.

(** * BufferedOutputStream *)
Definition bosOp (c : wcall) (s : bos) : option bos :=
  match c with W1 c => bosWrite1 c s | Wn bs => bosWrite bs s | Flush => bosFlush s end.
Fixpoint bosRun (l : list wcall) (s : bos) : option bos :=
  match l with [] => Some s | c :: l' => match bosOp c s with Some s' => bosRun l' s' | None => None end end.
Definition bosInv (size : nat) (w : list N) (s : bos) : Prop :=
  length (obuf s) = size /\ opos s <= size /\ sink s ++ firstn (opos s) (obuf s) = w.

Lemma drain_ok : forall size w s, bosInv size w s -> bosInv size w (drain s) /\ opos (drain s) = 0 /\ sink (drain s) = w.
Proof.
  intros size w s (A & B & C). unfold drain. destruct (Nat.ltb_spec 0 (opos s)) as [H|H].
  - cbn [obuf opos sink]. unfold bosInv; cbn [obuf opos sink]. rewrite slice0, C. cbn [firstn]. rewrite app_nil_r. repeat split; auto; lia.
  - assert (Z : opos s = 0) by lia. rewrite Z in C. cbn [firstn] in C. rewrite app_nil_r in C.
    unfold bosInv. rewrite Z. cbn [firstn]. rewrite app_nil_r. repeat split; auto; lia.
Qed.

Lemma bosOp_ok : forall size w s c, 0 < size -> bosInv size w s ->
  exists s', bosOp c s = Some s' /\ bosInv size (w ++ bytesOf c) s' /\ (c = Flush -> sink s' = w).
Proof.
  intros size w s c H I. destruct c as [c|bs|]; cbn [bosOp bytesOf].
  - unfold bosWrite1.
    set (s1 := if length (obuf s) <=? opos s then drain s else s).
    assert (X : bosInv size w s1 /\ opos s1 < size).
    { unfold s1. destruct (Nat.leb_spec (length (obuf s)) (opos s)) as [L|L].
      - destruct (drain_ok _ _ _ I) as (D1 & D2 & _). split; [assumption|lia].
      - destruct I as (I1 & I2 & I3). split; [repeat split; assumption|lia]. }
    destruct X as ((A & B & C) & D). clearbody s1. unfold store. rewrite blit_ok by (cbn; lia).
    eexists. split; [reflexivity|]. split; [|discriminate].
    unfold bosInv; cbn [obuf opos sink]. rewrite blit_length by (cbn; lia). split; [assumption|]. split; [lia|].
    replace (S (opos s1)) with (opos s1 + length [toByte c]) by (cbn; lia). rewrite blit_prefix by (cbn; lia).
    rewrite app_assoc, C. reflexivity.
  - unfold bosWrite. destruct (Nat.ltb_spec (length (obuf s) - opos s) (length bs)) as [L|L].
    + destruct (drain_ok _ _ _ I) as ((D1 & D2 & D3) & D4 & D5). eexists. split; [reflexivity|]. split; [|discriminate].
      unfold bosInv; cbn [obuf opos sink]. rewrite D4, D5. cbn [firstn]. rewrite app_nil_r. repeat split; auto; lia.
    + destruct I as (A & B & C). rewrite blit_ok by lia. eexists. split; [reflexivity|]. split; [|discriminate].
      unfold bosInv; cbn [obuf opos sink]. rewrite blit_length by lia. split; [assumption|]. split; [lia|].
      rewrite blit_prefix by lia. rewrite app_assoc, C. reflexivity.
  - eexists. split; [reflexivity|]. destruct (drain_ok _ _ _ I) as (D1 & _ & D3). rewrite app_nil_r. auto.
Qed.
Lemma bosRun_ok : forall l size w s, 0 < size -> bosInv size w s ->
  exists s', bosRun l s = Some s' /\ bosInv size (w ++ written l) s'.
Proof.
  induction l as [|c l IH]; intros size w s H I; cbn [bosRun].
  - exists s. unfold written. cbn. rewrite app_nil_r. auto.
  - destruct (bosOp_ok size w s c H I) as (s1 & E & I1 & _). rewrite E.
    destruct (IH _ _ _ H I1) as (s2 & E2 & I2). exists s2. split; [exact E2|]. unfold written in *. cbn [map concat].
    rewrite app_assoc. exact I2.
Qed.

(** * ByteArrayOutputStream *)
Definition cellText (l : list (list N * nat)) : list N := concat (map (fun c => firstn (snd c) (fst c)) l).
Definition bufText (s : baos) : list N := match bbuf s with Some b => firstn (bpos s) b | None => [] end.
Definition baosInv (w : list N) (s : baos) : Prop :=
  cellText (cells s) ++ bufText s = w /\ blength s = length w
  /\ Forall (fun c => snd c <= length (fst c)) (cells s)
  /\ match bbuf s with Some b => length b = BufferSize /\ bpos s <= BufferSize | None => bpos s = 0 end.

Lemma cellText_app : forall a b, cellText (a ++ b) = cellText a ++ cellText b.
Proof. intros. unfold cellText. rewrite map_app, concat_app. reflexivity. Qed.

Lemma flush_ok : forall w s, baosInv w s ->
  baosInv w (flushBuffer s) /\ bpos (flushBuffer s) = 0 /\ cellText (cells (flushBuffer s)) = w
  /\ blength (flushBuffer s) = blength s.
Proof.
  intros w s (A & B & C & D). unfold flushBuffer, bufText in *. destruct (Nat.ltb_spec 0 (bpos s)) as [H|H].
  - destruct (bbuf s) as [b|]; [|lia]. destruct D as (D1 & D2). unfold baosInv, bufText. cbn [cells blength bbuf bpos].
    assert (X : cellText (cells s ++ [(b, bpos s)]) = w).
    { rewrite cellText_app. unfold cellText at 2. cbn [map concat fst snd]. rewrite app_nil_r. exact A. }
    rewrite X, app_nil_r. repeat split; auto. apply Forall_app. split; [assumption|]. constructor; [cbn; lia|constructor].
  - assert (Z : bpos s = 0) by lia. rewrite Z in *. unfold baosInv, bufText. rewrite Z.
    assert (X : match bbuf s with Some b => firstn 0 b | None => [] end = @nil N) by (destruct (bbuf s); reflexivity).
    rewrite X, app_nil_r in *. repeat split; auto.
Qed.

Lemma baosWrite1_ok : forall w s c, baosInv w s -> exists s', baosWrite1 c s = Some s' /\ baosInv (w ++ [c mod 256]%N) s'.
Proof.
  intros w s c I. unfold baosWrite1.
  set (s1 := match bbuf s with
            | None => {| cells := cells s; blength := blength s; bbuf := Some (repeat 0%N BufferSize); bpos := bpos s |}
            | Some b => if length b <=? bpos s
                        then let f := flushBuffer s in {| cells := cells f; blength := blength f; bbuf := Some (repeat 0%N BufferSize); bpos := bpos f |}
                        else s
            end).
  assert (X : baosInv w s1 /\ exists b, bbuf s1 = Some b /\ bpos s1 < length b).
  { unfold s1. destruct (bbuf s) as [b|] eqn:E.
    - destruct (Nat.leb_spec (length b) (bpos s)) as [L|L].
      + destruct (flush_ok _ _ I) as ((F1 & F2 & F3 & F4) & F5 & F6 & F7). cbv zeta. split.
        * unfold baosInv, bufText; cbn [cells blength bbuf bpos]. rewrite F5, F6. cbn [firstn]. rewrite app_nil_r.
          repeat split; auto. lia.
        * exists (repeat 0%N BufferSize). cbn [bbuf bpos]. rewrite F5, repeat_length. split; [reflexivity|]. unfold BufferSize. lia.
      + split; [assumption|]. exists b. auto.
    - destruct I as (A & B & C & D). rewrite E in D. unfold bufText in A. rewrite E in A. split.
      + unfold baosInv, bufText; cbn [cells blength bbuf bpos]. rewrite D. cbn [firstn]. repeat split; auto. lia.
      + exists (repeat 0%N BufferSize). cbn [bbuf bpos]. rewrite D, repeat_length. split; [reflexivity|]. unfold BufferSize. lia. }
  destruct X as ((A & B & C & D) & b & Eb & L). clearbody s1. rewrite Eb in *. destruct D as (D1 & D2).
  unfold store. rewrite blit_ok by (cbn; lia). eexists. split; [reflexivity|].
  unfold baosInv, bufText in *; cbn [cells blength bbuf bpos]. rewrite Eb in A. rewrite blit_length by (cbn; lia).
  replace (S (bpos s1)) with (bpos s1 + length [toByte c]) at 1 by (cbn; lia). rewrite blit_prefix by (cbn; lia).
  rewrite app_assoc, A, app_length, B. cbn [length]. repeat split; auto; lia.
Qed.

Lemma baosWrite_ok : forall w s bs, baosInv w s -> exists s', baosWrite bs s = Some s' /\ baosInv (w ++ bs) s'.
Proof.
  intros w s bs I. unfold baosWrite. destruct (Nat.eqb_spec (length bs) 0) as [Z|Z].
  - destruct bs; [|discriminate]. exists s. rewrite app_nil_r. auto.
  - assert (CH : baosInv (w ++ bs) {| cells := cells (flushBuffer s) ++ [(bs, length bs)]; blength := blength s + length bs;
                                     bbuf := bbuf (flushBuffer s); bpos := bpos (flushBuffer s) |}).
    { destruct (flush_ok _ _ I) as ((F1 & F2 & F3 & F4) & F5 & F6 & F7).
      unfold baosInv, bufText; cbn [cells blength bbuf bpos]. rewrite cellText_app, F6, F5, app_length.
      unfold cellText. cbn [map concat fst snd]. rewrite app_nil_r, firstn_all.
      assert (X : match bbuf (flushBuffer s) with Some b => firstn 0 b | None => [] end = @nil N) by (destruct (bbuf _); reflexivity).
      rewrite X, app_nil_r. rewrite F5 in F4. split; [reflexivity|]. split; [rewrite <- F7, F2; reflexivity|]. split; [|exact F4].
      apply Forall_app. split; [assumption|]. constructor; [cbn; lia|constructor]. }
    destruct (bbuf s) as [b|] eqn:E; [|eexists; split; [reflexivity|exact CH]].
    destruct (Nat.leb_spec (length bs) (length b - bpos s)) as [L|L]; [|eexists; split; [reflexivity|exact CH]].
    destruct I as (A & B & C & D). unfold bufText in A. rewrite E in A, D. destruct D as (D1 & D2).
    rewrite blit_ok by lia. eexists. split; [reflexivity|].
    unfold baosInv, bufText in *; cbn [cells blength bbuf bpos]. rewrite blit_length by lia. rewrite blit_prefix by lia.
    rewrite app_assoc, A, app_length, B. repeat split; auto; lia.
Qed.

Lemma collect_ok : forall l done todo, Forall (fun c => snd c <= length (fst c)) l -> length todo = length (cellText l) ->
  collect l (done ++ todo) (length done) = Some (done ++ cellText l).
Proof.
  induction l as [|[a n] l IH]; intros done todo F L.
  - destruct todo; [reflexivity|discriminate].
  - inversion F as [|x y F1 F2]; subst. cbn [fst snd] in F1. cbn [collect].
    replace (n <=? length a) with true by (symmetry; apply Nat.leb_le; assumption).
    change (cellText ((a, n) :: l)) with (firstn n a ++ cellText l) in *. rewrite app_length in L.
    assert (Ln : length (slice a 0 n) = n) by (apply slice_length; cbn; lia). rewrite slice0 in *.
    rewrite blit_ok by (rewrite app_length; lia).
    rewrite firstn_app, Nat.sub_diag, firstn_all. cbn [firstn]. rewrite app_nil_r.
    rewrite skipn_app, skipn_all2 by lia. rewrite Ln. replace (length done + n - length done) with n by lia. cbn [app].
    replace (length done + n) with (length (done ++ firstn n a)) by (rewrite app_length; lia).
    rewrite app_assoc. rewrite (IH (done ++ firstn n a) (skipn n todo) F2) by (rewrite skipn_length; lia).
    rewrite app_assoc. reflexivity.
Qed.
Lemma toByteArray_ok : forall w s, baosInv w s -> fst (toByteArray s) = Some w /\ baosInv w (snd (toByteArray s)).
Proof.
  intros w s I. unfold toByteArray. cbn [fst snd]. destruct (flush_ok _ _ I) as (F1 & F5 & F6 & F7). split; [|exact F1].
  pose proof F1 as (X1 & X2 & X3 & X4). rewrite (collect_ok _ [] (repeat 0%N (blength (flushBuffer s)))); cbn [app].
  - rewrite F6. reflexivity.
  - assumption.
  - rewrite repeat_length, F6. exact X2.
Qed.

Fixpoint baosRun (l : list bcall) (s : baos) : option (list seen) :=
  match l with
  | [] => Some []
  | B1 c :: l' => match baosWrite1 c s with Some s' => baosRun l' s' | None => None end
  | Bn bs :: l' => match baosWrite bs s with Some s' => baosRun l' s' | None => None end
  | Reset :: l' => baosRun l' newBaos
  | Take :: l' => match toByteArray s with
                  | (Some a, s') => match baosRun l' s' with Some r => Some (SawBytes a :: r) | None => None end
                  | (None, _) => None end
  | GetSize :: l' => match baosRun l' s with Some r => Some (SawSize (blength s) :: r) | None => None end
  end.
Lemma baosRun_ok : forall l w s, baosInv w s -> baosRun l s = Some (expected w l).
Proof.
  induction l as [|c l IH]; intros w s I; [reflexivity|]. destruct c as [c|bs| | |]; cbn [baosRun expected].
  - destruct (baosWrite1_ok _ _ c I) as (s' & E & I'). rewrite E. apply IH, I'.
  - destruct (baosWrite_ok _ _ bs I) as (s' & E & I'). rewrite E. apply IH, I'.
  - apply IH. repeat split; constructor.
  - destruct (toByteArray_ok _ _ I) as (E & I'). destruct (toByteArray s) as [a s']. cbn [fst snd] in *. subst a. rewrite (IH _ _ I'). reflexivity.
  - rewrite (IH _ _ I). destruct I as (_ & B & _). rewrite B. reflexivity.
Qed.

(** * BufferedInputStream and BufferedReader *)
Section Input.
Variable chunk avail : nat -> nat.

Definition pending (b : buffered) : list N :=
  match limit b with Some m => slice (ibuf b) (ipos b) (m - ipos b) | None => [] end ++ coming (src b).
Definition inInv (b : buffered) : Prop :=
  0 < length (ibuf b) /\ match limit b with Some m => ipos b <= m <= length (ibuf b) | None => coming (src b) = [] end.

Lemma srcRead_some : forall n s l s', srcRead chunk n s = (Some l, s') -> 
  coming s = l ++ coming s' /\ length l <= n /\ (0 < n -> 0 < length l).
Proof.
  intros n s l s' H. unfold srcRead in H. destruct n as [|n].
  - injection H as <- <-. cbn. repeat split; lia.
  - destruct (coming s) as [|c r] eqn:E; [discriminate|]. cbv zeta in H.
    assert (K : 1 <= Nat.max 1 (Nat.min (chunk (calls s)) (S n)) <= S n)
      by (split; [apply Nat.le_max_l|]; apply Nat.max_lub; [lia|apply Nat.le_min_r]).
    revert H K. generalize (Nat.max 1 (Nat.min (chunk (calls s)) (S n))) as k. intros k H K.
    assert (El : l = firstn k (c :: r)) by congruence. assert (Es : coming s' = skipn k (c :: r)) by (injection H as _ <-; reflexivity).
    rewrite Es, El. split; [symmetry; apply firstn_skipn|]. rewrite firstn_length. cbn [length]. split; lia.
Qed.
Lemma srcRead_none : forall n s s', srcRead chunk n s = (None, s') -> coming s = [] /\ coming s' = [] /\ 0 < n.
Proof.
  intros n s s' H. unfold srcRead in H. destruct n as [|n]; [discriminate|].
  destruct (coming s) as [|c r] eqn:E; [|discriminate]. injection H as <-. cbn. repeat split; lia.
Qed.

Lemma empty_pending : forall b, inInv b -> empty b = true -> pending b = coming (src b).
Proof.
  intros b (_ & I) E. unfold empty, pending in *. destruct (limit b) as [m|]; [|reflexivity].
  apply Nat.leb_le in E. replace (m - ipos b) with 0 by lia. unfold slice. reflexivity.
Qed.
Lemma fill_ok : forall b, inInv b -> empty b = true ->
  inInv (fill chunk b) /\ pending (fill chunk b) = pending b
  /\ (if empty (fill chunk b) then limit (fill chunk b) = None /\ pending b = [] else True).
Proof.
  intros b I E. pose proof (empty_pending b I E) as P. destruct I as (I0 & I). unfold fill.
  destruct (srcRead chunk (length (ibuf b)) (src b)) as [[l|] s'] eqn:R.
  - apply srcRead_some in R as (C & L1 & L2). specialize (L2 I0).
    unfold inInv, pending, empty in *; cbn [ibuf ipos limit src].
    rewrite app_length, skipn_length. split; [split; lia|]. split.
    + rewrite P, C. f_equal. rewrite Nat.sub_0_r. unfold slice. cbn [skipn]. rewrite firstn_app, Nat.sub_diag, firstn_all. cbn. apply app_nil_r.
    + destruct (Nat.leb_spec (length l) 0); [lia|exact Logic.I].
  - apply srcRead_none in R as (C & C' & L). rewrite P, C.
    unfold inInv, pending, empty; cbn [ibuf ipos limit src]. rewrite C'. cbn [app]. repeat split; auto.
Qed.
Lemma nonempty_pending : forall b, inInv b -> empty b = false ->
  exists m, limit b = Some m /\ ipos b < m <= length (ibuf b).
Proof.
  intros b (_ & I) E. unfold empty in E. destruct (limit b) as [m|]; [|discriminate]. apply Nat.leb_gt in E. exists m. split; [reflexivity|lia].
Qed.
(** The state after the first lines of every call. *)
Definition topped (b : buffered) : buffered := if empty b then fill chunk b else b.
Lemma topped_ok : forall b, inInv b ->
  inInv (topped b) /\ pending (topped b) = pending b
  /\ (if empty (topped b) then limit (topped b) = None /\ pending b = [] /\ empty b = true else True).
Proof.
  intros b I. unfold topped. destruct (empty b) eqn:E.
  - destruct (fill_ok b I E) as (A & B & C). split; [assumption|]. split; [assumption|]. destruct (empty (fill chunk b)); [|exact Logic.I].
    destruct C. auto.
  - rewrite E. auto.
Qed.

Definition ofPending (o : option N) (before after : list N) : Prop :=
  match o with Some c => before = c :: after | None => before = [] /\ after = [] end.
Lemma bisRead1_ok : forall b, inInv b -> exists o b', bisRead1 chunk b = Some (o, b') /\ inInv b' /\ ofPending o (pending b) (pending b').
Proof.
  intros b I. destruct (topped_ok b I) as (A & B & C). unfold bisRead1. fold (topped b).
  destruct (empty (topped b)) eqn:E.
  - destruct C as (C1 & C2 & C3). rewrite C1, C3. cbn [andb]. exists None, (topped b). rewrite B, C2. cbn. auto.
  - destruct (nonempty_pending _ A E) as (m & Em & Lm). rewrite Em, andb_false_r.
    destruct (nth_error (ibuf (topped b)) (ipos (topped b))) as [c|] eqn:G; [|apply nth_error_None in G; lia].
    eexists _, _. split; [reflexivity|]. destruct A as (A0 & A). rewrite Em in A. split.
    + unfold inInv; cbn [ibuf ipos limit src]. rewrite ?Em. split; [assumption|lia].
    + cbn [ofPending]. rewrite <- B. unfold pending; cbn [ibuf ipos limit src]. rewrite ?Em.
      rewrite (slice_head _ _ _ c G) by lia. cbn [app]. f_equal. f_equal. f_equal. lia.
Qed.

Definition ofPendings (n : nat) (o : option (list N)) (before after : list N) : Prop :=
  match o with Some l => before = l ++ after /\ length l <= n /\ (0 < n -> 0 < length l) | None => before = [] /\ after = [] end.

Lemma more_ok : forall fuel n got s, 
  match more chunk avail fuel n got s with
  | (Some l, s') => exists x, l = got ++ x /\ coming s = x ++ coming s' /\ length x <= n
  | (None, s') => got = [] /\ coming s = [] /\ coming s' = []
  end.
Proof.
  induction fuel as [|f IH]; intros n got s; cbn [more].
  - exists []. rewrite app_nil_r. repeat split. cbn; lia.
  - destruct (Nat.eqb_spec n 0) as [Z|Z]; [exists []; rewrite app_nil_r; repeat split; cbn; lia|].
    unfold srcAvailable. destruct (avail (calls s) =? 0).
    + exists []. rewrite app_nil_r. repeat split; cbn; lia.
    + destruct (srcRead chunk n _) as [[l|] s2] eqn:R.
      * apply srcRead_some in R as (C & L & _). cbn [coming] in C. specialize (IH (n - length l) (got ++ l) s2).
        destruct (more chunk avail f (n - length l) (got ++ l) s2) as [[l2|] s3].
        -- destruct IH as (x & E1 & E2 & E3). exists (l ++ x). rewrite E1, C, E2, !app_assoc, app_length. repeat split. lia.
        -- destruct IH as (E1 & E2 & E3). apply app_eq_nil in E1 as [-> ->]. rewrite C, E2, E3. auto.
      * apply srcRead_none in R as (C & C' & _). cbn [coming] in C.
        destruct (Nat.eqb_spec (length got) 0) as [Y|Y].
        -- destruct got; [auto|discriminate].
        -- exists []. rewrite C, C', app_nil_r. repeat split; cbn; lia.
Qed.

Lemma bisRead_ok : forall n b, inInv b ->
  let (o, b') := bisRead chunk avail n b in inInv b' /\ ofPendings n o (pending b) (pending b').
Proof.
  intros n b I. destruct (topped_ok b I) as (A & B & C). unfold bisRead. fold (topped b).
  destruct (empty (topped b)) eqn:E.
  - destruct C as (C1 & C2 & C3). rewrite C1, C3. cbn [andb]. rewrite B, C2. cbn. auto.
  - destruct (nonempty_pending _ A E) as (m & Em & Lm). rewrite Em, andb_false_r.
    replace (ipos (topped b) <? m) with true by (symmetry; apply Nat.ltb_lt; lia).
    set (t := topped b) in *. clearbody t. set (k := Nat.min (m - ipos t) n).
    assert (K : k <= m - ipos t /\ k <= n /\ (0 < n -> 0 < k)) by (unfold k; lia). 
    assert (KZ : k = n \/ k = m - ipos t) by (unfold k; lia). clearbody k.
    assert (TL : length (slice (ibuf t) (ipos t) k) = k) by (apply slice_length; lia). rewrite TL. cbn [src].
    pose proof (more_ok (S n) (n - k) (slice (ibuf t) (ipos t) k) (src t)) as M.
    assert (M0 : n - k = 0 -> more chunk avail (S n) (n - k) (slice (ibuf t) (ipos t) k) (src t) = (Some (slice (ibuf t) (ipos t) k), src t)).
    { intros ->. reflexivity. }
    destruct (more chunk avail (S n) (n - k) (slice (ibuf t) (ipos t) k) (src t)) as [[l|] s'].
    + destruct M as (x & E1 & E2 & E3). destruct A as (A0 & A). rewrite Em in A. split.
      * unfold inInv; cbn [ibuf ipos limit src]. rewrite ?Em. split; [assumption|lia].
      * cbn [ofPendings]. rewrite E1, app_length, TL. split; [|lia].
        rewrite <- B. unfold pending; cbn [ibuf ipos limit src]. rewrite Em, (slice_split _ _ _ k) by lia.
        rewrite E2, <- !app_assoc. f_equal.
        assert (X : x = [] \/ slice (ibuf t) (ipos t + k) (m - ipos t - k) = []).
        { destruct KZ as [->| ->]; [left|right].
          - rewrite Nat.sub_diag in E3. destruct x; [reflexivity|cbn in E3; lia].
          - rewrite Nat.sub_diag. reflexivity. }
        replace (m - (ipos t + k)) with (m - ipos t - k) by lia.
        destruct X as [-> | ->]; reflexivity.
    + destruct M as (E1 & E2 & E3). destruct (Nat.eq_dec (n - k) 0) as [Z|Z]; [specialize (M0 Z); discriminate|].
      apply (f_equal (@length N)) in E1. rewrite TL in E1. cbn in E1. lia.
Qed.

Lemma brdRead_ok : forall n b, inInv b ->
  let (o, b') := brdRead chunk n b in inInv b' /\ ofPendings n o (pending b) (pending b').
Proof.
  intros n b I.
  set (b1 := if empty b && (n <? length (ibuf b)) then fill chunk b else b).
  assert (X : inInv b1 /\ pending b1 = pending b).
  { unfold b1. destruct (empty b) eqn:E; cbn [andb]; [|auto]. destruct (n <? length (ibuf b)); [|auto].
    destruct (fill_ok b I E) as (A & B & _). auto. }
  destruct X as (A & B). unfold brdRead. fold b1. clearbody b1. rewrite <- B. clear b I B.
  set (taken := match limit b1 with
               | Some m => if ipos b1 <? m then slice (ibuf b1) (ipos b1) (Nat.min (m - ipos b1) n) else []
               | None => [] end).
  assert (T : length taken <= n /\ inInv {| ibuf := ibuf b1; ipos := ipos b1 + length taken; limit := limit b1; src := src b1 |}
     /\ pending b1 = taken ++ pending {| ibuf := ibuf b1; ipos := ipos b1 + length taken; limit := limit b1; src := src b1 |}
     /\ (length taken < n -> pending {| ibuf := ibuf b1; ipos := ipos b1 + length taken; limit := limit b1; src := src b1 |} = coming (src b1))).
  { destruct A as (A0 & A). unfold inInv, pending; cbn [ibuf ipos limit src]. destruct (limit b1) as [m|] eqn:Em.
    - assert (K : taken = slice (ibuf b1) (ipos b1) (Nat.min (m - ipos b1) n)).
      { unfold taken. destruct (Nat.ltb_spec (ipos b1) m) as [L|L]; [reflexivity|].
        replace (m - ipos b1) with 0 by lia. reflexivity. }
      assert (Q : length taken = Nat.min (m - ipos b1) n) by (rewrite K; apply slice_length; lia).
      rewrite <- Q in K. clearbody taken. repeat split; try lia.
      + rewrite (slice_split _ _ _ (length taken)) by lia. rewrite <- K, <- app_assoc. do 3 f_equal. lia.
      + intros L. replace (m - (ipos b1 + length taken)) with 0 by lia. reflexivity.
    - unfold taken. cbn. repeat split; auto; lia. }
  clearbody taken. destruct T as (T1 & T2 & T3 & T4). destruct (Nat.ltb_spec 0 (n - length taken)) as [L|L].
  - specialize (T4 ltac:(lia)). rewrite T4 in T3. rewrite T3.
    assert (SW : forall s, pending {| ibuf := ibuf b1; ipos := ipos b1 + length taken; limit := limit b1; src := s |} = coming s).
    { intros s. unfold pending in *; cbn [ibuf ipos limit src] in *. destruct (limit b1) as [m|]; [|reflexivity].
      rewrite <- (app_nil_l (coming (src b1))) in T4. apply app_inv_tail in T4. rewrite T4. reflexivity. }
    destruct (srcRead chunk (n - length taken) (src b1)) as [[l|] s'] eqn:R.
    + apply srcRead_some in R as (C & L1 & L2). specialize (L2 L). split.
      * unfold inInv in *; cbn [ibuf ipos limit src] in *. destruct T2 as (T21 & T22). split; [assumption|].
        destruct (limit b1); [assumption|]. rewrite T22 in C. symmetry in C. apply app_eq_nil in C as [-> _]. cbn in L2. lia.
      * cbn [ofPendings]. rewrite SW, C, app_assoc, app_length. split; [reflexivity|]. split; lia.
    + apply srcRead_none in R as (C & C' & _). split.
      * unfold inInv in *; cbn [ibuf ipos limit src] in *. destruct T2 as (T21 & T22). split; [assumption|].
        destruct (limit b1); assumption.
      * rewrite C, app_nil_r. destruct (Nat.eqb_spec (length taken) 0) as [Z|Z]; cbn [ofPendings]; rewrite SW, C'.
        -- destruct taken; [auto|discriminate].
        -- rewrite app_nil_r. split; [reflexivity|]. split; lia.
  - split; [assumption|]. cbn [ofPendings]. split; [assumption|]. split; lia.
Qed.

(** Lines *)
Definition plain (l : list N) : Prop := Forall (fun c => c <> 13%N /\ c <> 10%N) l.
Lemma lineEnd_ok : forall l i,
  match lineEnd l i with
  | None => plain l
  | Some (j, p) => exists pre c rest, l = pre ++ c :: rest /\ plain pre /\ j = i + length pre
      /\ ((c = 10%N /\ p = j + 1) \/ (c = 13%N /\ ((p = j + 1 /\ hd_error rest <> Some 10%N) \/ (p = j + 2 /\ hd_error rest = Some 10%N))))
  end.
Proof.
  induction l as [|c l IH]; intros i; cbn [lineEnd]; [constructor|].
  destruct (N.eqb_spec c 13) as [->|A].
  - exists [], 13%N, l. cbn [app length]. repeat split; [constructor|lia|]. right. split; [reflexivity|].
    destruct l as [|d r]; cbn; [left; split; [lia|discriminate]|]. destruct (N.eqb_spec d 10) as [->|D]; [right|left]; split; try lia; congruence.
  - destruct (N.eqb_spec c 10) as [->|B].
    + exists [], 10%N, l. cbn [app length]. repeat split; [constructor|lia|]. left. split; [reflexivity|lia].
    + specialize (IH (S i)). destruct (lineEnd l (S i)) as [[j p]|].
      * destruct IH as (pre & d & rest & E & P & J & D). exists (c :: pre), d, rest. rewrite E. cbn [app length].
        repeat split; [constructor; auto|lia|assumption].
      * constructor; auto.
Qed.
Lemma firstLine_plain : forall pre q, plain pre ->
  firstLine (pre ++ q) = match firstLine q with
                         | Some (a, b) => Some (pre ++ a, b)
                         | None => match pre with [] => None | _ => Some (pre, []) end end.
Proof.
  induction pre as [|c pre IH]; intros q P; cbn [app firstLine].
  - destruct (firstLine q) as [[a b]|]; reflexivity.
  - inversion P as [|x y (P1 & P2) P3]; subst. apply N.eqb_neq in P1, P2. rewrite P1, P2, (IH q P3).
    destruct (firstLine q) as [[a b]|]; [reflexivity|]. destruct pre; reflexivity.
Qed.
Lemma firstLine_none : forall l, firstLine l = None -> l = [].
Proof. intros [|c l] H; [reflexivity|]. cbn in H. destruct (c =? 10)%N, (c =? 13)%N; try discriminate. destruct (firstLine l) as [[a b]|]; discriminate. Qed.

Definition lineOf (sb : list N) (r : option (list N)) (before after : list N) : Prop :=
  match firstLine before with
  | Some (a, rest) => r = Some (sb ++ a) /\ (after = rest \/ (after = 10%N :: rest /\ before = a ++ 13%N :: 10%N :: rest))
  | None => r = (if length sb =? 0 then None else Some sb) /\ after = []
  end.
Lemma readLineLoop_ok : forall fuel sb b, inInv b -> length (pending b) < fuel ->
  exists r b', readLineLoop chunk fuel sb b = Some (r, b') /\ inInv b' /\ lineOf sb r (pending b) (pending b').
Proof.
  induction fuel as [|f IH]; intros sb b I F; [lia|]. destruct (topped_ok b I) as (A & B & C). cbn [readLineLoop]. fold (topped b).
  destruct (empty (topped b)) eqn:E.
  - destruct C as (C1 & C2 & C3). eexists _, _. split; [reflexivity|]. split; [exact A|]. unfold lineOf. rewrite B, C2. cbn. auto.
  - destruct (nonempty_pending _ A E) as (m & Em & Lm). rewrite <- B in F |- *. set (t := topped b) in *. clearbody t. clear B C b I.
    rewrite Em. cbv zeta. set (part := slice (ibuf t) (ipos t) (m - ipos t)).
    assert (PP : pending t = part ++ coming (src t)) by (unfold pending; rewrite Em; reflexivity).
    assert (PL : length part = m - ipos t) by (apply slice_length; lia).
    pose proof (lineEnd_ok part (ipos t)) as Q. destruct A as (A0 & A). rewrite Em in A.
    destruct (lineEnd part (ipos t)) as [[j p]|].
    + destruct Q as (pre & c & rest & E1 & E2 & E3 & E4). eexists _, _. split; [reflexivity|].
      assert (LL : length pre + S (length rest) = m - ipos t) by (rewrite <- PL, E1, app_length; reflexivity).
      assert (SP : slice (ibuf t) (ipos t) (j - ipos t) = pre).
      { unfold part in E1. rewrite (slice_split _ _ _ (j - ipos t)) in E1 by lia. 
        assert (X : length (slice (ibuf t) (ipos t) (j - ipos t)) = length pre) by (rewrite slice_length by lia; lia).
        apply (f_equal (firstn (length pre))) in E1. rewrite <- X in E1 at 1. 
        rewrite !firstn_app, X, !Nat.sub_diag in E1. cbn [firstn] in E1. rewrite !app_nil_r in E1. rewrite <- X in E1 at 1.
        rewrite !firstn_all in E1. exact E1. }
      assert (SR : forall k, k <= S (length rest) -> slice (ibuf t) (j + k) (m - (j + k)) = skipn k (c :: rest)).
      { intros k K. unfold part in E1. rewrite (slice_split _ _ _ (j - ipos t + k)) in E1 by lia.
        rewrite (slice_split _ _ _ (j - ipos t)) in E1 by lia. rewrite SP, <- app_assoc in E1. apply app_inv_head in E1.
        replace (ipos t + (j - ipos t + k)) with (j + k) in E1 by lia.
        replace (m - ipos t - (j - ipos t + k)) with (m - (j + k)) in E1 by lia.
        replace (j - ipos t + k - (j - ipos t)) with k in E1 by lia.
        assert (X : length (slice (ibuf t) (ipos t + (j - ipos t)) k) = k) by (apply slice_length; lia).
        rewrite <- E1. rewrite skipn_app, X, Nat.sub_diag, skipn_all2 by lia. reflexivity. }
      assert (PN : forall k, p = j + k -> k <= S (length rest) -> pending {| ibuf := ibuf t; ipos := p; limit := Some m; src := src t |} = skipn k (c :: rest) ++ coming (src t)).
      { intros k -> K. unfold pending; cbn [ibuf ipos limit src]. rewrite (SR k K). reflexivity. }
      assert (PB : p <= m).
      { destruct E4 as [(_ & ->)|(_ & [(-> & _)|(-> & H)])]; try lia. destruct rest; [discriminate|]. cbn in LL. lia. }
      split; [unfold inInv; cbn [ibuf ipos limit src]; split; [assumption|lia]|].
      unfold lineOf. rewrite SP, PP, E1, <- app_assoc. cbn [app]. rewrite (firstLine_plain _ _ E2). cbn [firstLine].
      destruct E4 as [(-> & ->)|(-> & [(-> & H)|(-> & H)])].
      * cbn [N.eqb Pos.eqb]. rewrite app_nil_r. split; [reflexivity|]. left. rewrite (PN 1 eq_refl ltac:(lia)). reflexivity.
      * cbn [N.eqb Pos.eqb]. rewrite app_nil_r. split; [reflexivity|]. rewrite (PN 1 eq_refl ltac:(lia)). cbn [skipn].
        destruct rest as [|d r]; cbn [app].
        -- destruct (coming (src t)) as [|d r]; [auto|]. destruct (N.eqb_spec d 10) as [->|D]; auto.
        -- cbn in H. destruct (N.eqb_spec d 10) as [->|D]; [congruence|auto].
      * cbn [N.eqb Pos.eqb]. rewrite app_nil_r. split; [reflexivity|]. destruct rest as [|d r]; [discriminate|]. cbn in H. injection H as ->.
        rewrite (PN 2 eq_refl ltac:(cbn; lia)). cbn. auto.
    + set (u := {| ibuf := ibuf t; ipos := m; limit := Some m; src := src t |}).
      assert (U : inInv u) by (unfold inInv, u; cbn [ibuf ipos limit src]; split; [assumption|lia]).
      assert (PU : pending u = coming (src t)).
      { unfold pending, u; cbn [ibuf ipos limit src]. rewrite Nat.sub_diag. reflexivity. }
      destruct (IH (sb ++ part) u U) as (r & b' & R & I' & L).
      { rewrite PU. rewrite PP, app_length in F. lia. }
      exists r, b'. split; [exact R|]. split; [exact I'|]. unfold lineOf in *. rewrite PU in L. rewrite PP, (firstLine_plain _ _ Q).
      destruct (firstLine (coming (src t))) as [[a rest]|] eqn:FL.
      * destruct L as (L1 & L2). rewrite app_assoc. split; [assumption|]. destruct L2 as [->|(-> & ->)]; [auto|].
        right. rewrite <- !app_assoc. auto.
      * destruct L as (L1 & L2). apply firstLine_none in FL.
        assert (X : length (sb ++ part) =? 0 = false) by (apply Nat.eqb_neq; rewrite app_length; lia). rewrite X in L1.
        destruct part as [|x part]; [cbn in PL; lia|]. auto.
Qed.
Lemma noCRLF_no : forall a r, noCRLF (a ++ 13%N :: 10%N :: r) = false.
Proof.
  induction a as [|c a IH]; intros r; [reflexivity|]. specialize (IH r). cbn [app]. destruct a as [|d a]; cbn [app noCRLF] in *.
  - rewrite andb_false_r. reflexivity.
  - rewrite IH, andb_false_r. reflexivity.
Qed.
End Input.

(** * Data streams *)
Open Scope Z_scope.
Lemma lor_add : forall n x y, 0 <= n -> 0 <= y < 2 ^ n -> Z.lor (Z.shiftl x n) y = x * 2 ^ n + y.
Proof.
  intros n x y N Y. rewrite <- Z.shiftl_mul_pow2 by assumption.
  assert (L : Z.land (Z.shiftl x n) y = 0).
  { apply Z.bits_inj'. intros i I. rewrite Z.land_spec, Z.bits_0. destruct (Z.ltb_spec i n).
    - rewrite Z.shiftl_spec_low by assumption. reflexivity.
    - destruct (Z.eq_dec y 0) as [->|]; [rewrite Z.bits_0; apply andb_false_r|].
      rewrite (Z.bits_above_log2 y i), andb_false_r; [reflexivity|lia|]. apply Z.log2_lt_pow2; [lia|].
      apply Z.lt_le_trans with (2 ^ n); [lia|apply Z.pow_le_mono_r; lia]. }
  rewrite <- Z.lxor_lor by exact L. symmetry. apply Z.add_nocarry_lxor. exact L.
Qed.
Lemma low_range : forall z, 0 <= low z < 256. Proof. intros. apply Z.mod_pos_bound. lia. Qed.
Lemma two : forall z, low (Z.shiftr z 8) * 256 + low z = z mod 65536.
Proof. intros z. unfold low. rewrite Z.shiftr_div_pow2 by lia. change (2 ^ 8) with 256. Z.to_euclidean_division_equations. lia. Qed.
Lemma signed_id : forall k z, 0 < k -> - 2 ^ (k - 1) <= z < 2 ^ (k - 1) -> signed k (z mod 2 ^ k) = z.
Proof.
  intros k z K R. unfold signed. assert (P : 2 ^ k = 2 * 2 ^ (k - 1)) by (rewrite <- Z.pow_succ_r by lia; f_equal; lia).
  rewrite Zplus_mod_idemp_l, Z.mod_small by lia. lia.
Qed.
Lemma signed_mod : forall k z, 0 < k -> signed k z mod 2 ^ k = z mod 2 ^ k.
Proof.
  intros k z K. unfold signed. rewrite Zminus_mod_idemp_l. f_equal. lia.
Qed.
Lemma readShort_ok : forall z l, exists v, readShort (writeShort z ++ l) = Some (v, l) /\ v = signed 16 (z mod 2 ^ 16).
Proof.
  intros z l. eexists. split; [reflexivity|]. pose proof (low_range z). rewrite lor_add by (cbn; lia).
  change (2 ^ 8) with 256. rewrite two. reflexivity.
Qed.
Lemma four : forall z,
  Z.lor (Z.lor (Z.lor (Z.shiftl (low (Z.shiftr z 24)) 24) (Z.shiftl (low (Z.shiftr z 16)) 16)) (Z.shiftl (low (Z.shiftr z 8)) 8)) (low z)
  = z mod 2 ^ 32.
Proof.
  intros z. pose proof (low_range z) as R0. pose proof (low_range (Z.shiftr z 8)) as R1. pose proof (low_range (Z.shiftr z 16)) as R2.
  pose proof (low_range (Z.shiftr z 24)) as R3.
  replace (low (Z.shiftr z 24)) with (low (Z.shiftr (Z.shiftr (Z.shiftr z 8) 8) 8)) in * by (rewrite !Z.shiftr_shiftr by lia; reflexivity).
  replace (low (Z.shiftr z 16)) with (low (Z.shiftr (Z.shiftr z 8) 8)) in * by (rewrite !Z.shiftr_shiftr by lia; reflexivity).
  set (a := low (Z.shiftr (Z.shiftr (Z.shiftr z 8) 8) 8)) in *. set (b := low (Z.shiftr (Z.shiftr z 8) 8)) in *.
  set (c := low (Z.shiftr z 8)) in *.
  rewrite (lor_add 24 a) by (rewrite ?Z.shiftl_mul_pow2 by lia; lia).
  replace (a * 2 ^ 24 + Z.shiftl b 16) with (Z.shiftl (a * 256 + b) 16) by (rewrite !Z.shiftl_mul_pow2 by lia; lia).
  rewrite (lor_add 16) by (rewrite ?Z.shiftl_mul_pow2 by lia; lia).
  replace ((a * 256 + b) * 2 ^ 16 + Z.shiftl c 8) with (Z.shiftl ((a * 256 + b) * 256 + c) 8) by (rewrite !Z.shiftl_mul_pow2 by lia; lia).
  rewrite (lor_add 8) by lia.
  unfold a, b, c, low. rewrite !Z.shiftr_div_pow2 by lia. change (2 ^ 8) with 256. change (2 ^ 32) with 4294967296.
  clear. Z.to_euclidean_division_equations. lia.
Qed.
Lemma readInt_ok : forall z l, exists v, readInt (writeInt z ++ l) = Some (v, l) /\ v = signed 32 (z mod 2 ^ 32).
Proof. intros z l. eexists. split; [reflexivity|]. rewrite four. reflexivity. Qed.
Lemma writeLong_ints : forall z, writeLong z = writeInt (Z.shiftr z 32) ++ writeInt z.
Proof. intros z. unfold writeLong, writeInt. rewrite !Z.shiftr_shiftr by lia. reflexivity. Qed.
Lemma land_mask : forall x k, 0 <= k -> Z.land x (2 ^ k - 1) = x mod 2 ^ k.
Proof. intros x k K. rewrite <- Z.land_ones by assumption. f_equal. rewrite Z.ones_equiv. lia. Qed.
Lemma readLong_ok : forall z l, exists v, readLong (writeLong z ++ l) = Some (v, l) /\ v = signed 64 (z mod 2 ^ 64).
Proof.
  intros z l. rewrite writeLong_ints, <- app_assoc. unfold readLong, bindR at 1.
  destruct (readInt_ok (Z.shiftr z 32) (writeInt z ++ l)) as (v & E & V). rewrite E. unfold bindR.
  destruct (readInt_ok z l) as (w & E2 & W). rewrite E2. unfold retR. eexists. split; [reflexivity|]. subst v w.
  change 4294967295 with (2 ^ 32 - 1). rewrite !land_mask by lia. rewrite !signed_mod by lia. rewrite !Z.mod_mod by lia.
  rewrite lor_add by (try lia; apply Z.mod_pos_bound; lia). rewrite Z.shiftr_div_pow2 by lia. f_equal.
  clear. change (2 ^ 64) with (2 ^ 32 * 2 ^ 32). generalize (2 ^ 32) (eq_refl : 2 ^ 32 = 4294967296). intros m M.
  rewrite Z.rem_mul_r by lia. lia.
Qed.
