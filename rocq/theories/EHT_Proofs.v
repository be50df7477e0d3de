(** Proofs about the tables of compiled methods. *)
From Coq Require Import List Arith Bool Lia Sorted.
Import ListNotations.
From Verif Require Import CLayout_Model CLayout_Spec CLayout_Proofs EHT_Model EHT_Spec.

(** *** Machine code in order *)
Lemma belongs_in : forall ps a j, belongs ps a = Some j -> In j (map fst ps) /\ a < total ps.
Proof.
  induction ps as [|[h n] ps IH]; intros a j B; [discriminate|]. cbn [belongs map fst snd list_sum fold_right] in *. destruct (Nat.ltb_spec a n) as [L|L]; [inversion B; split; [left; reflexivity|unfold total; cbn; lia]|].
  destruct (IH _ _ B) as [X Y]. unfold total in *. split; [right; assumption|cbn; fold (list_sum (map snd ps)); unfold list_sum in *; lia].
Qed.
Lemma offset_iff : forall ps a j i, StronglySorted le (map fst ps) -> belongs ps a = Some j -> In i (map fst ps) -> (offsetOf i ps <= a <-> i <= j).
Proof.
  induction ps as [|[h n] ps IH]; intros a j i S B I; [discriminate|]. cbn [map fst belongs offsetOf] in *. inversion S as [|? ? S1 S2]; subst.
  rewrite Forall_forall in S2. destruct (Nat.ltb_spec a n) as [L|L].
  - inversion B; subst j. destruct (Nat.eqb_spec h i) as [->|N]; [split; lia|]. destruct I as [->|I]; [congruence|]. specialize (S2 i I). split; intro; [lia|lia].
  - assert (J : In j (map fst ps)) by apply (belongs_in _ _ _ B).
    destruct (Nat.eqb_spec h i) as [->|N]; [split; intro; [apply S2; exact J|lia]|]. destruct I as [->|I]; [congruence|]. rewrite <- (IH (a - n) j i S1 B I). lia.
Qed.
Lemma sorted_app (l1 l2 : list nat) : StronglySorted le l1 -> StronglySorted le l2 -> (forall x y, In x l1 -> In y l2 -> x <= y) -> StronglySorted le (l1 ++ l2).
Proof.
  induction l1 as [|x l1 IH]; intros S1 S2 H; [exact S2|]. inversion S1; subst. cbn. constructor; [apply IH; auto; intros; apply H; [right|]; assumption|].
  apply Forall_app. split; [assumption|]. apply Forall_forall. intros y Y. apply H; [left; reflexivity|exact Y].
Qed.
Lemma order_sorted evs : forall m s, let l := map (fun p => nth p evs 0) (flat_map (fun i => positions i evs) (seq s m)) in StronglySorted le l /\ (forall x, In x l -> s <= x).
Proof.
  assert (P : forall i x, In x (map (fun p => nth p evs 0) (positions i evs)) -> x = i).
  { intros i x I. apply in_map_iff in I. destruct I as [p [<- I]]. apply filter_In in I. apply Nat.eqb_eq. apply I. }
  assert (Q : forall l i, (forall x, In x l -> x = i) -> StronglySorted le l).
  { induction l as [|x l IH]; intros i H; constructor; [apply (IH i); intros; apply H; right; assumption|]. apply Forall_forall. intros y Y. rewrite (H x (or_introl eq_refl)), (H y (or_intror Y)). lia. }
  induction m as [|m IH]; intros s l; [split; [constructor|intros x []]|]. unfold l. cbn [seq flat_map]. rewrite map_app. destruct (IH (S s)) as [A B]. split.
  - apply sorted_app; [apply (Q _ s); apply P|exact A|]. intros x y X Y. rewrite (P s x X). specialize (B y Y). lia.
  - intros x X. apply in_app_or in X. destruct X as [X|X]; [rewrite (P s x X); lia|specialize (B x X); lia].
Qed.

Section M.
Context {T : Type} (len : nat) (code : nat -> instr).
Lemma pieces_ok size evs : (forall i, In i evs -> i < S len) -> 0 < length evs -> nth 0 evs 0 = 0 -> orderly (nextOf (S len) evs) evs ->
  StronglySorted le (map fst (pieces len size evs)) /\ (forall i, In i (map fst (pieces len size evs)) <-> In i evs).
Proof.
  intros A B C D. unfold pieces. rewrite (layout_ok _ _ A B C D), map_map. cbn [fst]. split; [apply (order_sorted evs (S len) 0)|].
  intro i. rewrite in_map_iff. split.
  - intros [p [<- P]]. apply nth_In. apply (Permutation.Permutation_in p (inOrder_all _ _ A)) in P. apply in_seq in P. lia.
  - intro I. destruct (In_nth_pos i evs I) as [p [L E]]. exists p. split; [exact E|]. apply (Permutation.Permutation_in p (Permutation.Permutation_sym (inOrder_all _ _ A))). apply in_seq. lia.
Qed.

(** *** Compiling the handlers *)
Lemma seen_In vis i : seen vis i = true <-> In i vis.
Proof. apply existsb_In. Qed.
Lemma forwards_some vis s e x : forwards vis s e = Some x -> s <= x < e /\ In x vis /\ (forall y, s <= y < x -> ~ In y vis).
Proof.
  unfold forwards. pose proof (find_seq_spec (seen vis) (e - s) s) as F. intro E. rewrite E in F. destruct F as [A [B C]]. split; [lia|]. split; [apply seen_In; exact B|].
  intros y Y I. apply seen_In in I. rewrite (C y Y) in I. discriminate.
Qed.
Lemma forwards_none vis s e : forwards vis s e = None -> forall y, s <= y < e -> ~ In y vis.
Proof. unfold forwards. pose proof (find_seq_spec (seen vis) (e - s) s) as F. intro E. rewrite E in F. intros y Y I. apply seen_In in I. rewrite (F y) in I; [discriminate|lia]. Qed.
Lemma emit_incl : forall f ks vis evs ip v w, emit len code f ks vis evs ip = Some (v, w) -> incl vis v /\ (forall i, ip = Some i -> i < len -> In i v).
Proof.
  induction f as [|f IH]; intros ks vis evs ip v w E; [discriminate|]. cbn [emit] in E. destruct ip as [i|].
  - destruct ((i <? len) && negb (existsb (Nat.eqb i) vis)) eqn:B.
    + assert (G : incl (i :: vis) v) by (destruct (code i); apply (IH _ _ _ _ _ _ E)). split; [intros x X; apply G; right; exact X|]. intros j J _. inversion J; subst. apply G. left. reflexivity.
    + destruct (IH _ _ _ _ _ _ E) as [G _]. split; [exact G|]. intros j J L. inversion J; subst. apply G. apply Nat.ltb_lt in L. rewrite L in B. cbn in B. apply negb_false_iff in B. apply existsb_In. exact B.
  - destruct ks as [|[j|i d cs|i d cs|d [|c cs]] ks]; [inversion E; subst; split; [apply incl_refl|discriminate]| | | | |]; (split; [apply (IH _ _ _ _ _ _ E)|discriminate]).
Qed.
(** What holds of the instructions visited and the events made. *)
Definition sound (vis evs : list nat) : Prop := fits len vis evs /\ (exists a, evs = a ++ [0]) /\ ((forall i d cs, i < len -> code i <> Table d cs) -> NoDup evs).
Lemma emit_sound f vis evs ip v w : emit len code f [] vis evs ip = Some (v, w) -> sound vis evs -> sound v w.
Proof.
  intros E [A [[a B] C]]. split; [apply (emit_fits len code _ _ _ _ _ _ _ E); [constructor|exact A]|]. split.
  - destruct (emit_last len code _ _ _ _ _ _ _ E) as [b ->]. exists (b ++ a). rewrite B, app_assoc. reflexivity.
  - intro NT. apply (emit_once len code NT _ _ _ _ _ _ _ E); [constructor|exact A|apply C; exact NT].
Qed.
Lemma pass_ok f : forall (es : list (entry T)) vis evs r v w, pass len code f es vis evs = Some (r, v, w) -> sound vis evs ->
  sound v w /\ incl vis v /\ (forall e, In e es -> In e r \/ (eHandler e < len -> In (eHandler e) v)) /\ length r <= length es /\
  (length r = length es -> r = es /\ v = vis /\ forall e, In e es -> forwards vis (eStart e) (eEnd e) = None).
Proof.
  induction es as [|e es IH]; intros vis evs r v w E S; cbn [pass] in E.
  - inversion E; subst. repeat split; try apply S; try apply incl_refl; auto; intros ? [].
  - destruct (forwards vis (eStart e) (eEnd e)) as [s|] eqn:F.
    + destruct (emit len code f [] vis evs (Some (eHandler e))) as [[v1 w1]|] eqn:M; [|discriminate]. destruct (emit_incl _ _ _ _ _ _ _ M) as [I1 I2].
      destruct (IH _ _ _ _ _ E (emit_sound _ _ _ _ _ _ M S)) as [A [B [C [D _]]]]. split; [exact A|]. split; [eapply incl_tran; eassumption|]. split; [|split; [cbn; lia|intro X; cbn in X; lia]].
      intros e' [<-|I]; [right; intro L; apply B; apply (I2 _ eq_refl L)|apply C; exact I].
    + destruct (pass len code f es vis evs) as [[[r1 v1] w1]|] eqn:P; [|discriminate]. inversion E; subst. destruct (IH _ _ _ _ _ P S) as [A [B [C [D G]]]].
      split; [exact A|]. split; [exact B|]. split; [|split; [cbn; lia|]].
      * intros e' [<-|I]; [left; left; reflexivity|]. destruct (C e' I); [left; right; assumption|right; assumption].
      * intro X. cbn in X. destruct (G ltac:(lia)) as [-> [-> G2]]. split; [reflexivity|]. split; [reflexivity|]. intros e' [<-|I]; [exact F|apply G2; exact I].
Qed.
Lemma passes_ok f : forall n (es : list (entry T)) vis evs v w, passes len code f n es vis evs = Some (v, w) -> sound vis evs ->
  sound v w /\ incl vis v /\ (forall e, In e es -> (eHandler e < len -> In (eHandler e) v) \/ forwards v (eStart e) (eEnd e) = None).
Proof.
  induction n as [|n IH]; intros es vis evs v w E S; [discriminate|]. cbn [passes] in E. destruct (pass len code f es vis evs) as [[[r v1] w1]|] eqn:P; [|discriminate].
  destruct (pass_ok _ _ _ _ _ _ _ P S) as [A [B [C [D G]]]]. destruct (Nat.eqb_spec (length r) (length es)) as [L|L].
  - inversion E; subst. destruct (G L) as [-> [-> G2]]. split; [exact A|]. split; [exact B|]. intros e I. right. apply G2. exact I.
  - destruct (IH _ _ _ _ _ E A) as [A1 [B1 C1]]. split; [exact A1|]. split; [eapply incl_tran; eassumption|]. intros e I. destruct (C e I) as [J|J]; [apply C1; exact J|left; intro X; apply B1, J; exact X].
Qed.
Lemma compile_ok f (table : list (entry T)) vis evs : compileMethod len code f table = Some (vis, evs) ->
  (forall j, In (S j) evs <-> In j vis) /\ (forall j, In j vis -> j < len) /\ (forall i, In i evs -> i < S len) /\ 0 < length evs /\ nth 0 evs 0 = 0 /\
  ((forall i d cs, i < len -> code i <> Table d cs) -> NoDup evs) /\
  (forall e, In e table -> (eHandler e < len -> In (eHandler e) vis) \/ forwards vis (eStart e) (eEnd e) = None) /\ (0 < len -> In 0 vis).
Proof.
  unfold compileMethod. intro E. destruct (emit len code f [] [] [0] (Some 0)) as [[v w]|] eqn:M; [|discriminate].
  destruct (passes len code f (S (length table)) table v w) as [[v' w']|] eqn:P; [|discriminate]. inversion E; subst. destruct (emit_incl _ _ _ _ _ _ _ M) as [_ I0].
  assert (S0 : sound [] [0]). { split; [split; [intros i [<-|[]]; left; reflexivity|intros j []]|]. split; [exists []; reflexivity|]. intros _. repeat constructor. intros []. }
  destruct (passes_ok _ _ _ _ _ _ _ P (emit_sound _ _ _ _ _ _ M S0)) as [[[A B] [[a ->] C]] [D F]].
  assert (A' : forall i, In i (rev (a ++ [0])) -> i = 0 \/ exists j, i = S j /\ In j vis) by (intros i I; apply A; apply in_rev; exact I).
  split; [|split; [intros j J; apply (B j J)|split; [|split; [|split; [|split; [|split; [exact F|]]]]]]].
  - intro j. split; [intro I; destruct (A' _ I) as [X|[j' [X J]]]; [discriminate|inversion X; subst; exact J]|intro I; apply -> in_rev; apply (B j I)].
  - intros i I. destruct (A' i I) as [->|[j [-> J]]]; [lia|]. destruct (B j J). lia.
  - rewrite rev_length, app_length. cbn. lia.
  - rewrite rev_app_distr. reflexivity.
  - intro NT. apply NoDup_rev. apply C. exact NT.
  - intro L. apply D. apply (I0 0 eq_refl L).
Qed.
(** It comes to an end. *)
Lemma pass_mono f f' : f <= f' -> forall (es : list (entry T)) vis evs r, pass len code f es vis evs = Some r -> pass len code f' es vis evs = Some r.
Proof.
  intros L. induction es as [|e es IH]; intros vis evs r E; [exact E|]. cbn [pass] in *. destruct (forwards vis (eStart e) (eEnd e)).
  - destruct (emit len code f [] vis evs (Some (eHandler e))) as [[v w]|] eqn:M; [|discriminate]. rewrite (emit_mono _ _ _ _ _ _ _ _ M f' L). apply IH. exact E.
  - destruct (pass len code f es vis evs) as [[[r1 v] w]|] eqn:P; [|discriminate]. rewrite (IH _ _ _ P). exact E.
Qed.
Lemma passes_mono f f' : f <= f' -> forall n n' (es : list (entry T)) vis evs r, n <= n' -> passes len code f n es vis evs = Some r -> passes len code f' n' es vis evs = Some r.
Proof.
  intros L. induction n as [|n IH]; intros n' es vis evs r N E; [discriminate|]. destruct n' as [|n']; [lia|]. cbn [passes] in *.
  destruct (pass len code f es vis evs) as [[[r1 v] w]|] eqn:P; [|discriminate]. rewrite (pass_mono f f' L _ _ _ _ P). destruct (length r1 =? length es); [exact E|]. apply IH; [lia|exact E].
Qed.
Lemma pass_ends : forall (es : list (entry T)) vis evs, exists f r v w, pass len code f es vis evs = Some (r, v, w) /\ length r <= length es.
Proof.
  induction es as [|e es IH]; intros vis evs; [exists 0, [], vis, evs; split; [reflexivity|cbn; lia]|]. cbn [pass]. destruct (forwards vis (eStart e) (eEnd e)) eqn:F.
  - destruct (emit_ends len code _ vis (le_n _) _ [] (Some (eHandler e)) (le_n _) evs) as [f1 [[v w] E]]. destruct (IH v w) as [f2 [r [v' [w' [P L]]]]].
    exists (f1 + f2), r, v', w'. rewrite (emit_mono _ _ _ _ _ _ _ _ E (f1 + f2) ltac:(lia)). split; [apply (pass_mono f2); [lia|exact P]|cbn; lia].
  - destruct (IH vis evs) as [f [r [v [w [P L]]]]]. exists f, (e :: r), v, w. rewrite P. split; [reflexivity|cbn; lia].
Qed.
Lemma passes_end : forall n (es : list (entry T)) vis evs, length es < n -> exists f r, passes len code f n es vis evs = Some r.
Proof.
  induction n as [|n IH]; intros es vis evs L; [lia|]. destruct (pass_ends es vis evs) as [f [r [v [w [P PL]]]]]. destruct (Nat.eq_dec (length r) (length es)) as [E|E].
  - exists f, (v, w). cbn [passes]. rewrite P, E, Nat.eqb_refl. reflexivity.
  - destruct (IH r v w ltac:(lia)) as [f2 [x F]]. exists (f + f2), x. cbn [passes]. rewrite (pass_mono f (f + f2) ltac:(lia) _ _ _ _ P). destruct (Nat.eqb_spec (length r) (length es)); [contradiction|].
    apply (passes_mono f2 (f + f2) ltac:(lia) n); [lia|exact F].
Qed.
Lemma compile_ends (table : list (entry T)) : exists f r, forall f', f <= f' -> compileMethod len code f' table = Some r.
Proof.
  destruct (emit_ends len code _ [] (le_n _) _ [] (Some 0) (le_n _) [0]) as [f1 [[v w] E]]. destruct (passes_end (S (length table)) table v w (le_n _)) as [f2 [[v' w'] F]].
  exists (f1 + f2), (v', rev w'). intros f' L. unfold compileMethod. rewrite (emit_mono _ _ _ _ _ _ _ _ E f' ltac:(lia)), (passes_mono f2 f' ltac:(lia) _ _ _ _ _ _ (le_n _) F). reflexivity.
Qed.

(** *** Dispatch *)
Lemma back_here vis s e : e <= s -> In s vis -> back vis s e = Some s.
Proof. intros L I. apply seen_In in I. destruct s as [|s]; cbn [back]; rewrite I; match goal with |- context [if ?x <? ?y then _ else _] => destruct (Nat.ltb_spec x y) end; try lia; reflexivity. Qed.
Lemma entry_ok size vis evs (e : entry T) b a : StronglySorted le (map fst (pieces len size evs)) -> (forall j, In (S j) (map fst (pieces len size evs)) <-> In j vis) ->
  (forall j, In j vis -> j < len) -> belongs (pieces len size evs) a = Some (S b) -> eStart e < eEnd e <= len -> (eEnd e = len \/ In (eEnd e) vis) ->
  match translate1 len size vis evs e with
  | [] => (eStart e <=? b) && (b <? eEnd e) = false
  | r :: l => l = [] /\ (rStart r <=? a) && (a <? rEnd r) = (eStart e <=? b) && (b <? eEnd e) /\ rHandler r = machineIp len size evs (eHandler e) /\ rType r = eType e
  end.
Proof.
  intros S V VL B W EE. destruct (belongs_in _ _ _ B) as [IB TB]. assert (BV : In b vis) by (apply V; exact IB). unfold translate1.
  destruct (forwards vis (eStart e) (eEnd e)) as [s|] eqn:F.
  - destruct (forwards_some _ _ _ _ F) as [F1 [F2 F3]]. split; [reflexivity|]. cbn [rStart rEnd rHandler rType]. split; [|auto].
    assert (R1 : forall j, In j vis -> (machineIp len size evs j <= a <-> j <= b)).
    { intros j J. unfold machineIp. rewrite (offset_iff _ _ _ (Datatypes.S j) S B (proj2 (V j) J)). lia. }
    assert (RS : machineIp len size evs s <= a <-> s <= b) by (apply R1; exact F2).
    assert (RE : a < match backwards len vis (eEnd e) (eStart e) with Some h => if h =? len then total (pieces len size evs) else machineIp len size evs h | None => 0 end <-> b < eEnd e).
    { unfold backwards. destruct (Nat.leb_spec len (eEnd e)) as [L|L].
      - destruct (Nat.ltb_spec len (eStart e)); [lia|]. rewrite Nat.eqb_refl. specialize (VL b BV). split; intro; [lia|exact TB].
      - destruct EE as [EE|EE]; [lia|]. rewrite back_here by (auto; lia). destruct (Nat.eqb_spec (eEnd e) len); [lia|]. specialize (R1 _ EE). lia. }
    assert (SB : s <= b <-> eStart e <= b).
    { split; intro H; [lia|]. destruct (Nat.le_gt_cases s b) as [|G]; [assumption|]. exfalso. exact (F3 b ltac:(lia) BV). }
    apply eq_true_iff_eq. rewrite !andb_true_iff, !Nat.leb_le, !Nat.ltb_lt. tauto.
  - destruct ((eStart e <=? b) && (b <? eEnd e)) eqn:X; [|reflexivity]. apply andb_true_iff in X. destruct X as [X1 X2]. apply Nat.leb_le in X1. apply Nat.ltb_lt in X2. exfalso. exact (forwards_none _ _ _ F b (conj X1 X2) BV).
Qed.
Lemma dispatch_ok size vis evs match_ b a : StronglySorted le (map fst (pieces len size evs)) -> (forall j, In (S j) (map fst (pieces len size evs)) <-> In j vis) ->
  (forall j, In j vis -> j < len) -> belongs (pieces len size evs) a = Some (S b) ->
  forall table : list (entry T), wellFormed len table -> Forall (fun e => eEnd e = len \/ In (eEnd e) vis) table ->
  findHandler match_ (translate len size vis evs table) (S a) = option_map (machineIp len size evs) (handlerFor match_ table b).
Proof.
  intros S V VL B. unfold findHandler, handlerFor, translate. replace (Datatypes.S a - 1) with a by lia. induction table as [|e table IH]; intros W EE; [reflexivity|].
  inversion W as [|? ? W1 W2]; subst. inversion EE as [|? ? E1 E2]; subst. specialize (IH W2 E2).
  pose proof (entry_ok size vis evs e b a S V VL B ltac:(destruct W1; lia) E1) as H. cbn [flat_map find]. destruct (translate1 len size vis evs e) as [|r l].
  - rewrite H. cbn [andb app]. exact IH.
  - destruct H as [-> [H1 [H2 H3]]]. cbn [app find]. rewrite H1, H3. destruct ((eStart e <=? b) && (b <? eEnd e) && match_ (eType e)); [cbn; rewrite H2; reflexivity|exact IH].
Qed.

(** *** Line numbers *)
Lemma find_app' {B} (f : B -> bool) l1 l2 : find f (l1 ++ l2) = match find f l1 with Some x => Some x | None => find f l2 end.
Proof. induction l1 as [|x l IH]; [reflexivity|]. cbn. destruct (f x); [reflexivity|exact IH]. Qed.
Lemma asc_lower ip line r : ascending ((ip, line) :: r) -> forall e, In e r -> ip < fst e.
Proof.
  revert ip line. induction r as [|[ip1 l1] r IH]; intros ip line A e I; [destruct I|]. destruct A as [A1 A2]. destruct I as [<-|I]; [exact A1|]. specialize (IH ip1 l1 A2 e I). lia.
Qed.
Lemma lines_later size vis evs b a : StronglySorted le (map fst (pieces len size evs)) -> (forall j, In (S j) (map fst (pieces len size evs)) <-> In j vis) ->
  belongs (pieces len size evs) a = Some (S b) -> forall table, (forall e, In e table -> b < fst e) -> find (fun e => fst e <=? a) (rev (lines len size vis evs table)) = None.
Proof.
  intros S V B. induction table as [|[ip line] table IH]; intro H; [reflexivity|]. cbn [lines]. specialize (IH (fun e I => H e (or_intror I))). pose proof (H _ (or_introl eq_refl)) as H0. cbn in H0.
  destruct (forwards vis ip _) as [i|] eqn:F; [|exact IH]. destruct (forwards_some _ _ _ _ F) as [F1 [F2 _]]. cbn [rev]. rewrite find_app', IH. cbn.
  destruct (Nat.leb_spec (machineIp len size evs i) a) as [L|]; [|reflexivity]. apply (offset_iff _ _ _ _ S B (proj2 (V i) F2)) in L. lia.
Qed.
(** The entry that covers [b]: [front] come before it, [r] behind it. *)
Lemma lines_ok size vis evs b a : StronglySorted le (map fst (pieces len size evs)) -> (forall j, In (S j) (map fst (pieces len size evs)) <-> In j vis) ->
  belongs (pieces len size evs) a = Some (S b) -> forall front ip line r, ascending (front ++ (ip, line) :: r) -> ip <= b ->
  match r with (ip', _) :: _ => b + 1 < ip' | [] => In ip vis end ->
  lineAt (lines len size vis evs (front ++ (ip, line) :: r)) a = Some line /\ lineAt (front ++ (ip, line) :: r) b = Some line.
Proof.
  intros S V B. assert (BV : In b vis) by (apply V; apply (belongs_in _ _ _ B)).
  assert (LA : forall l1 l2 x, lineAt l2 x = Some (match lineAt l2 x with Some y => y | None => 0 end) -> lineAt (l1 ++ l2) x = lineAt l2 x).
  { intros l1 l2 x H. unfold lineAt in *. rewrite rev_app_distr, find_app'. destruct (find _ (rev l2)); [reflexivity|discriminate]. }
  assert (LIN : forall front t, exists pre, lines len size vis evs (front ++ t) = pre ++ lines len size vis evs t).
  { induction front as [|[i l] front IH]; intro t; [exists []; reflexivity|]. destruct (IH t) as [pre P]. cbn [app lines]. rewrite P. destruct (forwards vis i _); [eexists (_ :: pre); reflexivity|exists pre; reflexivity]. }
  intros front ip line r A L C. assert (A2 : ascending ((ip, line) :: r)).
  { clear - A. induction front as [|[i l] front IH]; [exact A|]. apply IH. apply A. }
  assert (R : forall e, In e r -> b < fst e).
  { intros e I. destruct r as [|[ip' l'] r]; [destruct I|]. destruct I as [<-|I]; [cbn; lia|]. destruct A2 as [_ A3]. pose proof (asc_lower _ _ _ A3 e I). lia. }
  assert (NF : find (fun e : nat * nat => fst e <=? b) (rev r) = None).
  { destruct (find _ (rev r)) as [e|] eqn:F; [|reflexivity]. apply find_some in F. destruct F as [F1 F2]. apply in_rev in F1. specialize (R e F1). apply Nat.leb_le in F2. lia. }
  assert (P2 : lineAt ((ip, line) :: r) b = Some line). { unfold lineAt. cbn [rev]. rewrite find_app', NF. cbn. destruct (Nat.leb_spec ip b); [reflexivity|lia]. }
  assert (P1 : lineAt (lines len size vis evs ((ip, line) :: r)) a = Some line).
  { cbn [lines]. destruct (forwards vis ip (match r with [] => ip + 1 | (ip', _) :: _ => ip' - 1 end)) as [i|] eqn:F.
    - destruct (forwards_some _ _ _ _ F) as [F1 [F2 F3]]. unfold lineAt. cbn [rev]. rewrite find_app', (lines_later size vis evs b a S V B r R). cbn.
      destruct (Nat.leb_spec (machineIp len size evs i) a) as [|G]; [reflexivity|]. exfalso.
      assert (IB : i <= b). { destruct (Nat.le_gt_cases i b) as [|X]; [assumption|]. exfalso. exact (F3 b ltac:(lia) BV). }
      pose proof (proj2 (offset_iff _ _ _ (Datatypes.S i) S B (proj2 (V i) F2)) ltac:(lia)) as O. unfold machineIp in G. lia.
    - exfalso. destruct r as [|[ip' l'] r]; [exact (forwards_none _ _ _ F ip ltac:(lia) C)|exact (forwards_none _ _ _ F b ltac:(lia) BV)]. }
  split; [|rewrite LA; rewrite P2; reflexivity]. destruct (LIN front ((ip, line) :: r)) as [pre ->]. rewrite LA; rewrite P1; reflexivity.
Qed.
End M.
