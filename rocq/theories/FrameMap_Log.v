(** The shape of the event log of a whole method. *)
From Verif Require Import Base FrameMap_Model FrameMap_Spec FrameMap_Proofs.
Local Open Scope nat_scope.

Definition parItems (ps : list (N * bool)) : list item :=
  map (fun p : N * bool => if snd p then IMk (fst p) else ICl (fst p)) ps.
Definition clrItems (m : method) : list item :=
  map (fun i => ICl (localSize m + N.of_nat i)%N) (seq 1 (N.to_nat (maxStack m) - 1)).

Lemma flat_par : forall ps, flat (parItems ps) = paramEvents ps.
Proof. induction ps as [|[i []] ps IH]; cbn; [reflexivity| |]; f_equal; exact IH. Qed.
Lemma flat_clr : forall m, flat (clrItems m) = clearStack m.
Proof.
  intros m. unfold clrItems, clearStack. generalize (seq 1 (N.to_nat (maxStack m) - 1)).
  induction l as [|x l IH]; cbn; [reflexivity|]. f_equal. exact IH.
Qed.

Definition resolve (v : nat -> nat) (h : handler) : option nat :=
  resolveIpForwards (S (hend h - hstart h)) v (hstart h) (hend h).

Definition ones (m : method) : N := N.ones (mapBits m).
Definition secItems (m : method) (its : list item) : list item := clrItems m ++ [ICtx its].
Definition mkSec (m : method) (st : nat) (h : handler) (its : list item) : sec :=
  (st, handlerEnd st h, secItems m its).
Definition logOf (main : list item) (secs : list sec) : list event :=
  flat main ++ flat_map flatSec secs.

Inductive built (m : method) : list item -> list (nat * sec) -> (nat -> nat) -> cst -> Prop :=
| built_main : forall mi v,
    emits m 0 false (fun _ => 0) mi v ->
    built m (parItems (params m) ++ mi) [] v
          (snd (run v true (parItems (params m) ++ mi) 0%N (initialState m)))
| built_sec : forall main secs v s i h st its v',
    built m main secs v s -> nth_error (handlers m) i = Some h -> resolve v h = Some st ->
    emits m (hip h) true v its v' ->
    built m main (secs ++ [(i, mkSec m st h its)]) v'
          (runSec v' (ones m) (traceLog (logOf main (map snd (secs ++ [(i, mkSec m st h its)]))))
                  (mkSec m st h its) s).

Definition Ctx (m : method) (main : list item) (secs : list (nat * sec)) (c : cctx) : Prop :=
  built m main secs (visits c) (cs c)
  /\ log c = logOf main (map snd secs)
  /\ length (done c) = length (handlers m)
  /\ (forall i, i < length (handlers m) -> nth i (done c) true = true -> In i (map fst secs)).

Lemma nth_set : forall (l : list bool) i j, i < length l ->
  nth j (firstn i l ++ true :: skipn (S i) l) true = if j =? i then true else nth j l true.
Proof.
  induction l as [|x l IH]; intros i j L; [cbn in L; lia|].
  destruct i as [|i]; cbn [firstn skipn app].
  - destruct j; reflexivity.
  - destruct j as [|j]; [reflexivity|]. cbn [nth]. apply (IH i j). cbn in L. lia.
Qed.
Lemma length_set : forall (l : list bool) i, i < length l ->
  length (firstn i l ++ true :: skipn (S i) l) = length l.
Proof. intros. rewrite app_length. cbn [length]. rewrite firstn_length, skipn_length. lia. Qed.

Definition undone (l : list bool) : nat := length (filter negb l).
Lemma undone_set : forall (l : list bool) i, nth i l true = false ->
  S (undone (firstn i l ++ true :: skipn (S i) l)) = undone l.
Proof.
  unfold undone.
  induction l as [|x l IH]; intros i L; [destruct i; discriminate|].
  destruct i as [|i].
  - cbn in L. subst x. cbn. reflexivity.
  - cbn [firstn app]. cbn [nth] in L. specialize (IH i L).
    change (skipn (S (S i)) (x :: l)) with (skipn (S i) l).
    cbn [filter]. destruct (negb x); cbn [length]; lia.
Qed.

Lemma compileHandler_ok : forall m main secs c i h,
  Ctx m main secs c -> nth_error (handlers m) i = Some h ->
  exists secs' c' p, compileHandler m i h c = Some (c', p)
    /\ Ctx m main secs' c'
    /\ (p = false -> c' = c /\ (resolve (visits c) h = None \/ In i (map fst secs)))
    /\ (p = true -> undone (done c') < undone (done c))
    /\ (p = false -> secs' = secs).
Proof.
  intros m main secs c i h [B [L [D DI]]] Hh.
  assert (Li : i < length (handlers m)) by (apply nth_error_Some; congruence).
  unfold compileHandler. fold (resolve (visits c) h).
  destruct (resolve (visits c) h) as [st|] eqn:R.
  2:{ exists secs, c, false. split; [reflexivity|]. split; [split; [exact B|]; auto|].
      split; [auto|]. split; [discriminate|auto]. }
  destruct (nth i (done c) true) eqn:Dn.
  { exists secs, c, false. split; [reflexivity|]. split; [split; [exact B|]; auto|].
    split; [auto|]. split; [discriminate|auto]. }
  destruct (comp_total (S (S (length (code m)))) m (hip h) true (visits c)) as [es [v' C]].
  { pose proof (unvisited_le m (visits c)). lia. }
  rewrite C. destruct (comp_emits _ _ _ _ _ _ _ C) as [its [EM ->]].
  set (x := mkSec m st h its).
  assert (FE : PushExceptionHandlerEvent st (handlerEnd st h)
               :: clearStack m ++ PushContextEvent :: flat its ++ [PopContextEvent; PopContextEvent]
               = flat_map flatSec [x]).
  { cbn [flat_map flatSec x mkSec]. unfold mkSec, flatSec, secItems. rewrite app_nil_r.
    rewrite flat_app, flat_clr. cbn [flat]. rewrite flat1_ctx, app_nil_r.
    rewrite <- !app_assoc. cbn [app]. rewrite <- app_assoc. reflexivity. }
  rewrite FE. unfold pass. rewrite (calc_secs v' _ _ [x]) by lia.
  unfold runSecs. cbn [fold_left].
  assert (LL : log c ++ flat_map flatSec [x] = logOf main (map snd (secs ++ [(i, x)]))).
  { rewrite L. unfold logOf. rewrite map_app, flat_map_app, app_assoc. reflexivity. }
  exists (secs ++ [(i, x)]). eexists. exists true. split; [reflexivity|]. split.
  { split; [|split; [|split]]; cbn [visits cs log done].
    - rewrite LL. eapply built_sec; eassumption.
    - exact LL.
    - rewrite length_set; [exact D|lia].
    - intros j Lj H. rewrite nth_set in H by lia. rewrite map_app. apply in_or_app. cbn.
      destruct (Nat.eqb_spec j i) as [->|N]; [right; left; reflexivity|]. left. apply DI; assumption. }
  split; [discriminate|]. split; [|discriminate].
  intros _. cbn [done]. pose proof (undone_set (done c) i Dn). lia.
Qed.

Lemma handlerRound_ok : forall m main hs i secs c,
  Ctx m main secs c -> (forall j h, nth_error hs j = Some h -> nth_error (handlers m) (i + j) = Some h) ->
  exists secs' c' p, handlerRound m i hs c = Some (c', p)
    /\ Ctx m main secs' c'
    /\ (p = false -> c' = c /\ secs' = secs /\ forall j h, nth_error hs j = Some h ->
                       resolve (visits c) h = None \/ In (i + j) (map fst secs))
    /\ undone (done c') <= undone (done c)
    /\ (p = true -> undone (done c') < undone (done c)).
Proof.
  induction hs as [|h hs IH]; intros i secs c CX H; cbn [handlerRound].
  - exists secs, c, false. split; [reflexivity|]. split; [exact CX|]. split.
    + intros _. split; [reflexivity|]. split; [reflexivity|]. intros [|j] h E; discriminate.
    + split; [lia|discriminate].
  - assert (H0 : nth_error (handlers m) i = Some h).
    { specialize (H 0 h eq_refl). rewrite Nat.add_0_r in H. exact H. }
    destruct (compileHandler_ok m main secs c i h CX H0) as (secs1 & c1 & p & -> & CX1 & P1 & P2 & P3).
    destruct (IH (S i) secs1 c1 CX1) as (secs2 & c2 & q & -> & CX2 & Q1 & Q2 & Q3).
    { intros j h' E. specialize (H (S j) h' E). rewrite <- Nat.add_succ_comm in H. exact H. }
    exists secs2, c2, (p || q). split; [reflexivity|]. split; [exact CX2|].
    destruct p.
    + split; [discriminate|]. specialize (P2 eq_refl). split; [lia|]. intros _. lia.
    + destruct (P1 eq_refl) as [-> P1']. specialize (P3 eq_refl). subst secs1. cbn [orb].
      split; [|split; assumption].
      intros ->. destruct (Q1 eq_refl) as (-> & -> & Q). split; [reflexivity|]. split; [reflexivity|].
      intros [|j] h' E; cbn in E.
      * injection E as <-. rewrite Nat.add_0_r. exact P1'.
      * rewrite <- Nat.add_succ_comm. apply Q. exact E.
Qed.

Lemma handlerLoop_ok : forall m main fuel secs c,
  Ctx m main secs c -> undone (done c) < fuel ->
  exists secs' c', handlerLoop fuel m c = Some c' /\ Ctx m main secs' c'
    /\ forall i h, nth_error (handlers m) i = Some h ->
         resolve (visits c') h = None \/ In i (map fst secs').
Proof.
  induction fuel as [|f IH]; intros secs c CX L; [lia|].
  cbn [handlerLoop].
  destruct (handlerRound_ok m main (handlers m) 0 secs c CX) as (secs1 & c1 & p & -> & CX1 & Q1 & Q2 & Q3).
  { auto. }
  destruct p.
  - apply (IH secs1); [exact CX1|]. specialize (Q3 eq_refl). lia.
  - destruct (Q1 eq_refl) as (-> & -> & Q). exists secs, c. split; [reflexivity|]. split; [exact CX1|].
    intros i h E. apply (Q i h E).
Qed.

Theorem compileCode_ok : forall m,
  exists mi secs c v0,
    compileCode m = Some c
    /\ emits m 0 false (fun _ => 0) mi v0
    /\ Ctx m (parItems (params m) ++ mi) secs c
    /\ (forall i h, nth_error (handlers m) i = Some h ->
          resolve (visits c) h = None \/ In i (map fst secs))
    /\ comp (S (S (length (code m)))) m 0 false (fun _ => 0) = Some (flat mi, v0).
Proof.
  intros m. unfold compileCode.
  destruct (comp_total (S (S (length (code m)))) m 0 false (fun _ => 0)) as [es [v C]].
  { pose proof (unvisited_le m (fun _ => 0)). lia. }
  rewrite C. destruct (comp_emits _ _ _ _ _ _ _ C) as [mi [EM ->]].
  rewrite <- flat_par, <- flat_app. unfold pass.
  pose proof (calc_log v (N.ones (mapBits m)) (traceLog (flat (parItems (params m) ++ mi)))
                (parItems (params m) ++ mi) [] (initialState m)) as CL.
  cbn [flat_map] in CL. rewrite app_nil_r in CL. rewrite CL. unfold runSecs. cbn [fold_left].
  destruct (handlerLoop_ok m (parItems (params m) ++ mi) (S (length (handlers m))) []
     {| log := flat (parItems (params m) ++ mi); visits := v;
        done := repeat false (length (handlers m));
        cs := snd (run v true (parItems (params m) ++ mi) 0%N (initialState m)) |})
    as (secs & c & -> & CX & Q).
  { split; [|split; [|split]]; cbn [visits cs log done].
    - constructor. exact EM.
    - unfold logOf. cbn [map flat_map]. rewrite app_nil_r. reflexivity.
    - apply repeat_length.
    - intros i Li H. exfalso. rewrite nth_indep with (d' := false) in H by (rewrite repeat_length; exact Li).
      rewrite nth_repeat in H. discriminate. }
  { cbn [done]. unfold undone. apply Nat.lt_succ_r.
    pose proof (filter_length_le negb (repeat false (length (handlers m)))) as F.
    rewrite repeat_length in F. exact F. }
  exists mi, secs, c, v. split; [reflexivity|]. split; [exact EM|]. split; [exact CX|]. split; [intros i h E; exact (Q i h E)|reflexivity].
Qed.

(** Facts about [resolve]. *)
Lemma resolve_spec : forall fuel v a b, b - a < fuel ->
  match resolveIpForwards fuel v a b with
  | Some st => a <= st < b /\ 0 < v st /\ forall x, a <= x < st -> v x = 0
  | None => forall x, a <= x < b -> v x = 0
  end.
Proof.
  induction fuel as [|f IH]; intros v a b L; [lia|]. cbn [resolveIpForwards].
  destruct (Nat.ltb_spec a b) as [Lab|Lab]; [|intros; lia].
  destruct (Nat.eqb_spec (v a) 0) as [E|E].
  - specialize (IH v (S a) b). destruct (resolveIpForwards f v (S a) b) as [st|].
    + destruct IH as [H1 [H2 H3]]; [lia|]. split; [lia|]. split; [exact H2|].
      intros x Hx. destruct (Nat.eq_dec x a) as [->|]; [exact E|]. apply H3. lia.
    + intros x Hx. destruct (Nat.eq_dec x a) as [->|]; [exact E|]. apply IH; lia.
  - split; [lia|]. split; [lia|]. intros; lia.
Qed.
