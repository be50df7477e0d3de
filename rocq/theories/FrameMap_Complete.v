(** Every bit that is clear in a map is clear because of some path. *)
From Verif Require Import Base FrameMap_Model FrameMap_Spec FrameMap_Proofs FrameMap_Log FrameMap_Sound FrameMap_Fix.
Local Open Scope nat_scope.

Section Complete.
Variable m : method.
Hypothesis HB : handlersByException m.

Definition zeros (r : N) (P : slots -> Prop) : Prop :=
  forall j, (j < mapBits m)%N -> N.testbit r j = false -> exists s, P s /\ s j = false.
Definition good (r : N) (P : slots -> Prop) : Prop := (exists s, P s) /\ zeros r P.

(** The states at an instruction before the exception has been pushed. *)
Definition reachX (ip : nat) (s : slots) : Prop :=
  if isHandler m ip then exists s', reach m ip s' /\ forall j, j <> localSize m -> s' j = s j
  else reach m ip s.
(** The states after a prefix of what is done at an instruction. *)
Definition mid (ip : nat) (pre : list effect) (s : slots) : Prop :=
  if isHandler m ip then
    match pre with
    | [] => reachX ip s
    | _ :: pre' => exists s0, reach m ip s0 /\ s = after s0 pre'
    end
  else exists s0, reach m ip s0 /\ s = after s0 pre.

Definition Inv (s : cst) : Prop :=
  (forall ip, zeros (table s ip) (reachX ip)) /\ (forall e, zeros (maps s e) (at_ m e)).

Lemma reach_handler : forall ip s, reach m ip s -> isHandler m ip = true ->
  exists st, s = handlerSlots m st.
Proof.
  intros ip s H Hi. destruct H as [|ip ins s n Hr E Hn|ip k s h Ha Hh Hr].
  - destruct HB as [H0 _]. congruence.
  - destruct HB as [_ H1]. rewrite (H1 ip ins n E Hn) in Hi. discriminate.
  - eauto.
Qed.

Lemma good_land : forall r t (P Q : slots -> Prop), good r P -> (forall s, P s -> Q s) -> zeros t Q -> good (N.land t r) Q.
Proof.
  intros r t P Q [[s Hs] Z] H Zt. split; [eauto|]. intros j Lj Hj. rewrite N.land_spec in Hj.
  apply andb_false_iff in Hj. destruct Hj as [Hj|Hj]; [auto|]. destruct (Z j Lj Hj) as [s' [A B]]. eauto.
Qed.

Lemma Inv_table : forall s ip r d, Inv s -> zeros r (reachX ip) -> Inv (setTable s (upd (table s) ip r) d).
Proof.
  intros s ip r d [I1 I2] Z. split; [|exact I2]. intros x. cbn [table setTable]. unfold upd.
  destruct (Nat.eqb_spec x ip) as [->|]; [exact Z|apply I1].
Qed.
Lemma Inv_maps : forall s e r d, Inv s -> zeros r (at_ m e) -> Inv (setMaps s (updT (maps s) e r) d).
Proof.
  intros s e r d [I1 I2] Z. split; [exact I1|]. intros x. cbn [maps setMaps]. unfold updT.
  destruct (te_eqb_spec x e) as [->|]; [exact Z|apply I2].
Qed.

Lemma ipStep_good : forall vis ip last r s, good r (reachX ip) -> Inv s ->
  good (fst (ipStep vis ip last r s)) (reachX ip) /\ Inv (snd (ipStep vis ip last r s)).
Proof.
  intros vis ip last r s G I0. unfold ipStep. destruct (1 <? vis ip); cbn [fst snd].
  - assert (G' : good (N.land (table s ip) r) (reachX ip)).
    { eapply good_land; [exact G|auto|apply I0]. }
    rewrite land_absorb. split; [exact G'|]. apply Inv_table; [exact I0|apply G'].
  - split; [exact G|]. apply Inv_table; [exact I0|apply G].
Qed.

Lemma run_app2 : forall vis a b tail r s, exists t',
  run vis tail (a ++ b) r s = let (r', s') := run vis t' a r s in run vis tail b r' s'.
Proof.
  intros vis a [|x b] tail r s.
  - exists tail. rewrite app_nil_r. destruct (run vis tail a r s). reflexivity.
  - exists false. apply run_app. discriminate.
Qed.

Lemma good_step : forall ip pre e r, good r (mid ip pre) ->
  (isHandler m ip = true -> pre = [] -> e = EMark (localSize m)) ->
  good (napply1 r e) (mid ip (pre ++ [e])).
Proof.
  intros ip pre e r [[s0 Hs0] Z] He. unfold good, zeros, mid in *. destruct (isHandler m ip) eqn:Hi.
  - destruct pre as [|p pre].
    + rewrite (He eq_refl eq_refl). cbn [app napply1]. unfold reachX in Hs0, Z. rewrite Hi in Hs0, Z.
      split.
      * destruct Hs0 as [s' [R _]]. exists s'. exists s'. split; [exact R|reflexivity].
      * intros j Lj Hj. rewrite testbit_setbit in Hj. apply orb_false_elim in Hj. destruct Hj as [Hj1 Hj2].
        apply N.eqb_neq in Hj1. destruct (Z j Lj Hj2) as [s [[s' [R X]] F]].
        exists s'. split; [exists s'; auto|]. rewrite X; assumption.
    + cbn [app]. destruct Hs0 as [s1 [R ->]]. split.
      * exists (after s1 (pre ++ [e])), s1. auto.
      * intros j Lj Hj. unfold after in *. destruct e as [i|i|]; cbn [napply1] in Hj.
        -- rewrite testbit_setbit in Hj. apply orb_false_elim in Hj. destruct Hj as [Hj1 Hj2].
           destruct (Z j Lj Hj2) as [s [[s2 [R2 ->]] F]]. exists (after s2 (pre ++ [EMark i])). split; [exists s2; auto|].
           unfold after. rewrite fold_left_app. cbn [fold_left after1]. unfold put. rewrite Hj1. exact F.
        -- rewrite testbit_clearbit in Hj. apply andb_false_iff in Hj. destruct (j =? i)%N eqn:Q.
           ++ exists (after s1 (pre ++ [EClear i])). split; [exists s1; auto|].
              unfold after. rewrite fold_left_app. cbn [fold_left after1]. unfold put. rewrite Q. reflexivity.
           ++ destruct Hj as [Hj|Hj]; [discriminate|].
              destruct (Z j Lj Hj) as [s [[s2 [R2 ->]] F]]. exists (after s2 (pre ++ [EClear i])). split; [exists s2; auto|].
              unfold after. rewrite fold_left_app. cbn [fold_left after1]. unfold put. rewrite Q. exact F.
        -- destruct (Z j Lj Hj) as [s [[s2 [R2 ->]] F]]. exists (after s2 (pre ++ [ETrace])). split; [exists s2; auto|].
           unfold after. rewrite fold_left_app. exact F.
  - destruct Hs0 as [s1 [R ->]]. split.
    + exists (after s1 (pre ++ [e])), s1. auto.
    + intros j Lj Hj. unfold after in *. destruct e as [i|i|]; cbn [napply1] in Hj.
      * rewrite testbit_setbit in Hj. apply orb_false_elim in Hj. destruct Hj as [Hj1 Hj2].
        destruct (Z j Lj Hj2) as [s [[s2 [R2 ->]] F]]. exists (after s2 (pre ++ [EMark i])). split; [exists s2; auto|].
        unfold after. rewrite fold_left_app. cbn [fold_left after1]. unfold put. rewrite Hj1. exact F.
      * rewrite testbit_clearbit in Hj. apply andb_false_iff in Hj. destruct (j =? i)%N eqn:Q.
        -- exists (after s1 (pre ++ [EClear i])). split; [exists s1; auto|].
           unfold after. rewrite fold_left_app. cbn [fold_left after1]. unfold put. rewrite Q. reflexivity.
        -- destruct Hj as [Hj|Hj]; [discriminate|].
           destruct (Z j Lj Hj) as [s [[s2 [R2 ->]] F]]. exists (after s2 (pre ++ [EClear i])). split; [exists s2; auto|].
           unfold after. rewrite fold_left_app. cbn [fold_left after1]. unfold put. rewrite Q. exact F.
      * destruct (Z j Lj Hj) as [s [[s2 [R2 ->]] F]]. exists (after s2 (pre ++ [ETrace])). split; [exists s2; auto|].
        unfold after. rewrite fold_left_app. exact F.
Qed.

Lemma mid_trace : forall ip ins pre post, nth_error (code m) ip = Some ins ->
  own m (isHandler m ip) ins = pre ++ ETrace :: post ->
  forall s, mid ip pre s -> at_ m (ip, calls pre) s.
Proof.
  intros ip ins pre post E Ho s Hm. rewrite own_doing in Ho. unfold mid in Hm.
  destruct (isHandler m ip) eqn:Hi.
  - destruct pre as [|p pre]; [discriminate|]. cbn [app] in Ho. injection Ho as <- Ho.
    destruct Hm as [s0 [R ->]]. change (calls (EMark (localSize m) :: pre)) with (calls pre).
    eapply at_call; eassumption.
  - destruct Hm as [s0 [R ->]]. eapply at_call; eassumption.
Qed.

Lemma eff_good : forall vis ip ins, nth_error (code m) ip = Some ins -> forall es pre tail r s,
  own m (isHandler m ip) ins = pre ++ es -> good r (mid ip pre) -> Inv s ->
  good (fst (run vis tail (effItems ip (calls pre) es) r s)) (mid ip (own m (isHandler m ip) ins))
  /\ Inv (snd (run vis tail (effItems ip (calls pre) es) r s)).
Proof.
  intros vis ip ins E. induction es as [|e es IH]; intros pre tail r s Ho G I0.
  - cbn. rewrite app_nil_r in Ho. rewrite Ho. auto.
  - assert (He : isHandler m ip = true -> pre = [] -> e = EMark (localSize m)).
    { intros Hi ->. rewrite own_doing, Hi in Ho. cbn in Ho. congruence. }
    pose proof (good_step ip pre e r G He) as G'.
    assert (Ho' : own m (isHandler m ip) ins = (pre ++ [e]) ++ es) by (rewrite <- app_assoc; exact Ho).
    specialize (IH (pre ++ [e]) tail (napply1 r e)).
    destruct e as [i|i|]; cbn [effItems run run1 napply1] in *.
    + rewrite calls_app in IH. cbn in IH. rewrite Nat.add_0_r in IH. apply IH; assumption.
    + rewrite calls_app in IH. cbn in IH. rewrite Nat.add_0_r in IH. apply IH; assumption.
    + rewrite calls_app in IH. cbn in IH. rewrite Nat.add_1_r in IH. apply IH; [assumption|assumption|].
      apply Inv_maps; [exact I0|]. intros j Lj Hj. destruct (proj2 G j Lj Hj) as [s' [A B]].
      exists s'. split; [|exact B]. eapply mid_trace; eassumption.
Qed.

Lemma mid_succ : forall ip ins n, nth_error (code m) ip = Some ins -> In n (succs ins) ->
  forall s, mid ip (own m (isHandler m ip) ins) s -> reachX n s.
Proof.
  intros ip ins n E Hn s Hm. unfold reachX. rewrite (proj2 HB ip ins n E Hn).
  rewrite own_doing in Hm. unfold mid in Hm. destruct (isHandler m ip) eqn:Hi.
  - destruct Hm as [s0 [R ->]]. eapply reach_succ; eassumption.
  - destruct Hm as [s0 [R ->]]. eapply reach_succ; eassumption.
Qed.
Lemma good_sub : forall r (P Q : slots -> Prop), good r P -> (forall s, P s -> Q s) -> good r Q.
Proof.
  intros r P Q [[s Hs] Z] H. split; [eauto|]. intros j Lj Hj. destruct (Z j Lj Hj) as [s' [A B]]. eauto.
Qed.
Lemma mid_start : forall ip s, reachX ip s -> mid ip [] s.
Proof. intros ip s H. unfold mid, reachX in *. destruct (isHandler m ip); [exact H|]. exists s. auto. Qed.

Lemma emits_inv :
  (forall ip hs v its v', emits m ip hs v its v' -> hs = isHandler m ip ->
     forall vis tail r s, good r (reachX ip) -> Inv s -> Inv (snd (run vis tail its r s)))
  /\ (forall bs v its v', emitsB m bs v its v' -> (forall b, In b bs -> isHandler m b = false) ->
     forall vis tail r s, (forall b, In b bs -> good r (reachX b)) -> Inv s ->
       Inv (snd (run vis tail its r s)) /\ fst (run vis tail its r s) = r)
  /\ (forall n v its v', emitsN m n v its v' -> (forall b, n = Some b -> isHandler m b = false) ->
     forall vis tail r s, (forall b, n = Some b -> good r (reachX b)) -> Inv s ->
       Inv (snd (run vis tail its r s))).
Proof.
  apply emits_mut.
  - intros; assumption.
  - intros ip hs v ins E V _ vis tail r s G I0. cbn [run run1].
    pose proof (ipStep_good vis ip tail r s G I0) as X. destruct (ipStep vis ip tail r s) as [r' s']. apply X.
  - intros ip hs v ins bs v2 ns v3 E V B IHB N IHN -> vis tail r s G I0.
    cbn [run run1].
    match goal with |- context [ipStep vis ip ?b r s] =>
      pose proof (ipStep_good vis ip b r s G I0) as X; destruct (ipStep vis ip b r s) as [r' s'] end.
    cbn [fst snd] in X. destruct X as [G' I'].
    destruct (run_app2 vis (effItems ip 0 (own m (isHandler m ip) ins)) (bs ++ ns) tail r' s') as [t1 ->].
    pose proof (eff_good vis ip ins E (own m (isHandler m ip) ins) [] t1 r' s' eq_refl
                 (good_sub _ _ _ G' (mid_start ip)) I') as X. cbn [calls filter length] in X.
    change (calls []) with 0 in X.
    destruct (run vis t1 (effItems ip 0 (own m (isHandler m ip) ins)) r' s') as [r2 s2].
    cbn [fst snd] in X. destruct X as [G2 I2].
    destruct (run_app2 vis bs ns tail r2 s2) as [t2 ->].
    assert (Hs : forall n, In n (succs ins) -> isHandler m n = false) by (intros n; apply (proj2 HB ip ins n E)).
    assert (Hg : forall n, In n (succs ins) -> good r2 (reachX n)).
    { intros n Hn. eapply good_sub; [exact G2|]. apply mid_succ; assumption. }
    assert (SB : forall b, In b (branches ins) -> In b (succs ins)) by (intros; apply in_or_app; auto).
    assert (SN : forall b, next ins = Some b -> In b (succs ins)).
    { intros b Hb. unfold succs. rewrite Hb. apply in_or_app. right. left. reflexivity. }
    destruct (IHB (fun b Hb => Hs b (SB b Hb)) vis t2 r2 s2 (fun b Hb => Hg b (SB b Hb)) I2) as [I3 F3].
    destruct (run vis t2 bs r2 s2) as [r3 s3]. cbn [fst snd] in I3, F3. subst r3.
    apply IHN; [intros b Hb; apply Hs, SN; exact Hb|intros b Hb; apply Hg, SN; exact Hb|exact I3].
  - intros; split; [assumption|reflexivity].
  - intros b bs v its v1 r0 v2 E IHE B IHB Hb vis tail r s Hg I0.
    cbn [run]. rewrite run1_ctx. apply IHB; [intros c Hc; apply Hb; right; exact Hc|intros c Hc; apply Hg; right; exact Hc|].
    apply IHE; [symmetry; apply Hb; left; reflexivity|apply Hg; left; reflexivity|exact I0].
  - intros; assumption.
  - intros n v its v1 E IHE Hb vis tail r s Hg I0. apply IHE; [symmetry; apply Hb; reflexivity|apply Hg; reflexivity|exact I0].
Qed.

Hypothesis HL : handlersLive m.

Lemma par_run : forall vis ps tail r s,
  run vis tail (parItems ps) r s = (nxts (table s) (parItems ps) r, s).
Proof.
  intros vis. unfold nxts. induction ps as [|[i []] ps IH]; intros tail r s; cbn [parItems map run run1 fold_left nxt snd fst]; [reflexivity| |]; apply IH.
Qed.
Lemma clr_run : forall vis tail r s, run vis tail (clrItems m) r s = (nxts (table s) (clrItems m) r, s).
Proof.
  intros vis. unfold nxts, clrItems. generalize (seq 1 (N.to_nat (maxStack m) - 1)).
  induction l as [|i l IH]; intros tail r s; cbn [map run run1 fold_left nxt]; [reflexivity|]. apply IH.
Qed.

Lemma main_inv : forall mi v vis tail s, emits m 0 false (fun _ => 0) mi v -> Inv s ->
  Inv (snd (run vis tail (parItems (params m) ++ mi) 0%N s)).
Proof.
  intros mi v vis tail s E I0. destruct (run_app2 vis (parItems (params m)) mi tail 0%N s) as [t ->].
  rewrite par_run. apply (proj1 emits_inv _ _ _ _ _ E); [symmetry; apply HB| |exact I0].
  split.
  - exists (entrySlots m). unfold reachX. rewrite (proj1 HB). constructor.
  - intros j _ Hj. exists (entrySlots m). split; [unfold reachX; rewrite (proj1 HB); constructor|].
    unfold entrySlots.
    assert (G : forall ps r (st : slots), (N.testbit r j = false -> st j = false) ->
       N.testbit (nxts (table s) (parItems ps) r) j = false ->
       fold_left (fun s (p : N * bool) => put s (fst p) (snd p)) ps st j = false).
    { clear. unfold nxts. induction ps as [|[i b] ps IH]; intros r st H Hj; [auto|].
      cbn [parItems map fold_left fst snd] in *. eapply IH; [|exact Hj]. intros H0. unfold put.
      destruct b; cbn [nxt] in H0; [rewrite testbit_setbit in H0|rewrite testbit_clearbit in H0];
        destruct (j =? i)%N; cbn in H0; auto; discriminate. }
    eapply G; [|exact Hj]. reflexivity.
Qed.

Lemma sec_inv : forall vis tl i h st its v v' s, nth_error (handlers m) i = Some h -> hstart h <= st ->
  emits m (hip h) true v its v' -> Inv s -> Inv (runSec vis (ones m) tl (mkSec m st h its) s).
Proof.
  intros vis tl i h st its v v' s Hi Hst E I0. assert (HhI : In h (handlers m)) by (eapply nth_error_In; exact Hi).
  pose proof (isHandler_in m h HhI) as Ih.
  unfold mkSec. cbn [runSec]. destruct (tryCatchRoots tl st (handlerEnd st h) (ones m) s) as [r s1] eqn:TC.
  destruct (tcr_spec _ _ _ _ _ _ _ TC) as (A1 & A2 & A3 & A4 & A5 & A6).
  assert (I1 : Inv s1) by (destruct I0; split; rewrite ?A1, ?A2; assumption).
  unfold secItems. destruct (run_app2 vis (clrItems m) [ICtx its] true r s1) as [t ->].
  rewrite clr_run. cbn [run]. rewrite run1_ctx. cbn [snd].
  apply (proj1 emits_inv _ _ _ _ _ E); [symmetry; exact Ih| |exact I1].
  destruct (HL h HhI) as [s0 R0]. destruct (reach_handler _ _ R0 Ih) as [st0 E0].
  assert (RX : forall s', reach m (hip h) s' -> reachX (hip h) s').
  { intros s' R. unfold reachX. rewrite Ih. exists s'. auto. }
  split; [exists s0; apply RX; exact R0|].
  intros j Lj Hj. rewrite clr_nxts in Hj. apply andb_false_iff in Hj.
  destruct (((localSize m <? j) && (j <? localSize m + maxStack m))%N) eqn:Q.
  - exists s0. split; [apply RX; exact R0|]. rewrite E0. unfold handlerSlots. rewrite Q.
    destruct (N.eqb_spec j (localSize m)) as [->|]; [|reflexivity].
    apply andb_prop in Q. destruct Q as [Q _]. apply N.ltb_lt in Q. lia.
  - destruct Hj as [Hj|Hj]; [discriminate|].
    assert (W : exists e, In e tl /\ st <= fst e < handlerEnd st h /\ N.testbit (maps s e) j = false).
    { destruct (existsb (fun e => ((st <=? fst e) && (fst e <? handlerEnd st h)) && negb (N.testbit (maps s e) j)) tl) eqn:X.
      - apply existsb_exists in X. destruct X as [e [He X]]. apply andb_prop in X. destruct X as [X1 X2].
        apply andb_prop in X1. destruct X1 as [X1 X3]. apply Nat.leb_le in X1. apply Nat.ltb_lt in X3.
        apply negb_true_iff in X2. exists e. auto.
      - exfalso. rewrite A6 in Hj; [discriminate| |].
        + unfold ones. apply N.ones_spec_low. exact Lj.
        + intros e He Hr. destruct (N.testbit (maps s e) j) eqn:Y; [reflexivity|]. exfalso.
          assert (true = false); [|discriminate]. rewrite <- X. symmetry. apply existsb_exists. exists e. split; [exact He|].
          rewrite Y. destruct Hr as [Hr1 Hr2]. apply Nat.leb_le in Hr1. apply Nat.ltb_lt in Hr2. rewrite Hr1, Hr2. reflexivity. }
    destruct W as [[ip k] [He [Hr Hz]]]. cbn [fst] in Hr.
    assert (HE : handlerEnd st h <= hend h).
    { unfold handlerEnd. destruct ((st <=? hip h) && (hip h <? hend h)) eqn:Y; [|lia].
      apply andb_prop in Y. destruct Y as [_ Y]. apply Nat.ltb_lt in Y. lia. }
    destruct (proj2 I0 (ip, k) j Lj Hz) as [s2 [Ha Hf]].
    assert (R2 : reach m (hip h) (handlerSlots m s2)) by (eapply reach_throw; [exact Ha|exact HhI|lia]).
    exists (put (handlerSlots m s2) (localSize m) false). split.
    + unfold reachX. rewrite Ih. exists (handlerSlots m s2). split; [exact R2|].
      intros i0 Hi0. unfold put. apply N.eqb_neq in Hi0. rewrite Hi0. reflexivity.
    + unfold put, handlerSlots. destruct (j =? localSize m)%N eqn:Y; [reflexivity|]. rewrite Q. exact Hf.
Qed.

Lemma init_inv : Inv (initialState m).
Proof.
  split; intros x j Lj Hj; cbn [table maps initialState] in Hj; rewrite N.ones_spec_low in Hj by exact Lj; discriminate.
Qed.

Lemma built_inv : forall main secs v s, built m main secs v s -> Inv s.
Proof.
  intros main secs v s B. induction B as [mi v E|main secs v s i h st its v' B IH Hh R E].
  - eapply main_inv; [exact E|apply init_inv].
  - eapply sec_inv; try eassumption. pose proof (resolve_ok v h) as X. rewrite R in X. lia.
Qed.

Lemma full_inv : forall main secs0 v0 s0 vis tl t s, built m main secs0 v0 s0 -> Inv s ->
  Inv (runSecs vis (ones m) tl (map snd secs0) (snd (run vis t main 0%N s))).
Proof.
  intros main secs0 v0 s0 vis tl t s B I0. induction B as [mi v E|main secs v s' i h st its v' B IH Hh R E].
  - cbn [map]. unfold runSecs. cbn [fold_left]. eapply main_inv; eassumption.
  - rewrite map_app. unfold runSecs in *. rewrite fold_left_app. cbn [map fold_left snd].
    eapply sec_inv; try eassumption. pose proof (resolve_ok v h) as X. rewrite R in X. lia.
Qed.

Theorem frameMaps_misses_nothing : forall fuel f, frameMaps fuel m = Some f -> misses_nothing m f.
Proof.
  intros fuel f H. destruct (compileCode_ok m) as (mi & secs & c & v0 & CC & EM & CX & Q & CO).
  unfold frameMaps in H. rewrite CC in H. destruct CX as [B [L _]].
  destruct (dirtyLoop fuel m (traceLog (log c)) (visits c) (log c) (cs c)) as [s|] eqn:DL; [|discriminate].
  injection H as <-.
  assert (IS : Inv s).
  { pose proof (built_inv _ _ _ _ B) as I0. revert DL I0. generalize (cs c) as s0. rewrite L.
    induction fuel as [|f IH]; intros s0 DL I0; [discriminate|]. cbn [dirtyLoop] in DL.
    destruct (dirty s0); [|injection DL as <-; exact I0].
    rewrite pass_log in DL.
    eapply IH; [exact DL|]. eapply full_inv; [exact B|]. destruct I0; split; assumption. }
  intros e i Hex Li Hall. destruct (N.testbit (maps s e) i) eqn:T; [reflexivity|]. exfalso.
  assert (Lb : (i < mapBits m)%N).
  { unfold mapBits. pose proof (N.div_mod (localSize m + maxStack m + 63) 64 ltac:(discriminate)) as D.
    pose proof (N.mod_lt (localSize m + maxStack m + 63) 64 ltac:(discriminate)). lia. }
  destruct (proj2 IS e i Lb T) as [st [A F]]. specialize (Hall st A). congruence.
Qed.
End Complete.
