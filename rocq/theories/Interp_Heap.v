(** How object memory represents the JVM heap: fields and array components in little-endian
    bytes. *)
From Verif Require Import Base Res Bits Interp_Types Interp_Model Jvm_Spec Interp_Obs Interp_Spec Interp_Rel Interp_Rel2 Interp_Rel3.
Import ListNotations.
Local Open Scope N_scope.
Local Open Scope res_scope.

(** * Bytes *)
Lemma length_lebytes : forall n v, length (lebytes n v) = n.
Proof. induction n as [|n IH]; intros v; cbn [lebytes length]; [reflexivity|]. rewrite IH. reflexivity. Qed.

Lemma leval_lebytes : forall n v, leval (lebytes n v) = v mod 256 ^ N.of_nat n.
Proof.
  induction n as [|n IH]; intros v; cbn [lebytes leval].
  - change (256 ^ N.of_nat 0) with 1. rewrite N.mod_1_r. reflexivity.
  - rewrite IH. replace (N.of_nat (S n)) with (N.succ (N.of_nat n)) by lia. rewrite N.pow_succ_r'.
    rewrite N.mod_mul_r by (try apply N.pow_nonzero; lia). reflexivity.
Qed.

Lemma rd_wr_same : forall b off n v b', wrBytes b off n v = Ok b' -> rdBytes b' off n = Ok (v mod 256 ^ n) /\ blen b' = blen b.
Proof.
  intros b off n v b' H. unfold wrBytes in H. destruct (N.leb_spec (off + n) (blen b)) as [L|]; [|discriminate].
  injection H as <-. unfold blen in *.
  assert (BL : blen (firstn (N.to_nat off) b ++ lebytes (N.to_nat n) v ++ skipn (N.to_nat (off + n)) b) = blen b).
  { unfold blen. rewrite !app_length, length_lebytes, firstn_length, skipn_length. lia. }
  unfold blen in BL. split; [|exact BL].
  unfold rdBytes, blen. rewrite BL. replace (off + n <=? N.of_nat (length b)) with true by lia. f_equal.
  rewrite skipn_app, firstn_length. rewrite skipn_all2 by (rewrite firstn_length; lia). cbn [app].
  replace (N.to_nat off - Nat.min (N.to_nat off) (length b))%nat with 0%nat by lia. cbn [skipn].
  rewrite firstn_app, length_lebytes. rewrite firstn_all2 by (rewrite length_lebytes; lia).
  replace (N.to_nat n - N.to_nat n)%nat with 0%nat by lia. cbn [firstn]. rewrite app_nil_r.
  rewrite leval_lebytes. rewrite N2Nat.id. reflexivity.
Qed.

(** Bytes off .. off+n-1 as a list of lookups *)
Lemma firstn_skipn_ext : forall n off (a b : list N),
  length a = length b ->
  (forall i, (off <= i < off + n)%nat -> nth_error a i = nth_error b i) ->
  firstn n (skipn off a) = firstn n (skipn off b).
Proof.
  intros n off a b Hl H.
  assert (G : forall n (a b : list N), length a = length b -> (forall i, (i < n)%nat -> nth_error a i = nth_error b i) -> firstn n a = firstn n b).
  { clear. induction n as [|n IH]; intros a b L H; [reflexivity|].
    destruct a, b; try discriminate; [reflexivity|]. cbn [firstn].
    pose proof (H 0%nat ltac:(lia)) as H0. cbn in H0. injection H0 as ->. f_equal. apply IH; [cbn in L; lia|].
    intros i Hi. apply (H (S i)). lia. }
  apply G.
  - rewrite !skipn_length. lia.
  - intros i Hi.
    assert (K : forall k (l : list N) i, nth_error (skipn k l) i = nth_error l (k + i)).
    { clear. induction k as [|k IH]; intros l i; [reflexivity|]. destruct l; [destruct i; reflexivity|]. cbn. apply IH. }
    rewrite !K. apply H. lia.
Qed.

Lemma nth_error_wr : forall b off n v b' i, wrBytes b off n v = Ok b' ->
  (N.of_nat i < off \/ off + n <= N.of_nat i) -> nth_error b' i = nth_error b i.
Proof.
  intros b off n v b' i H O. unfold wrBytes in H. destruct (N.leb_spec (off + n) (blen b)) as [L|]; [|discriminate].
  injection H as <-. unfold blen in L.
  rewrite <- (firstn_skipn (N.to_nat off) b) at 3.
  destruct O as [O|O].
  - rewrite !nth_error_app1 by (rewrite firstn_length; lia). reflexivity.
  - rewrite !nth_error_app2 by (rewrite ?length_lebytes, firstn_length; lia).
    rewrite length_lebytes, firstn_length.
    assert (K : forall k (l : list N) i, nth_error (skipn k l) i = nth_error l (k + i)).
    { clear. induction k as [|k IH]; intros l i; [reflexivity|]. destruct l; [destruct i; reflexivity|]. cbn. apply IH. }
    rewrite !K. f_equal. lia.
Qed.

Lemma rd_wr_other : forall b off n v b' off' n', wrBytes b off n v = Ok b' ->
  off' + n' <= off \/ off + n <= off' -> rdBytes b' off' n' = rdBytes b off' n'.
Proof.
  intros b off n v b' off' n' H O. pose proof (rd_wr_same _ _ _ _ _ H) as [_ L].
  unfold rdBytes. rewrite L. destruct (off' + n' <=? blen b) eqn:C; [|reflexivity]. f_equal. f_equal.
  apply firstn_skipn_ext.
  - unfold blen in L. lia.
  - intros i Hi. eapply nth_error_wr; [eassumption|]. lia.
Qed.

Lemma rd_zero : forall k off n, off + n <= k -> rdBytes (repeat 0 (N.to_nat k)) off n = Ok 0.
Proof.
  intros k off n H. unfold rdBytes, blen. rewrite repeat_length.
  replace (off + n <=? N.of_nat (N.to_nat k)) with true by lia. f_equal.
  assert (G : forall l, Forall (fun b => b = 0) l -> leval l = 0).
  { clear. induction l as [|b l IH]; intros F; [reflexivity|]. inversion F; subst. cbn [leval]. rewrite IH by assumption. reflexivity. }
  apply G. apply Forall_forall. intros y Hy.
  assert (In y (repeat 0 (N.to_nat k))).
  { rewrite <- (firstn_skipn (N.to_nat off) (repeat 0 (N.to_nat k))). apply in_or_app. right.
    rewrite <- (firstn_skipn (N.to_nat n) (skipn (N.to_nat off) (repeat 0 (N.to_nat k)))). apply in_or_app. left. exact Hy. }
  eapply repeat_spec. eassumption.
Qed.

(** * Encodings *)
Lemma fits_valOk : forall k v, fits k v -> valOk v.
Proof.
  intros k v H. destruct k, v; cbn [fits valOk] in *; try contradiction; try assumption.
  - apply inI32. lia.
  - apply inI_8_32; assumption.
  - apply inI32. change (2 ^ 16)%Z with 65536%Z in H. lia.
  - apply inI_16_32; assumption.
Qed.

Lemma fits_default : forall k, fits k (defaultOf k) /\ kenc k (defaultOf k) = 0.
Proof. destruct k; split; vm_compute; auto; intuition discriminate. Qed.

Lemma ubits_small : forall w z, (0 < w)%Z -> (0 <= z < 2 ^ w)%Z -> ubits w z = Z.to_N z.
Proof. intros w z Hw H. unfold ubits. rewrite Z.mod_small by assumption. reflexivity. Qed.

Lemma mod_mod_pow : forall z a b, (0 < b <= a)%Z -> ((z mod 2 ^ a) mod 2 ^ b = z mod 2 ^ b)%Z.
Proof.
  intros z a b H. symmetry. apply Znumtheory.Zmod_div_mod; try (apply Z.pow_pos_nonneg; lia).
  exists (2 ^ (a - b))%Z. rewrite <- Z.pow_add_r by lia. f_equal. lia.
Qed.

Lemma to_N_mod : forall a b, (0 <= a)%Z -> (0 < b)%Z -> Z.to_N a mod Z.to_N b = Z.to_N (a mod b).
Proof. intros. rewrite Z2N.inj_mod by lia. reflexivity. Qed.

Lemma ubits_mod : forall w w' z, (0 < w' <= w)%Z -> ubits w z mod 2 ^ Z.to_N w' = ubits w' z.
Proof.
  intros w w' z H. unfold ubits. destruct (pow_half w ltac:(lia)). destruct (pow_half w' ltac:(lia)).
  replace (2 ^ Z.to_N w') with (Z.to_N (2 ^ w')).
  - rewrite to_N_mod by (try apply Z.mod_pos_bound; lia). rewrite mod_mod_pow by lia. reflexivity.
  - rewrite Z2N.inj_pow by lia. reflexivity.
Qed.

(** What a store leaves: the low bytes of the popped bits encode the narrowed value. *)
Lemma narrow_enc : forall k v w, valOk v -> narrow k v = Some w ->
  (forall z, k = KBool -> v = VInt z -> notBool z = false) ->
  fits k w /\ valBits v mod 256 ^ ksize k = kenc k w.
Proof.
  intros k v w VO H NB. destruct k, v; cbn [narrow] in H; try discriminate; injection H as <-; cbn [valBits ksize valOk] in *.
  - specialize (NB z eq_refl eq_refl). unfold notBool in NB.
    assert (z = 0 \/ z = 1)%Z as [-> | ->] by lia; vm_compute; auto.
  - split; [apply sgn_range; lia|]. change (256 ^ 1) with (2 ^ Z.to_N 8). rewrite ubits_mod by lia.
    cbn [kenc]. rewrite ubits_sgn by lia. reflexivity.
  - split; [cbn [fits]; change (2 ^ 16)%Z with 65536%Z; lia|]. change (256 ^ 2) with (2 ^ Z.to_N 16).
    rewrite ubits_mod by lia. cbn [kenc]. unfold ubits. rewrite Z.mod_mod by lia. reflexivity.
  - split; [apply sgn_range; lia|]. change (256 ^ 2) with (2 ^ Z.to_N 16). rewrite ubits_mod by lia.
    cbn [kenc]. rewrite ubits_sgn by lia. reflexivity.
  - split; [assumption|]. apply N.mod_small. apply u32_lt.
  - split; [assumption|]. apply N.mod_small. apply u64_lt.
  - split; [assumption|]. apply N.mod_small. assumption.
  - split; [assumption|]. apply N.mod_small. assumption.
  - split; [assumption|]. apply N.mod_small. assumption.
Qed.

Lemma u8_s8 : forall z, inI 8 z = true -> s8 (u8 z) = z.
Proof. intros z H. apply sbits_ubits; [lia|assumption]. Qed.
Lemma u16_s16 : forall z, inI 16 z = true -> s16 (u16 z) = z.
Proof. intros z H. apply sbits_ubits; [lia|assumption]. Qed.

Section Push.
Variables (E : env) (bot : Z) (x : N).

Lemma arrPush_ok : forall s i h lg f rest st k v,
  Rst E bot x s i h lg (wst f st) rest -> fits k v -> depth (v :: st) <= maxSt E f ->
  exists s', arrPush s k (kenc k v) = Ok s' /\ Rst E bot x s' i h lg (wst f (v :: st)) rest.
Proof.
  intros s i h lg f rest st k v H F D. pose proof (fits_valOk _ _ F) as VO.
  destruct k, v; cbn [fits] in F; try contradiction; unfold arrPush, kenc.
  - apply pushInt_ok with (v := VInt z); auto. cbn [valBits]. destruct F as [-> | ->]; reflexivity.
  - rewrite u8_s8 by assumption. apply pushInt_ok with (v := VInt z); auto.
  - apply pushInt_ok with (v := VInt z); auto. cbn [valBits].
    rewrite !ubits_small; lia.
  - rewrite u16_s16 by assumption. apply pushInt_ok with (v := VInt z); auto.
  - cbn [valBits]. rewrite sbits_ubits by (lia || assumption). apply pushInt_ok with (v := VInt z); auto.
  - apply pushLong_ok with (v := VLong z); auto.
  - apply pushInt_ok with (v := VFlt bits); auto.
  - apply pushLong_ok with (v := VDbl bits); auto.
  - apply pushObject_ok; auto.
Qed.

Definition pushFieldBits (s : cst) (k : kind) (v : N) : res cst :=
  match k with
  | KByte | KBool => pushInt s (u32 (s8 v))
  | KChar | KShort => pushInt s (u32 (s16 v))
  | KFlt | KInt => pushInt s (u32 (s32 v))
  | KDbl | KLong => pushLong s (u64 (s64 v))
  | KRef => pushObject s v
  end.

Lemma pushFieldBits_ok : forall s i h lg f rest st k v,
  Rst E bot x s i h lg (wst f st) rest -> fits k v -> depth (v :: st) <= maxSt E f ->
  (forall z, k = KChar -> v = VInt z -> (z < 2 ^ 15)%Z) ->
  exists s', pushFieldBits s k (kenc k v) = Ok s' /\ Rst E bot x s' i h lg (wst f (v :: st)) rest.
Proof.
  intros s i h lg f rest st k v H F D NC. pose proof (fits_valOk _ _ F) as VO.
  destruct k, v; cbn [fits] in F; try contradiction; unfold pushFieldBits, kenc.
  - apply pushInt_ok with (v := VInt z); auto. cbn [valBits]. destruct F as [-> | ->]; reflexivity.
  - rewrite u8_s8 by assumption. apply pushInt_ok with (v := VInt z); auto.
  - rewrite u16_s16; [apply pushInt_ok with (v := VInt z); auto|].
    specialize (NC z eq_refl eq_refl). unfold inI, minI, maxI. change (2 ^ (16 - 1))%Z with 32768%Z.
    change (2 ^ 15)%Z with 32768%Z in NC. lia.
  - rewrite u16_s16 by assumption. apply pushInt_ok with (v := VInt z); auto.
  - cbn [valBits]. rewrite sbits_ubits by (lia || assumption). apply pushInt_ok with (v := VInt z); auto.
  - cbn [valBits]. rewrite sbits_ubits by (lia || assumption). apply pushLong_ok with (v := VLong z); auto.
  - cbn [valBits]. rewrite ubits_sbits; [apply pushInt_ok with (v := VFlt bits); auto | lia |].
    change (2 ^ 32)%Z with (Z.of_N (2 ^ 32)). cbn [valOk] in F; lia.
  - cbn [valBits]. rewrite ubits_sbits; [apply pushLong_ok with (v := VDbl bits); auto | lia |].
    change (2 ^ 64)%Z with (Z.of_N (2 ^ 64)). cbn [valOk] in F; lia.
  - apply pushObject_ok; auto.
Qed.
End Push.

(** * Objects and heaps *)
Section Heap.
Variable E : env.
Hypothesis WF : wfEnv E.

Lemma kbytes_ksize : forall k, kbytes k = ksize k.
Proof. destruct k; reflexivity. Qed.

Lemma hrel_at : forall h jh a y, hrel E h jh -> jobjs jh a = Some y -> exists o, objs h a = Some o /\ objRel E o y.
Proof.
  intros h jh a y (_ & _ & H) J. specialize (H a). rewrite J in H. destruct (objs h a); [|contradiction]. eauto.
Qed.

Lemma hrel_class : forall h jh a k, hrel E h jh -> jclass jh a = Some k -> objectClass h a = Ok k.
Proof.
  intros h jh a k H J. unfold jclass in J. destruct (jobjs jh a) as [y|] eqn:Y; [|discriminate].
  destruct (hrel_at _ _ _ _ H Y) as (o & O & R). unfold objectClass, objAt. rewrite O. cbn [of_option bind].
  destruct y, o; cbn [objRel] in R; try contradiction; injection J as <-; destruct R as [-> _]; reflexivity.
Qed.

Lemma hrel_set : forall h jh a o y, hrel E h jh -> objRel E o y ->
  hrel E (setObj h a o) (jset jh a y).
Proof.
  intros h jh a o y (H1 & H2 & H) R. split; [exact H1|]. split; [exact H2|].
  intros b. cbn [objs jobjs setObj jset]. destruct (b =? a); [exact R|apply H].
Qed.

Lemma hrel_alloc : forall h jh o y, hrel E h jh -> jnext jh < 2 ^ 63 -> objRel E o y ->
  fst (alloc h o) = fst (jalloc jh y) /\ hrel E (snd (alloc h o)) (snd (jalloc jh y)).
Proof.
  intros h jh o y (H1 & H2 & H) L R. cbn [alloc jalloc fst snd]. split; [exact H1|].
  split; [cbn; lia|]. split; [cbn [jnext]; lia|].
  intros b. cbn [objs jobjs]. rewrite H1. destruct (b =? jnext jh); [exact R|apply H].
Qed.

Lemma newInst_rel : forall c, objRel E (zeroInst E c) (newInst E c).
Proof.
  intros c. unfold zeroInst, newInst, objRel. split; [reflexivity|]. split.
  - unfold blen. rewrite repeat_length. lia.
  - intros id v H. destruct (find (fun f => f_id f =? id) (e_layout E c)) as [f|] eqn:F; [|discriminate].
    cbn [option_map] in H. injection H as <-. apply find_some in F. destruct F as [F1 F2].
    exists f. split; [assumption|]. split; [lia|]. destruct (fits_default (f_kind f)) as [D1 D2].
    split; [assumption|]. rewrite D2. apply rd_zero. pose proof (we_inside E WF c f F1). rewrite kbytes_ksize in *. lia.
Qed.

Lemma newArr_rel : forall c k n, (c =? e_arrayClass E KBool) = keqb k KBool -> n < 2 ^ 31 ->
  objRel E (zeroArr c k n) (newArr c k n).
Proof.
  intros c k n HC HN. unfold zeroArr, newArr, objRel, arrRel. split; [reflexivity|].
  rewrite repeat_length. split; [lia|]. split; [assumption|]. split; [unfold blen; rewrite repeat_length; lia|].
  split; [assumption|]. intros i v H.
  assert (L : (i < N.to_nat n)%nat).
  { rewrite <- (repeat_length (defaultOf k) (N.to_nat n)). apply nth_error_Some. congruence. }
  apply nth_error_In, repeat_spec in H. subst v. destruct (fits_default k) as [D1 D2].
  split; [assumption|]. rewrite D2. apply rd_zero. nia.
Qed.

Lemma instRel_field : forall m i c b fl v,
  instRel E c b fl -> fl (f_id (e_resolveField E m i)) = Some v ->
  let f := e_resolveField E m i in
  In f (e_layout E c) /\ fits (f_kind f) v /\ rdBytes b (f_off f) (ksize (f_kind f)) = Ok (kenc (f_kind f) v).
Proof.
  intros m i c b fl v (_ & H) J f. destruct (H _ _ J) as (g & G1 & G2 & G3 & G4).
  pose proof (we_field E WF m i c g G1 G2) as ->. auto.
Qed.

Lemma instRel_put : forall m i c b fl v0 v w,
  instRel E c b fl -> let f := e_resolveField E m i in fl (f_id f) = Some v0 ->
  valOk v -> narrow (f_kind f) v = Some w ->
  (forall z, f_kind f = KBool -> v = VInt z -> notBool z = false) ->
  exists b', wrBytes b (f_off f) (ksize (f_kind f)) (valBits v) = Ok b' /\
             instRel E c b' (fun j => if j =? f_id f then Some w else fl j).
Proof.
  intros m i c b fl v0 v w R f J VO NW NB. pose proof (instRel_field m i _ _ _ _ R J) as (IN & _ & RD). fold f in IN, RD.
  destruct R as [BL R].
  destruct (wrBytes b (f_off f) (ksize (f_kind f)) (valBits v)) as [b'| | |] eqn:W.
  2-4: unfold wrBytes in W; unfold rdBytes in RD; destruct (_ <=? _); discriminate.
  exists b'. split; [reflexivity|]. destruct (rd_wr_same _ _ _ _ _ W) as [RS BL']. split; [congruence|].
  destruct (narrow_enc _ _ _ VO NW NB) as [FT EN].
  intros id v' Hv. destruct (N.eqb_spec id (f_id f)) as [->|Nid].
  - injection Hv as <-. exists f. split; [assumption|]. split; [reflexivity|]. split; [assumption|]. rewrite RS, EN. reflexivity.
  - destruct (R id v' Hv) as (g & G1 & G2 & G3 & G4). exists g. split; [assumption|]. split; [assumption|]. split; [assumption|].
    rewrite <- G4. eapply rd_wr_other; [eassumption|].
    destruct (we_disjoint E WF c f g IN G1 ltac:(congruence)); rewrite !kbytes_ksize in *; lia.
Qed.

Lemma nth_error_replace : forall l i v j, (i < length l)%nat ->
  nth_error (replace l i v) j = if (j =? i)%nat then Some v else nth_error l j.
Proof.
  intros l i v j L. unfold replace.
  destruct (Nat.eqb_spec j i) as [->|Ne].
  - rewrite nth_error_app2 by (rewrite firstn_length; lia). rewrite firstn_length.
    replace (i - Nat.min i (length l))%nat with 0%nat by lia. reflexivity.
  - destruct (Nat.lt_ge_cases j i).
    + rewrite nth_error_app1 by (rewrite firstn_length; lia).
      rewrite <- (firstn_skipn i l) at 2. rewrite nth_error_app1 by (rewrite firstn_length; lia). reflexivity.
    + rewrite nth_error_app2 by (rewrite firstn_length; lia). rewrite firstn_length.
      destruct (j - Nat.min i (length l))%nat as [|q] eqn:Q; [lia|]. cbn [nth_error].
      assert (K : forall k (l : list val) i, nth_error (skipn k l) i = nth_error l (k + i)).
      { clear. induction k as [|k IH]; intros l i; [reflexivity|]. destruct l; [destruct i; reflexivity|]. cbn. apply IH. }
      rewrite K. f_equal. lia.
Qed.

Lemma length_replace : forall l i v, (i < length l)%nat -> length (replace l i v) = length l.
Proof.
  intros l i v L. unfold replace. rewrite app_length, firstn_length. cbn [length]. rewrite skipn_length. lia.
Qed.

Lemma ksize_pos : forall k, 1 <= ksize k.
Proof. destruct k; cbn; lia. Qed.

Lemma arrRel_put : forall c n b k els i v w,
  arrRel E c n b k els -> (i < length els)%nat -> valOk v -> narrow k v = Some w ->
  (forall z, k = KBool -> v = VInt z -> notBool z = false) ->
  exists b', wrBytes b (N.of_nat i * ksize k) (ksize k) (valBits v) = Ok b' /\ arrRel E c n b' k (replace els i w).
Proof.
  intros c n b k els i v w (R1 & R2 & R3 & R4 & R5) L VO NW NB. pose proof (ksize_pos k) as KP.
  assert (IB : N.of_nat i * ksize k + ksize k <= blen b).
  { rewrite R3, R1. nia. }
  destruct (wrBytes b (N.of_nat i * ksize k) (ksize k) (valBits v)) as [b'| | |] eqn:W.
  2-4: unfold wrBytes in W; replace (_ <=? _) with true in W by lia; discriminate.
  exists b'. split; [reflexivity|]. destruct (rd_wr_same _ _ _ _ _ W) as [RS BL'].
  destruct (narrow_enc _ _ _ VO NW NB) as [FT EN].
  split; [rewrite length_replace by assumption; assumption|]. split; [assumption|]. split; [congruence|]. split; [assumption|].
  intros j u Hu. rewrite nth_error_replace in Hu by assumption. destruct (Nat.eqb_spec j i) as [->|Ne].
  - injection Hu as <-. split; [assumption|]. rewrite RS, EN. reflexivity.
  - destruct (R5 j u Hu) as [F1 F2]. split; [assumption|]. rewrite <- F2. eapply rd_wr_other; [eassumption|].
    destruct (Nat.lt_ge_cases j i); nia.
Qed.
End Heap.
