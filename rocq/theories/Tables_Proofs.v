From Verif Require Import Base Res Bits Tables_Model.
Local Open Scope N_scope.

Lemma shl64_small : forall x n, x < 2 ^ (64 - n) -> n <= 64 -> shl64 x n = x * 2 ^ n.
Proof.
  intros x n H Hn. unfold shl64, W64. rewrite N.shiftl_mul_pow2. apply N.mod_small.
  replace (2 ^ 64) with (2 ^ (64 - n) * 2 ^ n) by (rewrite <- N.pow_add_r; f_equal; lia).
  apply N.mul_lt_mono_pos_r; [|assumption]. apply pow2_pos.
Qed.

Lemma ones_land : forall x n, N.land x (N.ones n) = x mod 2 ^ n.
Proof. intros. apply N.land_ones. Qed.

Lemma exceptionHandler_sum : forall s e i c, s < 65536 -> e < 65536 -> i < 65536 -> c < 65536 ->
  exceptionHandler s e i c = ((s * 2 ^ 16 + e) * 2 ^ 16 + i) * 2 ^ 16 + c.
Proof.
  intros s e i c Hs He Hi Hc. unfold exceptionHandler.
  rewrite !shl64_small by (try (change (2 ^ (64 - 48)) with 65536); try (change (2 ^ (64 - 32)) with 4294967296);
    try (change (2 ^ (64 - 16)) with 281474976710656); lia).
  rewrite (lor_disjoint s (e * 2 ^ 32) 48) by (change (2 ^ 48) with 281474976710656; change (2 ^ 32) with 4294967296; lia).
  replace (s * 2 ^ 48 + e * 2 ^ 32) with ((s * 2 ^ 16 + e) * 2 ^ 32) by (change (2 ^ 48) with (2 ^ 16 * 2 ^ 32); ring).
  rewrite lor_disjoint by (change (2 ^ 16) with 65536; change (2 ^ 32) with 4294967296; lia).
  replace ((s * 2 ^ 16 + e) * 2 ^ 32 + i * 2 ^ 16) with (((s * 2 ^ 16 + e) * 2 ^ 16 + i) * 2 ^ 16)
    by (change (2 ^ 32) with (2 ^ 16 * 2 ^ 16); ring).
  apply lor_disjoint. exact Hc.
Qed.

Lemma lineNumber_sum : forall ip line, ip < 2 ^ 32 -> line < 2 ^ 32 ->
  lineNumber ip line = ip * 2 ^ 32 + line.
Proof.
  intros ip line H1 H2. unfold lineNumber. rewrite shl64_small by (try exact H1; lia).
  apply lor_disjoint. assumption.
Qed.

Lemma exceptionHandler_unpack : forall s e i c, s < 65536 -> e < 65536 -> i < 65536 -> c < 65536 ->
  let eh := exceptionHandler s e i c in
  exceptionHandlerStart eh = s /\ exceptionHandlerEnd eh = e
  /\ exceptionHandlerIp eh = i /\ exceptionHandlerCatchType eh = c.
Proof.
  intros s e i c Hs He Hi Hc eh. unfold eh. rewrite exceptionHandler_sum by assumption.
  unfold exceptionHandlerStart, exceptionHandlerEnd, exceptionHandlerIp, exceptionHandlerCatchType, trunc32.
  change 0xFFFF with (N.ones 16). rewrite !N.land_ones, !N.shiftr_div_pow2.
  change (2 ^ 16) with 65536. change (2 ^ 32) with 4294967296. change (2 ^ 48) with 281474976710656.
  repeat split; lia.
Qed.

Lemma lineNumber_unpack : forall ip line, ip < 2 ^ 32 -> line < 2 ^ 32 ->
  lineNumberIp (lineNumber ip line) = ip /\ lineNumberLine (lineNumber ip line) = line.
Proof.
  intros ip line H1 H2. rewrite lineNumber_sum by assumption.
  unfold lineNumberIp, lineNumberLine, trunc32.
  change 0xFFFFFFFF with (N.ones 32). rewrite N.land_ones, N.shiftr_div_pow2.
  change (2 ^ 32) with 4294967296 in *. lia.
Qed.

(** * Lookup *)
Definition entryOk (e : N * N) : Prop := fst e < 65536 /\ snd e < 65536.

(** Entry [i] of [tbl] is the last one whose start pc is at or before [ip]. *)
Definition covers (tbl : list (N * N)) (ip : N) (i : nat) (line : N) : Prop :=
  (exists pc, nth_error tbl i = Some (pc, line) /\ pc <= ip)
  /\ forall j pc l, (i < j)%nat -> nth_error tbl j = Some (pc, l) -> ip < pc.

Definition ascending (le : N -> N -> Prop) (tbl : list (N * N)) : Prop :=
  forall i j e e', (i < j)%nat -> nth_error tbl i = Some e -> nth_error tbl j = Some e' -> le (fst e) (fst e').

Lemma hd0 : forall {A} (l : list A), hd_error l = nth_error l 0.
Proof. intros A l; destruct l; reflexivity. Qed.

Section Search.
Variable tbl : list (N * N).
Variable ip : N.
Hypothesis Hok : Forall entryOk tbl.
Hypothesis Hasc : ascending N.le tbl.
(** No two adjacent entries start exactly at [ip]. *)
Hypothesis Hnodup : forall i l l', nth_error tbl i = Some (ip, l) -> nth_error tbl (S i) = Some (ip, l') -> False.

Lemma nth_pack : forall i e, nth_error tbl i = Some e ->
  exists ln, nth_error (packTable tbl) i = Some ln /\ lineNumberIp ln = fst e /\ lineNumberLine ln = snd e.
Proof.
  intros i e H. exists (lineNumber (fst e) (snd e)).
  split; [unfold packTable; erewrite map_nth_error; eauto|].
  rewrite Forall_forall in Hok. destruct (Hok e (nth_error_In _ _ H)).
  apply lineNumber_unpack; (eapply N.lt_trans; [eassumption|reflexivity]).
Qed.

Lemma searchLine_ok : forall fuel bottom top,
  bottom <= top -> top <= N.of_nat (length tbl) -> (N.to_nat (top - bottom) <= fuel)%nat ->
  (forall j e, (j < N.to_nat bottom)%nat -> nth_error tbl j = Some e -> fst e <= ip) ->
  (0 < bottom -> exists e, nth_error tbl (N.to_nat bottom) = Some e /\ fst e <= ip) ->
  (forall j e, (N.to_nat top <= j)%nat -> nth_error tbl j = Some e -> ip < fst e) ->
  (exists i line, covers tbl ip i line /\ searchLine fuel (packTable tbl) ip bottom top = Ok (Z.of_N line))
  \/ ((forall j e, nth_error tbl j = Some e -> ip < fst e)
      /\ searchLine fuel (packTable tbl) ip bottom top
         = Ok (match hd_error tbl with None => UnknownLine | Some e => Z.of_N (snd e) end)).
Proof.
  induction fuel as [|fuel IH]; intros bottom top Hle Htop Hf Hlow Hb Hhigh.
  all: assert (Hlen : length (packTable tbl) = length tbl) by apply map_length.
  all: cbn [searchLine]; destruct (top - bottom =? 0) eqn:Es.
  - assert (top = bottom) by lia. subst top.
    assert (bottom = 0).
    { destruct (N.eq_dec bottom 0); [assumption|]. destruct Hb as (e & He & Hle2); [lia|].
      pose proof (Hhigh (N.to_nat bottom) e ltac:(lia) He). lia. }
    subst bottom. right. split; [intros j e He; apply (Hhigh j e); [lia|assumption]|].
    rewrite hd0, Hlen. destruct (nth_error tbl 0) as [e|] eqn:E0.
    + destruct (nth_pack 0%nat e E0) as (ln & H1 & H2 & H3).
      assert (0 < length tbl)%nat by (apply nth_error_Some; congruence).
      replace (0 <? N.of_nat (length tbl)) with true by (symmetry; apply N.ltb_lt; lia).
      change (N.to_nat 0) with 0%nat. rewrite H1. cbn [of_option bind]. rewrite H3. reflexivity.
    + apply nth_error_None in E0.
      replace (0 <? N.of_nat (length tbl)) with false by (symmetry; apply N.ltb_ge; lia). reflexivity.
  - lia.
  - assert (top = bottom) by lia. subst top.
    assert (bottom = 0).
    { destruct (N.eq_dec bottom 0); [assumption|]. destruct Hb as (e & He & Hle2); [lia|].
      pose proof (Hhigh (N.to_nat bottom) e ltac:(lia) He). lia. }
    subst bottom. right. split; [intros j e He; apply (Hhigh j e); [lia|assumption]|].
    rewrite hd0, Hlen. destruct (nth_error tbl 0) as [e|] eqn:E0.
    + destruct (nth_pack 0%nat e E0) as (ln & H1 & H2 & H3).
      assert (0 < length tbl)%nat by (apply nth_error_Some; congruence).
      replace (0 <? N.of_nat (length tbl)) with true by (symmetry; apply N.ltb_lt; lia).
      change (N.to_nat 0) with 0%nat. rewrite H1. cbn [of_option bind]. rewrite H3. reflexivity.
    + apply nth_error_None in E0.
      replace (0 <? N.of_nat (length tbl)) with false by (symmetry; apply N.ltb_ge; lia). reflexivity.
  - set (middle := bottom + (top - bottom) / 2).
    assert (Hm : bottom <= middle < top) by (unfold middle; lia).
    destruct (nth_error_lt_ex tbl (N.to_nat middle)) as ([pc line] & He); [lia|].
    destruct (nth_pack _ _ He) as (ln & H1 & H2 & H3). cbn [fst snd] in *.
    rewrite H1. cbn [of_option bind]. rewrite H2, H3, Hlen.
    destruct (pc <=? ip) eqn:Epc.
    + destruct (middle + 1 =? N.of_nat (length tbl)) eqn:El.
      * cbn [bind]. left. exists (N.to_nat middle), line. split; [|reflexivity].
        split; [exists pc; split; [assumption|lia]|].
        intros j pc' l' Hj Hj'. exfalso. assert (j < length tbl)%nat by (apply nth_error_Some; congruence). lia.
      * destruct (nth_error_lt_ex tbl (N.to_nat (middle + 1))) as ([pc2 line2] & He2); [lia|].
        destruct (nth_pack _ _ He2) as (ln2 & H1' & H2' & H3'). cbn [fst snd] in *.
        rewrite H1'. cbn [of_option bind]. rewrite H2'.
        destruct (ip <? pc2) eqn:E2.
        -- left. exists (N.to_nat middle), line. split; [|reflexivity].
           split; [exists pc; split; [assumption|lia]|].
           intros j pc' l' Hj Hj'. destruct (Nat.eq_dec j (N.to_nat (middle + 1))) as [->|Hne].
           ++ rewrite He2 in Hj'. inversion Hj'; subst. lia.
           ++ pose proof (Hasc (N.to_nat (middle + 1)) j _ _ ltac:(lia) He2 Hj') as Hx. cbn [fst] in Hx. lia.
        -- replace (ip <? pc) with false by lia.
           destruct (pc <? ip) eqn:E3.
           ++ assert (middle + 1 < top).
              { destruct (N.eq_dec (middle + 1) top) as [E|]; [|lia].
                pose proof (Hhigh _ _ ltac:(rewrite <- E; apply Nat.le_refl) He2) as Hx. cbn [fst] in Hx. lia. }
              apply IH; try lia.
              ** intros j e Hj Hj'. destruct (Nat.eq_dec j (N.to_nat middle)) as [->|Hne].
                 --- rewrite He in Hj'. inversion Hj'; subst. cbn [fst]. lia.
                 --- pose proof (Hasc j (N.to_nat middle) _ _ ltac:(lia) Hj' He) as Hx. cbn [fst] in Hx. lia.
              ** intros _. exists (pc2, line2). split; [assumption|]. cbn [fst]. lia.
              ** assumption.
           ++ exfalso. assert (Hp : pc = ip) by lia.
              assert (pc2 <= ip) by lia.
              pose proof (Hasc (N.to_nat middle) (N.to_nat (middle + 1)) _ _ ltac:(lia) He He2) as Hx. cbn [fst] in Hx.
              assert (Hp2 : pc2 = ip) by lia.
              replace (N.to_nat (middle + 1)) with (S (N.to_nat middle)) in He2 by lia.
              rewrite Hp in He. rewrite Hp2 in He2.
              exact (Hnodup _ _ _ He He2).
    + cbn [bind]. replace (ip <? pc) with true by lia.
      apply IH; try lia; try assumption.
      intros j e Hj Hj'. destruct (Nat.eq_dec j (N.to_nat middle)) as [->|Hne].
      * rewrite He in Hj'. inversion Hj'; subst. cbn [fst]. lia.
      * pose proof (Hasc (N.to_nat middle) j _ _ ltac:(lia) He Hj') as Hx. cbn [fst] in Hx. lia.
Qed.
End Search.

Lemma findLineNumber_ok : forall tbl ret,
  Forall entryOk tbl -> ascending N.le tbl -> 1 <= ret < 2 ^ 32 ->
  (forall i l l', nth_error tbl i = Some (ret - 1, l) -> nth_error tbl (S i) = Some (ret - 1, l') -> False) ->
  forall fuel, (length tbl <= fuel)%nat ->
  (exists i line, covers tbl (ret - 1) i line
     /\ findLineNumber fuel false (Some (packTable tbl)) ret = Ok (Z.of_N line))
  \/ ((forall j e, nth_error tbl j = Some e -> ret - 1 < fst e)
      /\ findLineNumber fuel false (Some (packTable tbl)) ret
         = Ok (match hd_error tbl with None => UnknownLine | Some e => Z.of_N (snd e) end)).
Proof.
  intros tbl ret Hok Hasc Hret Hnd fuel Hf. unfold findLineNumber.
  replace ((ret + (2 ^ 32 - 1)) mod 2 ^ 32) with (ret - 1).
  2:{ change (2 ^ 32) with 4294967296 in *. lia. }
  replace (length (packTable tbl)) with (length tbl) by (symmetry; apply map_length).
  apply searchLine_ok; auto; try lia.
  intros j e Hj He. exfalso. assert (j < length tbl)%nat by (apply nth_error_Some; congruence). lia.
Qed.

Definition dupTable : list (N * N) := [(0, 1); (4, 10); (4, 11); (8, 12)].

Lemma dup_diverges : forall fuel, searchLine fuel (packTable [(4, 10); (4, 11); (4, 12)]) 4 0 3 = Fuel.
Proof. induction fuel as [|f IH]; [reflexivity|]. exact IH. Qed.
