From Verif Require Import Base Bits Utf8_Model Utf8_Spec.
Local Open Scope N_scope.

(** * Single units, by enumeration of all 65536 values *)
Definition listN_eqb (a b : list N) : bool := if list_eq_dec N.eq_dec a b then true else false.
Lemma listN_eqb_eq : forall a b, listN_eqb a b = true -> a = b.
Proof. intros a b. unfold listN_eqb. destruct (list_eq_dec N.eq_dec a b); [auto|discriminate]. Qed.

Lemma encode_spec : forall u, u < 0x10000 -> u <> 0 -> encodeUnit u = modifiedUtf8Unit u.
Proof.
  intros u Hu Hz.
  assert (H : allbits 16 (fun u => (u =? 0) || listN_eqb (encodeUnit u) (modifiedUtf8Unit u)) = true)
    by (vm_compute; reflexivity).
  pose proof (allbits_ok _ _ H u Hu) as Hc. cbn beta in Hc.
  apply orb_true_iff in Hc. destruct Hc as [Hc|Hc]; [apply N.eqb_eq in Hc; contradiction|].
  apply listN_eqb_eq. assumption.
Qed.

Definition lead (u : N) : bool :=
  match modifiedUtf8Unit u with
  | [a] => (a =? u) && (N.land a 0x80 =? 0) && negb (a =? 0)
  | [a; b] => negb (N.land a 0x80 =? 0) && (N.land a 0x20 =? 0) && (pair2 a b =? u)
              && (Bool.eqb ((a =? 0xC0) && (b =? 0x80)) (u =? 0)) && negb (a =? 0) && negb (b =? 0)
  | [a; b; c] => negb (N.land a 0x80 =? 0) && negb (N.land a 0x20 =? 0) && (triple a b c =? u)
              && negb (a =? 0) && negb (b =? 0) && negb (c =? 0)
  | _ => false
  end.
Lemma lead_ok : forall u, u < 0x10000 -> lead u = true.
Proof. intros u Hu. assert (H : allbits 16 lead = true) by (vm_compute; reflexivity). exact (allbits_ok _ _ H u Hu). Qed.

Lemma unitLength_ok : forall u, unitLength u = N.of_nat (length (encodeUnit u)).
Proof.
  intros u. unfold unitLength, encodeUnit.
  destruct (u =? 0), (u <? 0x80), (u <? 0x800); reflexivity.
Qed.

Lemma fold_length : forall c r, fold_left (fun r u => r + unitLength u) c r = r + N.of_nat (length (flat_map encodeUnit c)).
Proof.
  induction c as [|u c IH]; intros r; cbn [fold_left flat_map]; [cbn; lia|].
  rewrite IH, app_length, unitLength_ok. lia.
Qed.

Lemma utfLength_ok : forall s, N.of_nat (length (stringUTFChars s)) = stringUTFLength s + 1.
Proof.
  intros [b|c]; cbn [stringUTFChars stringUTFLength]; rewrite app_length; cbn [length]; [lia|].
  rewrite fold_length. lia.
Qed.

(** * Decoding *)
Lemma nonAscii_unit : forall u rest, u < 0x10000 -> nonAscii (modifiedUtf8Unit u ++ rest) = u :: nonAscii rest.
Proof.
  intros u rest Hu. pose proof (lead_ok u Hu) as H. unfold lead in H.
  destruct (modifiedUtf8Unit u) as [|a [|b [|c [|d l]]]]; try discriminate.
  - cbn [app nonAscii]. repeat rewrite andb_true_iff in H. destruct H as [[H1 H2] _].
    rewrite H2. cbn [negb]. apply N.eqb_eq in H1. rewrite H1. reflexivity.
  - cbn [app nonAscii]. repeat rewrite andb_true_iff in H. destruct H as [[[[[H1 H2] H3] _] _] _].
    rewrite H1, H2. cbn [negb]. apply N.eqb_eq in H3. rewrite H3. reflexivity.
  - cbn [app nonAscii]. repeat rewrite andb_true_iff in H. destruct H as [[[[[H1 H2] H3] _] _] _].
    rewrite H1, H2. apply N.eqb_eq in H3. rewrite H3. reflexivity.
Qed.

Lemma nonAscii_ok : forall us, Forall (fun u => u < 0x10000) us -> nonAscii (modifiedUtf8 us) = us.
Proof.
  induction us as [|u us IH]; intros H; [reflexivity|].
  inversion H; subst. cbn [modifiedUtf8 flat_map]. rewrite nonAscii_unit by assumption.
  f_equal. apply IH. assumption.
Qed.

Lemma asciiPart_ok : forall us acc, Forall (fun u => u < 0x10000) us ->
  units (asciiPart acc (modifiedUtf8 us)) = acc ++ us.
Proof.
  induction us as [|u us IH]; intros acc H; [cbn; rewrite app_nil_r; reflexivity|].
  inversion H as [|? ? Hu Hus]; subst. pose proof (lead_ok u Hu) as Hl. unfold lead in Hl.
  assert (HN : nonAscii (modifiedUtf8 (u :: us)) = u :: us) by (apply nonAscii_ok; assumption).
  cbn [modifiedUtf8 flat_map] in *. fold (modifiedUtf8 us) in *.
  destruct (modifiedUtf8Unit u) as [|a [|b [|c [|d l]]]]; try discriminate.
  - cbn [app asciiPart]. repeat rewrite andb_true_iff in Hl. destruct Hl as [[H1 H2] _].
    rewrite H2. cbn [negb]. rewrite IH by assumption. apply N.eqb_eq in H1. rewrite H1, <- app_assoc. reflexivity.
  - cbn [app] in *. cbn [asciiPart]. repeat rewrite andb_true_iff in Hl. destruct Hl as [[[[[H1 H2] H3] H4] _] _].
    rewrite H1, H2. cbn [negb]. destruct ((a =? 0xC0) && (b =? 0x80)) eqn:E.
    + rewrite IH by assumption. destruct (u =? 0) eqn:Eu; [|discriminate]. apply N.eqb_eq in Eu. subst.
      rewrite <- app_assoc. reflexivity.
    + cbn [units]. rewrite HN. reflexivity.
  - cbn [app] in *. cbn [asciiPart]. repeat rewrite andb_true_iff in Hl. destruct Hl as [[[[[H1 H2] H3] _] _] _].
    rewrite H1, H2. cbn [units]. rewrite HN. reflexivity.
Qed.

Lemma parse_spec : forall us, Forall (fun u => u < 0x10000) us -> units (parseUtf8 (modifiedUtf8 us)) = us.
Proof. intros us H. apply (asciiPart_ok us []). assumption. Qed.

Lemma parse_valid : forall l, Forall (fun b => b < 0x100) l -> validString (parseUtf8 l).
Proof.
  assert (Hhi : forall a, a < 0x100 -> (N.land a 0x80 =? 0) = true -> a < 0x80).
  { intros a Ha. assert (H : allbits 8 (fun a => negb (N.land a 0x80 =? 0) || (a <? 0x80)) = true) by (vm_compute; reflexivity).
    pose proof (allbits_ok _ _ H a Ha) as Hc. cbn beta in Hc. intros E. rewrite E in Hc. cbn in Hc. lia. }
  assert (Hb : forall x n, N.land x (N.ones n) < 2 ^ n).
  { intros. rewrite N.land_ones. apply N.mod_lt, N.pow_nonzero. lia. }
  assert (Hlor : forall x y n, x < 2 ^ n -> y < 2 ^ n -> N.lor x y < 2 ^ n).
  { intros x y n Hx Hy. apply lt_pow2_testbit. intros i Hi.
    rewrite N.lor_spec, (testbit_high x n i), (testbit_high y n i) by assumption. reflexivity. }
  assert (Hsh : forall x n m, x < 2 ^ n -> N.shiftl x m < 2 ^ (n + m)).
  { intros x n m Hx. rewrite N.shiftl_mul_pow2, N.pow_add_r. apply N.mul_lt_mono_pos_r; [apply pow2_pos|assumption]. }
  assert (Ht : forall a b c, triple a b c < 2 ^ 16).
  { intros a b c. unfold triple. apply Hlor; [apply Hlor|].
    - change (2 ^ 16) with (2 ^ (4 + 12)). apply Hsh. apply (Hb a 4).
    - eapply N.lt_le_trans; [apply (Hsh _ 6 6), (Hb b 6)|]. vm_compute. discriminate.
    - eapply N.lt_le_trans; [apply (Hb c 6)|]. vm_compute. discriminate. }
  assert (Hp : forall a b, pair2 a b < 2 ^ 16).
  { intros a b. unfold pair2. destruct (_ && _); [apply pow2_pos|]. apply Hlor.
    - eapply N.lt_le_trans; [apply (Hsh _ 5 6), (Hb a 5)|]. vm_compute. discriminate.
    - eapply N.lt_le_trans; [apply (Hb b 6)|]. vm_compute. discriminate. }
  assert (Hn : forall n l, (length l <= n)%nat -> Forall (fun b => b < 0x100) l -> Forall (fun u => u < 0x10000) (nonAscii l)).
  { induction n as [|n IH]; intros l Hlen Hl.
    - destruct l; [constructor|cbn in Hlen; lia].
    - destruct l as [|a r]; [constructor|]. inversion Hl as [|? ? Ha Hr]; subst. cbn [nonAscii length] in *.
      destruct (N.land a 0x80 =? 0) eqn:E1; cbn [negb].
      + constructor; [lia|]. apply IH; [lia|assumption].
      + destruct (N.land a 0x20 =? 0) eqn:E2; cbn [negb].
        * destruct r as [|b r]; [repeat constructor; apply Hp|]. inversion Hr; subst.
          constructor; [apply Hp|]. apply IH; [cbn in Hlen; lia|assumption].
        * destruct r as [|b [|c r]]; [repeat constructor; apply Ht|repeat constructor; apply Ht|].
          inversion Hr as [|? ? ? Hr']; subst. inversion Hr'; subst.
          constructor; [apply Ht|]. apply IH; [cbn in Hlen; lia|assumption]. }
  assert (Hm : forall n l acc, (length l <= n)%nat -> Forall (fun b => b < 0x80) acc -> Forall (fun b => b < 0x100) l -> validString (asciiPart acc l)).
  { assert (Hacc : forall acc l, Forall (fun b => b < 0x80) acc -> Forall (fun b => b < 0x100) l -> validString (CharsS (acc ++ nonAscii l))).
    { intros acc l H1 H2. cbn [validString]. apply Forall_app. split; [|eapply Hn; eauto].
      eapply Forall_impl; [|exact H1]. cbn beta. intros. lia. }
    induction n as [|n IH]; intros l acc Hlen Hacc0 Hl.
    - destruct l; [exact Hacc0|cbn in Hlen; lia].
    - destruct l as [|a r]; [exact Hacc0|]. pose proof Hl as Hl0. inversion Hl as [|? ? Ha Hr]; subst. cbn [asciiPart length] in *.
      destruct (N.land a 0x80 =? 0) eqn:E1; cbn [negb].
      + apply IH; [lia| |assumption]. apply Forall_app. split; [assumption|]. repeat constructor. auto.
      + destruct (negb (N.land a 0x20 =? 0)); [apply Hacc; assumption|].
        destruct r as [|b r]; [apply Hacc; assumption|].
        destruct (_ && _); [|apply Hacc; assumption].
        inversion Hr; subst. apply IH; [cbn in Hlen; lia| |assumption].
        apply Forall_app. split; [assumption|]. repeat constructor. }
  intros l Hl. apply (Hm (length l)); auto.
Qed.

(** * Round trip *)
Lemma units_valid16 : forall s, validString s -> Forall (fun u => u < 0x10000) (units s).
Proof.
  intros [b|c] H; cbn in *; [|assumption]. eapply Forall_impl; [|exact H]. cbn beta. intros. lia.
Qed.

Lemma ascii_encode : forall u, u < 0x80 -> u <> 0 -> modifiedUtf8Unit u = [u].
Proof.
  intros u H Hz. unfold modifiedUtf8Unit. replace ((1 <=? u) && (u <=? 0x7f)) with true; [reflexivity|].
  symmetry. apply andb_true_iff. split; lia.
Qed.

Lemma utfChars_spec : forall s, validString s -> ~ In 0 (units s) ->
  stringUTFChars s = modifiedUtf8 (units s) ++ [0].
Proof.
  intros [b|c] Hv Hz; cbn [stringUTFChars units validString] in *; f_equal.
  - induction b as [|u b IH]; [reflexivity|]. inversion Hv; subst. cbn [modifiedUtf8 flat_map].
    rewrite ascii_encode; [|assumption|intros ->; apply Hz; left; reflexivity].
    cbn [app]. f_equal. apply IH; [assumption|]. intros Hi. apply Hz. right. assumption.
  - induction c as [|u c IH]; [reflexivity|]. inversion Hv; subst. cbn [modifiedUtf8 flat_map].
    rewrite encode_spec; [|assumption|intros ->; apply Hz; left; reflexivity].
    f_equal. apply IH; [assumption|]. intros Hi. apply Hz. right. assumption.
Qed.

Lemma encode_zero_byte : forall u, u < 0x10000 -> u <> 0 -> ~ In 0 (encodeUnit u).
Proof.
  intros u Hu Hz. rewrite encode_spec by assumption. pose proof (lead_ok u Hu) as H. unfold lead in H.
  destruct (modifiedUtf8Unit u) as [|a [|b [|c [|d l]]]]; try discriminate;
    repeat rewrite andb_true_iff in H; repeat rewrite negb_true_iff in H; cbn [In]; intuition; subst; discriminate.
Qed.

Lemma cstring_stop : forall l r, ~ In 0 l -> cstring (l ++ 0 :: r) = l.
Proof.
  induction l as [|c l IH]; intros r H; [reflexivity|]. cbn [app cstring].
  destruct (c =? 0) eqn:E; [apply N.eqb_eq in E; subst; exfalso; apply H; left; reflexivity|].
  f_equal. apply IH. intros Hi. apply H. right. assumption.
Qed.

Lemma beforeNul_valid : forall us (P : N -> Prop), Forall P us -> Forall P (beforeNul us) /\ ~ In 0 (beforeNul us).
Proof.
  induction us as [|u us IH]; intros P H; cbn [beforeNul]; [split; [constructor|auto]|].
  inversion H; subst. destruct (u =? 0) eqn:E; [split; [constructor|auto]|].
  destruct (IH P) as [Hq1 Hq2]; [assumption|]. split; [constructor; assumption|].
  intros [Hi|Hi]; [subst; discriminate|auto].
Qed.

Lemma cstring_chars : forall s, validString s -> cstring (stringUTFChars s) = modifiedUtf8 (beforeNul (units s)).
Proof.
  intros s Hv. pose proof (units_valid16 s Hv) as H16.
  assert (Hsplit : exists r, stringUTFChars s = flat_map (fun u => match s with BytesS _ => [u] | CharsS _ => encodeUnit u end) (beforeNul (units s)) ++ 0 :: r).
  { destruct s as [b|c]; cbn [stringUTFChars units] in *.
    - induction b as [|u b IH]; cbn [beforeNul]; [exists []; reflexivity|]. inversion Hv; subst. inversion H16; subst.
      destruct (u =? 0) eqn:E; [apply N.eqb_eq in E; subst; eexists; reflexivity|].
      destruct IH as [r Hr]; try assumption. exists r. cbn [flat_map app]. rewrite <- Hr. reflexivity.
    - induction c as [|u c IH]; cbn [beforeNul]; [exists []; reflexivity|]. inversion Hv; subst. inversion H16; subst.
      destruct (u =? 0) eqn:E; [apply N.eqb_eq in E; subst; eexists; reflexivity|].
      destruct IH as [r Hr]; try assumption. exists r. cbn [flat_map app]. rewrite <- !app_assoc. f_equal. exact Hr. }
  destruct Hsplit as [r ->]. destruct (beforeNul_valid _ _ H16) as [Hf Hnz].
  rewrite cstring_stop.
  - destruct s as [b|c]; cbn [units] in *.
    + destruct (beforeNul_valid b _ Hv) as [Hf8 _]. revert Hf8 Hnz. clear. generalize (beforeNul b).
      induction l as [|u l IH]; intros H Hz; [reflexivity|]. inversion H; subst. cbn [flat_map modifiedUtf8].
      rewrite ascii_encode; [|assumption|intros ->; apply Hz; left; reflexivity].
      f_equal. apply IH; [assumption|]. intros Hi. apply Hz. right. assumption.
    + revert Hf Hnz. clear. generalize (beforeNul c).
      induction l as [|u l IH]; intros H Hz; [reflexivity|]. inversion H; subst. cbn [flat_map modifiedUtf8].
      rewrite encode_spec; [|assumption|intros ->; apply Hz; left; reflexivity].
      f_equal. apply IH; [assumption|]. intros Hi. apply Hz. right. assumption.
  - intros Hi. apply in_flat_map in Hi. destruct Hi as (u & Hu & Hi).
    assert (u <> 0) by (intros ->; auto).
    destruct s as [b|c].
    + destruct Hi as [Hi|[]]. auto.
    + rewrite Forall_forall in Hf. exact (encode_zero_byte u (Hf u Hu) H Hi).
Qed.

Lemma newStringUTF_ok : forall s, validString s ->
  units (newStringUTF (stringUTFChars s)) = beforeNul (units s).
Proof.
  intros s Hv. unfold newStringUTF. rewrite cstring_chars by assumption. apply parse_spec.
  apply (beforeNul_valid (units s) (fun u => u < 0x10000)). apply units_valid16. assumption.
Qed.

Lemma beforeNul_id : forall us, ~ In 0 us -> beforeNul us = us.
Proof.
  induction us as [|u us IH]; intros H; [reflexivity|]. cbn [beforeNul].
  destruct (u =? 0) eqn:E; [apply N.eqb_eq in E; subst; exfalso; apply H; left; reflexivity|].
  f_equal. apply IH. intros Hi. apply H. right. assumption.
Qed.

(** Decoding by explicit length is also right for the one-byte U+0000 the encoder writes. *)
Lemma asciiPart_zero : forall acc l, asciiPart acc (0 :: l) = asciiPart (acc ++ [0]) l.
Proof. reflexivity. Qed.
Lemma nonAscii_enc : forall us, Forall (fun u => u < 0x10000) us -> nonAscii (flat_map encodeUnit us) = us.
Proof.
  induction us as [|u us IH]; intros H; [reflexivity|]. inversion H; subst. cbn [flat_map].
  destruct (N.eq_dec u 0) as [->|Hz].
  - cbn [encodeUnit]. change (if 0 =? 0 then [0] else _) with [0]. cbn [app nonAscii]. cbn. f_equal. auto.
  - rewrite encode_spec, nonAscii_unit by assumption. f_equal. auto.
Qed.
