(** Proofs about text and bytes. *)
From Coq Require Import NArith List Bool Arith Lia.
From Verif Require Import Bits Utf8_Spec Utf8_Proofs JIo_Model JIo_Proofs JUtf8_Model.
Import ListNotations.
Local Open Scope N_scope.

(** * Single characters *)
Lemma encodeChar_ok : forall u, u < 0x10000 -> u <> 0 -> encodeChar u = modifiedUtf8Unit u.
Proof.
  intros u Hu Hz.
  assert (H : allbits 16 (fun u => (u =? 0) || listN_eqb (encodeChar u) (modifiedUtf8Unit u)) = true) by (vm_compute; reflexivity).
  pose proof (allbits_ok _ _ H u Hu) as Hc. cbn beta in Hc.
  apply orb_true_iff in Hc. destruct Hc as [Hc|Hc]; [apply N.eqb_eq in Hc; contradiction|].
  apply listN_eqb_eq. assumption.
Qed.
Definition two_ (x y : N) : N := N.lor (N.shiftl (N.land x 0x1f) 6) (N.land y 0x3f).
Definition three_ (x y z : N) : N := N.lor (N.lor (N.shiftl (N.land x 0xf) 12) (N.shiftl (N.land y 0x3f) 6)) (N.land z 0x3f).
Definition shape (u : N) : bool :=
  match modifiedUtf8Unit u with
  | [a] => (a =? u) && (N.land a 0x80 =? 0) && negb (a =? 0) && (a <? 256)
  | [a; b] => negb (N.land a 0x80 =? 0) && (N.land a 0xe0 =? 0xc0) && (two_ a b mod 65536 =? u) && (a <? 256) && (b <? 256)
  | [a; b; c] => negb (N.land a 0x80 =? 0) && negb (N.land a 0xe0 =? 0xc0) && (N.land a 0xf0 =? 0xe0) && (three_ a b c mod 65536 =? u)
                 && (a <? 256) && (b <? 256) && (c <? 256)
  | _ => false
  end.
Lemma shape_ok : forall u, u < 0x10000 -> shape u = true.
Proof. intros u Hu. assert (H : allbits 16 shape = true) by (vm_compute; reflexivity). exact (allbits_ok _ _ H u Hu). Qed.
Lemma ascii : forall a, a < 256 -> (N.land a 0x80 =? 0) = true -> a < 128.
Proof.
  intros a Ha. assert (H : allbits 8 (fun a => negb (N.land a 0x80 =? 0) || (a <? 0x80)) = true) by (vm_compute; reflexivity).
  pose proof (allbits_ok _ _ H a Ha) as Hc. cbn beta in Hc. intros E. rewrite E in Hc. cbn in Hc. apply N.ltb_lt in Hc. exact Hc.
Qed.

(** * Decoding any bytes *)
(** The units found in bytes, and whether there is a character of more than one byte. *)
Definition cons_ (u : N) (o : option (list N)) : option (list N) := option_map (cons u) o.
Fixpoint found (l : list N) : option (list N) :=
  match l with
  | [] => Some []
  | x :: r =>
      if N.land x 0x80 =? 0 then
        if x =? 0 then match r with [] => None | _ :: r' => cons_ 0 (found r') end else cons_ x (found r)
      else if N.land x 0xe0 =? 0xc0 then match r with [] => None | y :: r' => cons_ (two_ x y mod 65536) (found r') end
      else if N.land x 0xf0 =? 0xe0 then match r with y :: z :: r' => cons_ (three_ x y z mod 65536) (found r') | _ => None end
      else found r
  end.
Fixpoint wide (l : list N) : bool :=
  match l with
  | [] => false
  | x :: r =>
      if N.land x 0x80 =? 0 then
        if x =? 0 then match r with [] => false | _ :: r' => wide r' end else wide r
      else if N.land x 0xe0 =? 0xc0 then true
      else if N.land x 0xf0 =? 0xe0 then true
      else wide r
  end.

Definition arr (multi : bool) (l : list N) : array := if multi then Chars l else Bytes l.
Lemma store_zero : forall (d : list N) k v, (0 < k)%nat -> store (d ++ repeat 0 k) (length d) v = Some ((d ++ [v]) ++ repeat 0 (k - 1)).
Proof.
  intros d k v K. unfold store. rewrite blit_ok by (rewrite app_length, repeat_length; cbn; lia).
  f_equal. rewrite firstn_app, Nat.sub_diag, firstn_all. cbn [firstn]. rewrite app_nil_r, <- app_assoc. f_equal. cbn [app]. f_equal.
  rewrite skipn_app, skipn_all2 by lia. cbn [app length]. replace (length d + 1 - length d)%nat with 1%nat by lia.
  destruct k; [lia|]. cbn. rewrite Nat.sub_0_r. reflexivity.
Qed.
Lemma cram_ok : forall (multi : bool) d k v, (0 < k)%nat -> v < (if multi then 65536 else 256) ->
  cram (arr multi (d ++ repeat 0 k)) (length d) v = Some (arr multi ((d ++ [v]) ++ repeat 0 (k - 1))).
Proof. intros [|] d k v K V; cbn [arr cram]; rewrite N.mod_small by exact V; rewrite store_zero by exact K; reflexivity. Qed.
Lemma cram_chars : forall d k v, (0 < k)%nat ->
  cram (Chars (d ++ repeat 0 k)) (length d) v = Some (Chars ((d ++ [v mod 65536]) ++ repeat 0 (k - 1))).
Proof. intros d k v K. cbn [cram]. rewrite store_zero by exact K. reflexivity. Qed.

Definition outcome (multi : bool) (d : list N) (k : nat) (rest : list N) : result :=
  match found rest with
  | None => Null
  | Some u => if multi || wide rest then Array (Chars (d ++ u)) else Array (Bytes (d ++ u ++ repeat 0 (k - length u)))
  end.
Lemma outcome_cons : forall multi d k v rest rest', found rest = cons_ v (found rest') -> wide rest = wide rest' ->
  outcome multi d k rest = outcome multi (d ++ [v]) (k - 1) rest'.
Proof.
  intros multi d k v rest rest' F W. unfold outcome. rewrite F, W. destruct (found rest') as [u|]; [|reflexivity]. cbn [cons_ option_map].
  rewrite <- !app_assoc. cbn [app length]. replace (k - S (length u))%nat with (k - 1 - length u)%nat by lia. reflexivity.
Qed.
Lemma outcome_wide : forall multi d k v rest rest', found rest = cons_ v (found rest') -> wide rest = true ->
  outcome multi d k rest = outcome true (d ++ [v]) 0 rest'.
Proof.
  intros multi d k v rest rest' F W. unfold outcome. rewrite F, W, orb_true_r. destruct (found rest') as [u|]; [|reflexivity]. cbn [cons_ option_map].
  rewrite <- !app_assoc. reflexivity.
Qed.
Lemma outcome_chars : forall d k k' rest, outcome true d k rest = outcome true d k' rest.
Proof. intros. unfold outcome. destruct (found rest); reflexivity. Qed.
Lemma outcome_skip : forall multi d k rest rest', found rest = found rest' -> wide rest = wide rest' ->
  outcome multi d k rest = outcome multi d k rest'.
Proof. intros multi d k rest rest' F W. unfold outcome. rewrite F, W. reflexivity. Qed.

(** The array of characters after a first character of more than one byte. *)
Lemma widened : forall (multi : bool) d k c len, (multi = false -> (length d + k = len)%nat) -> (c <= k)%nat ->
  exists k', (k - c <= k')%nat /\ (if multi then Some (arr multi (d ++ repeat 0 k)) else widen (arr multi (d ++ repeat 0 k)) (length d) (len - c)) = Some (Chars (d ++ repeat 0 k')).
Proof.
  intros [|] d k c len L C; cbn [arr].
  - exists k. split; [lia|reflexivity].
  - specialize (L eq_refl). exists (k - c)%nat. split; [lia|]. unfold widen. rewrite app_length, repeat_length.
    replace (_ && _) with true by (symmetry; apply andb_true_iff; split; apply Nat.leb_le; lia).
    rewrite firstn_app, Nat.sub_diag, firstn_all. cbn [firstn]. rewrite app_nil_r. do 3 f_equal. f_equal. lia.
Qed.

Lemma decodeLoop_ok : forall n rest len multi d k, (length rest <= n)%nat -> Forall (fun b => b < 256) rest ->
  (length rest <= k)%nat -> (multi = false -> (length d + k = len)%nat) ->
  decodeLoop rest len multi (arr multi (d ++ repeat 0 k)) (length d) = outcome multi d k rest.
Proof.
  induction n as [|n IH]; intros rest len multi d k Hn HF Hk Hl.
  - destruct rest; [|cbn in Hn; lia]. cbn [decodeLoop]. unfold outcome. cbn [found wide]. destruct multi; cbn [arr trim orb].
    + rewrite app_length, repeat_length. destruct (Nat.eqb_spec (length d + k) (length d)) as [E|E]; cbn [ofOption].
      * assert (k = 0)%nat as -> by lia. reflexivity.
      * replace (_ <=? _)%nat with true by (symmetry; apply Nat.leb_le; lia). cbn [ofOption].
        rewrite firstn_app, Nat.sub_diag, firstn_all. reflexivity.
    + cbn [length app]. rewrite Nat.sub_0_r. reflexivity.
  - destruct rest as [|x r]; [apply IH; auto; cbn; lia|]. inversion HF as [|? ? Hx HFr]; subst. cbn [length] in Hn, Hk.
    assert (SL : forall v, S (length d) = length (d ++ [v])) by (intros; rewrite app_length; cbn; lia).
    cbn [decodeLoop]. destruct (N.land x 0x80 =? 0) eqn:E1.
    + pose proof (ascii x Hx E1) as Hx2.
      destruct (x =? 0) eqn:E0.
      * apply N.eqb_eq in E0. subst x. destruct r as [|y r]; [reflexivity|]. inversion HFr; subst. cbn [length] in *.
        rewrite cram_ok by (try destruct multi; lia). cbn [ofOption]. rewrite (SL 0), IH; try assumption; try lia.
        -- symmetry. apply outcome_cons; reflexivity.
        -- intros M. specialize (Hl M). rewrite <- SL. lia.
      * rewrite cram_ok by (try destruct multi; lia). cbn [ofOption]. rewrite (SL x), IH; try assumption; try lia.
        -- symmetry. apply outcome_cons; cbn [found wide]; rewrite E1, E0; reflexivity.
        -- intros M. specialize (Hl M). rewrite <- SL. lia.
    + destruct (N.land x 0xe0 =? 0xc0) eqn:E2.
      * destruct r as [|y r]; [unfold outcome; cbn [found]; rewrite E1, E2; reflexivity|]. inversion HFr; subst. cbn [length] in *.
        destruct (widened multi d k 1 len Hl ltac:(lia)) as (k' & Hk' & W). rewrite W. cbn [ofOption].
        rewrite cram_chars by lia. cbn [ofOption]. fold (two_ x y). rewrite (SL (two_ x y mod 65536)).
        rewrite (IH r len true _ (k' - 1)%nat); try assumption; try lia; try discriminate.
        rewrite (outcome_wide multi d k (two_ x y mod 65536) _ r); [apply outcome_chars|cbn [found]; rewrite E1, E2; reflexivity|cbn [wide]; rewrite E1, E2; reflexivity].
      * destruct (N.land x 0xf0 =? 0xe0) eqn:E3.
        -- destruct r as [|y [|z r]]; try (unfold outcome; cbn [found]; rewrite E1, E2, E3; reflexivity).
           inversion HFr as [|? ? ? HFr2]; subst. inversion HFr2; subst. cbn [length] in *.
           destruct (widened multi d k 2 len Hl ltac:(lia)) as (k' & Hk' & W). rewrite W. cbn [ofOption].
           rewrite cram_chars by lia. cbn [ofOption]. fold (three_ x y z). rewrite (SL (three_ x y z mod 65536)).
           rewrite (IH r len true _ (k' - 1)%nat); try assumption; try lia; try discriminate.
           rewrite (outcome_wide multi d k (three_ x y z mod 65536) _ r); [apply outcome_chars|cbn [found]; rewrite E1, E2, E3; reflexivity|cbn [wide]; rewrite E1, E2, E3; reflexivity].
        -- rewrite IH; try assumption; try lia. symmetry. apply outcome_skip; cbn [found wide]; rewrite E1, E2, E3; reflexivity.
Qed.
Lemma decode_ok : forall l, Forall (fun b => b < 256) l -> decode l = outcome false [] (length l) l.
Proof. intros l F. unfold decode. apply (decodeLoop_ok (length l) l (length l) false [] (length l)); auto. Qed.

Lemma found_length : forall n l u, (length l <= n)%nat -> found l = Some u -> (length u <= length l)%nat.
Proof.
  induction n as [|n IH]; intros l u Hn F.
  - destruct l; [|cbn in Hn; lia]. injection F as <-. cbn. lia.
  - destruct l as [|x r]; [injection F as <-; cbn; lia|]. cbn [length found] in *.
    assert (C : forall v r', (length r' < length (x :: r))%nat -> cons_ v (found r') = Some u -> (length u <= S (length r'))%nat).
    { intros v r' L E. cbn [length] in L. destruct (found r') as [u'|] eqn:E'; [|discriminate]. injection E as <-. cbn [length]. apply le_n_S, (IH r' u'); [lia|exact E']. }
    destruct (N.land x 0x80 =? 0).
    + destruct (x =? 0); [destruct r as [|y r]; [discriminate|]|]; apply C in F; cbn [length] in *; lia.
    + destruct (N.land x 0xe0 =? 0xc0); [destruct r as [|y r]; [discriminate|]; apply C in F; cbn [length] in *; lia|].
      destruct (N.land x 0xf0 =? 0xe0); [destruct r as [|y [|z r]]; try discriminate; apply C in F; cbn [length] in *; lia|].
      apply IH in F; lia.
Qed.

(** * Well-formed text *)
Definition char (u : N) : Prop := u < 0x10000.
Lemma unit_cases : forall u, char u ->
  (exists a, modifiedUtf8Unit u = [a] /\ a = u /\ N.land a 0x80 =? 0 = true /\ a =? 0 = false /\ a < 256)
  \/ (exists a b, modifiedUtf8Unit u = [a; b] /\ N.land a 0x80 =? 0 = false /\ N.land a 0xe0 =? 0xc0 = true /\ two_ a b mod 65536 = u /\ a < 256 /\ b < 256)
  \/ (exists a b c, modifiedUtf8Unit u = [a; b; c] /\ N.land a 0x80 =? 0 = false /\ N.land a 0xe0 =? 0xc0 = false /\ N.land a 0xf0 =? 0xe0 = true
        /\ three_ a b c mod 65536 = u /\ a < 256 /\ b < 256 /\ c < 256).
Proof.
  intros u Hu. pose proof (shape_ok u Hu) as H. unfold shape in H.
  destruct (modifiedUtf8Unit u) as [|a [|b [|c [|d l]]]]; try discriminate; repeat rewrite andb_true_iff in H;
  repeat match goal with X : _ /\ _ |- _ => destruct X end;
  repeat match goal with X : negb _ = true |- _ => apply negb_true_iff in X | X : (_ <? _) = true |- _ => apply N.ltb_lt in X end.
  - left. exists a. repeat split; auto. apply N.eqb_eq. assumption.
  - right. left. exists a, b. repeat split; auto. apply N.eqb_eq. assumption.
  - right. right. exists a, b, c. repeat split; auto. apply N.eqb_eq. assumption.
Qed.
Lemma unit_bytes : forall u, char u -> Forall (fun b => b < 256) (modifiedUtf8Unit u) /\ modifiedUtf8Unit u <> [].
Proof.
  intros u Hu. destruct (unit_cases u Hu) as [(a & -> & H)|[(a & b & -> & H)|(a & b & c & -> & H)]]; split; try discriminate;
  repeat constructor; repeat match goal with X : _ /\ _ |- _ => destruct X end; assumption.
Qed.
Lemma found_unit : forall u r, char u -> found (modifiedUtf8Unit u ++ r) = cons_ u (found r).
Proof.
  intros u r Hu. destruct (unit_cases u Hu) as [(a & -> & -> & H1 & H2 & _)|[(a & b & -> & H1 & H2 & H3 & _)|(a & b & c & -> & H1 & H2 & H3 & H4 & _)]];
  cbn [app found]; rewrite ?H1, ?H2, ?H3; try rewrite H4; reflexivity.
Qed.
Lemma found_text : forall t r, Forall char t -> found (modifiedUtf8 t ++ r) = option_map (app t) (found r).
Proof.
  induction t as [|u t IH]; intros r F; cbn [modifiedUtf8 flat_map]; [cbn; destruct (found r); reflexivity|].
  inversion F; subst. rewrite <- app_assoc, found_unit by assumption. fold (modifiedUtf8 t). rewrite IH by assumption. destruct (found r); reflexivity.
Qed.
(** The beginning of a character that is not all of it. *)
Definition begun (p : list N) : Prop := exists u q, char u /\ q <> [] /\ p <> [] /\ modifiedUtf8Unit u = p ++ q.
Lemma begun_none : forall p, begun p -> found p = None.
Proof.
  intros p (u & q & Hu & Hq & Hp & E).
  destruct (unit_cases u Hu) as [(a & E2 & -> & H1 & H2 & _)|[(a & b & E2 & H1 & H2 & H3 & _)|(a & b & c & E2 & H1 & H2 & H3 & H4 & _)]];
  rewrite E2 in E; destruct p as [|p1 [|p2 [|p3 p]]]; try congruence; cbn [app] in E; injection E; intros; subst; try congruence;
  try (repeat match goal with X : [] = _ ++ _ |- _ => symmetry in X; apply app_eq_nil in X; destruct X end; congruence);
  try (cbn [found]; rewrite ?H1, ?H2, ?H3; reflexivity).
Qed.
Lemma text_bytes : forall t, Forall char t -> Forall (fun b => b < 256) (modifiedUtf8 t).
Proof. induction t as [|u t IH]; intros F; cbn [modifiedUtf8 flat_map]; [constructor|]. inversion F; subst. apply Forall_app. split; [apply unit_bytes; assumption|apply IH; assumption]. Qed.
Lemma begun_bytes : forall p, begun p -> Forall (fun b => b < 256) p.
Proof. intros p (u & q & Hu & _ & _ & E). pose proof (proj1 (unit_bytes u Hu)) as F. rewrite E in F. apply Forall_app in F. apply F. Qed.
Lemma wide_text : forall t, Forall char t -> wide (modifiedUtf8 t) = false -> length (modifiedUtf8 t) = length t.
Proof.
  induction t as [|u t IH]; intros F W; [reflexivity|]. inversion F; subst. cbn [modifiedUtf8 flat_map] in *. fold (modifiedUtf8 t) in *.
  destruct (unit_cases u H1) as [(a & E & -> & A1 & A2 & _)|[(a & b & E & A1 & A2 & A3 & _)|(a & b & c & E & A1 & A2 & A3 & A4 & _)]];
  rewrite E in *; cbn [app wide length] in *; rewrite ?A1, ?A2, ?A3 in W; try discriminate.
  rewrite IH by assumption. reflexivity.
Qed.

Lemma found_all : forall t, Forall char t -> found (modifiedUtf8 t) = Some t.
Proof.
  intros t F. pose proof (found_text t [] F) as E. cbn [found option_map] in E. rewrite !app_nil_r in E. exact E.
Qed.
Definition text (r : result) : option (list N) := match r with Array (Bytes l) => Some l | Array (Chars l) => Some l | _ => None end.
Lemma decode_text : forall t, Forall char t -> exists a, decode (modifiedUtf8 t) = Array a /\ text (Array a) = Some t.
Proof.
  intros t F. rewrite decode_ok by (apply text_bytes; assumption). unfold outcome. rewrite found_all by assumption. cbn [orb]. destruct (wide (modifiedUtf8 t)) eqn:W.
  - eexists. split; reflexivity.
  - eexists. split; [reflexivity|]. cbn [text app]. rewrite (wide_text t F W), Nat.sub_diag. cbn [repeat]. rewrite app_nil_r. reflexivity.
Qed.
Lemma decode16_text : forall t, Forall char t -> decode16 (modifiedUtf8 t) = Array (Chars t).
Proof.
  intros t F. unfold decode16. rewrite decode_ok by (apply text_bytes; assumption). unfold outcome. rewrite found_all by assumption. cbn [orb]. destruct (wide (modifiedUtf8 t)) eqn:W; [reflexivity|].
  rewrite (wide_text t F W), Nat.sub_diag. cbn [repeat app widen]. rewrite app_nil_r, Nat.leb_refl. cbn [andb ofOption].
  rewrite firstn_all, Nat.sub_diag. cbn [repeat]. rewrite app_nil_r. reflexivity.
Qed.
Lemma decode16_begun : forall t p, Forall char t -> begun p -> decode16 (modifiedUtf8 t ++ p) = Null.
Proof.
  intros t p F B. unfold decode16. rewrite decode_ok by (apply Forall_app; split; [apply text_bytes|apply begun_bytes]; assumption).
  unfold outcome. rewrite found_text by assumption. rewrite (begun_none p B). reflexivity.
Qed.

(** * InputStreamReader *)
Definition ending (p : list N) : Prop := p = [] \/ begun p.
(** What stands for an incomplete character at the end. *)
Definition mark (p : list N) : list N := match p with [] => [] | _ => [0xfffd] end.
Lemma begun_length : forall p, begun p -> (1 <= length p <= 2)%nat.
Proof.
  intros p (u & q & Hu & Hq & Hp & E).
  assert (L : (length (modifiedUtf8Unit u) <= 3)%nat).
  { destruct (unit_cases u Hu) as [(a & -> & _)|[(a & b & -> & _)|(a & b & c & -> & _)]]; cbn; lia. }
  rewrite E, app_length in L. destruct p; [congruence|]. destruct q; [congruence|]. cbn [length] in *. lia.
Qed.
Lemma begun_prefix : forall a b, begun (a ++ b) -> a <> [] -> begun a.
Proof.
  intros a b (u & q & Hu & Hq & Hp & E) A. exists u, (b ++ q). repeat split; auto; [|rewrite app_assoc; exact E].
  intros X. apply app_eq_nil in X. destruct X. congruence.
Qed.
Lemma text_length : forall t, Forall char t -> (length t <= length (modifiedUtf8 t))%nat.
Proof.
  induction t as [|u t IH]; intros F; [cbn; lia|]. inversion F; subst. cbn [modifiedUtf8 flat_map length]. fold (modifiedUtf8 t).
  rewrite app_length. specialize (IH H2). pose proof (proj2 (unit_bytes u H1)) as NE. destruct (modifiedUtf8Unit u); [congruence|]. cbn [length]. lia.
Qed.
Lemma text_app : forall a b, modifiedUtf8 (a ++ b) = modifiedUtf8 a ++ modifiedUtf8 b.
Proof. intros. unfold modifiedUtf8. apply flat_map_app. Qed.
Lemma text_one : forall c, modifiedUtf8 [c] = modifiedUtf8Unit c.
Proof. intros. unfold modifiedUtf8. cbn. apply app_nil_r. Qed.

Lemma split_text : forall t p a b, Forall char t -> ending p -> modifiedUtf8 t ++ p = a ++ b ->
  exists t1 p1, a = modifiedUtf8 t1 ++ p1 /\ Forall char t1 /\
   ((p1 = [] /\ exists t2, t = t1 ++ t2 /\ b = modifiedUtf8 t2 ++ p)
    \/ (begun p1 /\ exists c t2 q, t = t1 ++ c :: t2 /\ modifiedUtf8Unit c = p1 ++ q /\ q <> [] /\ b = q ++ modifiedUtf8 t2 ++ p)
    \/ (begun p1 /\ t = t1 /\ p = p1 ++ b)).
Proof.
  induction t as [|c t IH]; intros p a b F E H.
  - cbn [modifiedUtf8 flat_map app] in H. subst p. exists []. destruct a as [|x a].
    + exists []. split; [reflexivity|]. split; [constructor|]. left. split; [reflexivity|]. exists []. auto.
    + exists (x :: a). split; [reflexivity|]. split; [constructor|]. right. right. split; [|auto].
      destruct E as [E|E]; [discriminate|]. apply (begun_prefix _ b); [exact E|discriminate].
  - inversion F; subst. cbn [modifiedUtf8 flat_map] in H. fold (modifiedUtf8 t) in H. rewrite <- app_assoc in H.
    apply app_eq_app in H. destruct H as (l & [(A & B)|(A & B)]).
    + destruct l as [|y l].
      * rewrite app_nil_r in A. exists [c], []. rewrite text_one, A, app_nil_r. split; [reflexivity|]. split; [repeat constructor; assumption|].
        left. split; [reflexivity|]. exists t. cbn in B. auto.
      * destruct a as [|x a].
        -- exists [], []. split; [reflexivity|]. split; [constructor|]. left. split; [reflexivity|]. exists (c :: t).
           split; [reflexivity|]. cbn [modifiedUtf8 flat_map]. fold (modifiedUtf8 t). rewrite A, <- app_assoc. exact B.
        -- exists [], (x :: a). split; [reflexivity|]. split; [constructor|]. right. left. split.
           ++ exists c, (y :: l). repeat split; auto; discriminate.
           ++ exists c, t, (y :: l). repeat split; auto. discriminate.
    + destruct (IH p l b H3 E) as (t1 & p1 & E1 & F1 & C); [symmetry; rewrite <- B; reflexivity|].
      exists (c :: t1), p1. split; [rewrite A, E1; cbn [modifiedUtf8 flat_map]; rewrite <- app_assoc; reflexivity|].
      split; [constructor; assumption|].
      destruct C as [(C1 & t2 & -> & C2)|[(C1 & c2 & t2 & q & -> & C2 & C3 & C4)|(C1 & -> & C2)]].
      * left. split; [assumption|]. exists t2. auto.
      * right. left. split; [assumption|]. exists c2, t2, q. auto.
      * right. right. auto.
Qed.

Lemma salvage_ok : forall t p k, Forall char t -> begun p -> (k <= length p)%nat ->
  salvage (length (modifiedUtf8 t) + k) (modifiedUtf8 t ++ p) = Some (t ++ [0xfffd]).
Proof.
  intros t p k F B. induction k as [|k IH]; intros K.
  - rewrite Nat.add_0_r. pose proof (text_length t F) as TL. destruct (length (modifiedUtf8 t)) as [|o] eqn:E.
    + destruct t; [reflexivity|cbn in TL; lia].
    + cbn [salvage]. rewrite <- E, firstn_app, Nat.sub_diag, firstn_all. cbn [firstn]. rewrite app_nil_r, decode16_text by assumption. reflexivity.
  - rewrite Nat.add_succ_r. cbn [salvage]. rewrite firstn_app.
    replace (S (length (modifiedUtf8 t) + k) - length (modifiedUtf8 t))%nat with (S k) by lia. rewrite firstn_all2 by lia.
    rewrite decode16_begun; [apply IH; lia|assumption|].
    apply (begun_prefix _ (skipn (S k) p)); [rewrite firstn_skipn; assumption|]. destruct p; [cbn in K; lia|discriminate].
Qed.

Section Read.
Variable chunk : nat -> nat.
(** What a call of read has to do. *)
Definition reads (n : nat) (t p : list N) (r : option (option (list N)) * source) : Prop :=
  match r with
  | (Some (Some l), s') => (0 < length l <= n)%nat /\ exists t2 p2, coming s' = modifiedUtf8 t2 ++ p2 /\ Forall char t2 /\ ending p2
                           /\ t ++ mark p = l ++ t2 ++ mark p2
  | (Some None, s') => t = [] /\ p = [] /\ coming s' = []
  | (None, _) => False
  end.

Lemma srcRead1 : forall s x r, coming s = x :: r -> exists s', srcRead chunk 1 s = (Some [x], s') /\ coming s' = r.
Proof.
  intros s x r E. unfold srcRead. rewrite E.
  assert (K : (Nat.max 1 (Nat.min (chunk (calls s)) 1) = 1)%nat) by lia. rewrite K. eexists. split; reflexivity.
Qed.
Lemma deliver_ok : forall n l, (length l <= n)%nat -> deliver n (Some l) = Some (Some l).
Proof. intros n l L. unfold deliver. replace (_ <=? _)%nat with true by (symmetry; apply Nat.leb_le; exact L). reflexivity. Qed.

Lemma loop_ok : forall fuel n t1 p1 t p s, Forall char t -> ending p -> Forall char t1 -> begun p1 ->
  (4 <= fuel + length p1)%nat -> (length (modifiedUtf8 t1 ++ p1) + 1 <= n + length p1)%nat -> (length t1 + 1 <= n)%nat ->
  ((exists c t2 q, t = t1 ++ c :: t2 /\ modifiedUtf8Unit c = p1 ++ q /\ q <> [] /\ coming s = q ++ modifiedUtf8 t2 ++ p)
   \/ (t = t1 /\ p = p1 ++ coming s)) ->
  reads n t p (isrLoop chunk fuel n 1 (modifiedUtf8 t1 ++ p1) s).
Proof.
  induction fuel as [|f IH]; intros n t1 p1 t p s Ft Ep F1 B1 Hf Hb Hn C; pose proof (begun_length _ B1) as L1; [lia|].
  cbn [isrLoop]. replace (_ <=? _)%nat with true by (symmetry; apply Nat.leb_le; lia).
  destruct C as [(c & t2 & q & E1 & E2 & E3 & E4)|(E1 & E2)].
  - destruct q as [|x q]; [congruence|]. cbn [app] in E4. destruct (srcRead1 s _ _ E4) as (s' & R & Cs). rewrite R, <- app_assoc.
    assert (Fc : char c /\ Forall char t2) by (rewrite E1 in Ft; apply Forall_app in Ft as [_ Ft]; inversion Ft; auto).
    destruct Fc as (Fc & F2). destruct q as [|y q].
    + assert (X : modifiedUtf8 t1 ++ p1 ++ [x] = modifiedUtf8 (t1 ++ [c])) by (rewrite text_app, text_one, E2; reflexivity).
      rewrite X, decode16_text by (apply Forall_app; auto). rewrite deliver_ok by (rewrite app_length; cbn; lia).
      unfold reads. split; [rewrite app_length; cbn; lia|]. exists t2, p. cbn [app] in Cs. repeat split; auto. rewrite E1, <- !app_assoc. reflexivity.
    + assert (B2 : begun (p1 ++ [x])).
      { exists c, (y :: q). split; [assumption|]. split; [discriminate|]. split; [destruct p1; discriminate|]. rewrite <- app_assoc. exact E2. }
      rewrite decode16_begun by assumption. apply IH; auto.
      * rewrite app_length. cbn. lia.
      * rewrite !app_length in *. cbn [length]. lia.
      * left. exists c, t2, (y :: q). rewrite <- app_assoc. repeat split; auto. discriminate.
  - destruct (coming s) as [|x r] eqn:Es.
    + rewrite app_nil_r in E2. subst p. unfold srcRead. rewrite Es.
      replace (length (modifiedUtf8 t1 ++ p1) =? 0)%nat with false by (symmetry; apply Nat.eqb_neq; rewrite app_length; lia).
      rewrite app_length, salvage_ok by (assumption || lia). rewrite deliver_ok by (rewrite app_length; cbn; lia).
      unfold reads. split; [rewrite app_length; cbn; lia|]. exists [], []. cbn [coming modifiedUtf8 flat_map app mark].
      split; [reflexivity|]. split; [constructor|]. split; [left; reflexivity|]. rewrite E1, app_nil_r. f_equal. destruct p1; [cbn in L1; lia|reflexivity].
    + destruct (srcRead1 s _ _ Es) as (s' & R & Cs). rewrite R, <- app_assoc.
      assert (B2 : begun (p1 ++ [x])).
      { apply (begun_prefix _ r); [rewrite <- app_assoc; cbn [app]; rewrite <- E2; destruct Ep as [->|]; [destruct p1; discriminate|assumption]|destruct p1; discriminate]. }
      rewrite decode16_begun by assumption. apply IH; auto.
      * rewrite app_length. cbn. lia.
      * rewrite !app_length in *. cbn [length]. lia.
      * right. rewrite <- app_assoc, Cs. auto.
Qed.

Lemma read_ok : forall n t p s, (0 < n)%nat -> Forall char t -> ending p -> coming s = modifiedUtf8 t ++ p ->
  reads n t p (isrRead chunk n s).
Proof.
  intros n t p s Hn Ft Ep Cs. unfold isrRead. destruct n as [|m]; [lia|]. set (n := S m) in *.
  replace (n + 6)%nat with (S (n + 5)) by lia. cbn [isrLoop length].
  replace (_ <=? _)%nat with true by (symmetry; apply Nat.leb_le; lia).
  destruct (srcRead chunk n s) as [[l|] s'] eqn:R.
  - apply srcRead_some in R as (C & L & NE). specialize (NE Hn). rewrite C in Cs. symmetry in Cs. cbn [app].
    destruct (split_text t p l (coming s') Ft Ep Cs) as (t1 & p1 & E1 & F1 & D). pose proof (text_length t1 F1) as TL.
    destruct D as [(-> & t2 & E2 & E3)|D].
    + rewrite app_nil_r in E1. rewrite E1, decode16_text by assumption. rewrite E1 in L, NE. rewrite deliver_ok by lia.
      unfold reads. split.
      * split; [|lia]. destruct t1; [cbn in NE; lia|cbn; lia].
      * exists t2, p. rewrite E2 in Ft. apply Forall_app in Ft as [_ Ft]. rewrite E2, <- app_assoc. auto.
    + assert (B1 : begun p1) by (destruct D as [(B & _)|(B & _)]; assumption).
      pose proof (begun_length _ B1) as BL. rewrite E1, decode16_begun by assumption. rewrite E1, app_length in L.
      apply loop_ok; auto; try lia.
      * rewrite app_length. lia.
      * destruct D as [(_ & D)|(_ & D)]; [left|right]; assumption.
  - apply srcRead_none in R as (C & C' & _). rewrite C in Cs. symmetry in Cs. apply app_eq_nil in Cs as [A ->].
    assert (t = []) as ->. { destruct t as [|u t]; [reflexivity|]. pose proof (text_length _ Ft) as TL. rewrite A in TL. cbn in TL. lia. }
    cbn. auto.
Qed.
End Read.
