(** C162-C164: text and bytes in the class library. The encoding is [modifiedUtf8], Utf8_Spec. *)
From Coq Require Import NArith List Bool Arith Lia.
From Verif Require Import Utf8_Spec JIo_Model JUtf8_Model JUtf8_Proofs JIo_Props.
Import ListNotations.
Local Open Scope N_scope.

(** C162. The bytes of any text without U+0000 are its encoding. *)
Theorem C162_bytes_are_the_encoding : forall t, Forall (fun c => 0 < c < 0x10000) t -> encode t = modifiedUtf8 t.
Proof.
  induction t as [|c t IH]; intros F; [reflexivity|]. inversion F; subst. cbn [encode modifiedUtf8 flat_map].
  rewrite encodeChar_ok by lia. f_equal. apply IH. assumption.
Qed.
(** A string made from the encoding of any text, also with U+0000 as C0 80, is that text. *)
Theorem C162_string_of_an_encoding : forall t fuel, Forall (fun c => c < 0x10000) t -> newString (S fuel) true (modifiedUtf8 t) = Made t.
Proof.
  intros t fuel F. cbn [newString orb]. rewrite decode_ok by (apply text_bytes; assumption). unfold outcome. rewrite found_all by assumption. cbn [orb].
  destruct (wide (modifiedUtf8 t)) eqn:W; [reflexivity|].
  rewrite (wide_text t F W), Nat.sub_diag. cbn [app repeat]. rewrite app_nil_r, firstn_all. reflexivity.
Qed.
Theorem C162_string_of_bytes_of_string : forall t fuel, Forall (fun c => 0 < c < 0x10000) t -> newString (S fuel) true (encode t) = Made t.
Proof.
  intros t fuel F. rewrite C162_bytes_are_the_encoding by assumption. apply C162_string_of_an_encoding.
  eapply Forall_impl; [|exact F]. cbn beta. lia.
Qed.
(** Whatever the bytes, decoding throws nothing, and gives no more characters than there are bytes. *)
Theorem C162_decoding_stays_inside : forall b, Forall (fun x => x < 256) b ->
  match decode b with Throws => False | Null => True | Array (Bytes l) => length l = length b | Array (Chars l) => (length l <= length b)%nat end.
Proof.
  intros b F. rewrite decode_ok by assumption. unfold outcome. destruct (found b) as [u|] eqn:E; [|exact I].
  pose proof (found_length (length b) b u (Nat.le_refl _) E) as L. cbn [orb app]. destruct (wide b); cbn [app]; [exact L|].
  rewrite app_length, repeat_length. lia.
Qed.
Example C162_example : encode [0x41; 0xe9; 0x20ac; 0xd83d; 0xde00] = [0x41; 0xc3; 0xa9; 0xe2; 0x82; 0xac; 0xed; 0xa0; 0xbd; 0xed; 0xb8; 0x80]
  /\ newString 1 true [0x41; 0xc3; 0xa9; 0xe2; 0x82; 0xac; 0xed; 0xa0; 0xbd; 0xed; 0xb8; 0x80] = Made [0x41; 0xe9; 0x20ac; 0xd83d; 0xde00].
Proof. split; vm_compute; reflexivity. Qed.

(** C163. Readers. [isrRun]: calls of read for given numbers of characters; [None] in the list is -1. *)
Fixpoint isrRun (chunk : nat -> nat) (asks : list nat) (s : source) : option (list (option (list N))) :=
  match asks with
  | [] => Some []
  | n :: asks' => match isrRead chunk n s with
                  | (Some o, s') => match isrRun chunk asks' s' with Some os => Some (o :: os) | None => None end
                  | (None, _) => None end
  end.
(** A stream of the encoding of any text, possibly cut inside its next character: the calls
    give the characters in order (as C159's [answers] says), and U+FFFD for the cut one. *)
Theorem C163_reader_gives_the_text : forall chunk t p asks, Forall (fun c => c < 0x10000) t ->
  (p = [] \/ exists c q, c < 0x10000 /\ p <> [] /\ q <> [] /\ modifiedUtf8Unit c = p ++ q) ->
  Forall (fun n => (0 < n)%nat) asks ->
  exists os, isrRun chunk asks {| coming := modifiedUtf8 t ++ p; calls := 0 |} = Some os
  /\ answers asks os (t ++ match p with [] => [] | _ => [0xfffd] end).
Proof.
  intros chunk t p asks F P Q.
  assert (E : ending p). { destruct P as [->|(c & q & P1 & P2 & P3 & P4)]; [left; reflexivity|right]. exists c, q. auto. }
  clear P. change (match p with [] => [] | _ => [0xfffd] end) with (mark p). 
  set (s := {| coming := modifiedUtf8 t ++ p; calls := 0 |}). assert (S1 : coming s = modifiedUtf8 t ++ p) by reflexivity. clearbody s.
  revert t p s F E S1. induction asks as [|n asks IH]; intros t p s F E S1; [exists []; split; [reflexivity|exact I]|].
  inversion Q; subst. specialize (IH H2). cbn [isrRun]. pose proof (read_ok chunk n t p s H1 F E S1) as R.
  destruct (isrRead chunk n s) as [[[l|]|] s']; cbn [reads] in R; [| |contradiction].
  - destruct R as (L & t2 & p2 & C & F2 & E2 & X). destruct (IH t2 p2 s' F2 E2 C) as (os & I1 & I2). rewrite I1.
    eexists. split; [reflexivity|]. cbn [answers]. split; [lia|]. split; [lia|]. exists (t2 ++ mark p2). auto.
  - destruct R as (-> & -> & C). destruct (IH [] [] s' (Forall_nil _) (or_introl eq_refl) C) as (os & I1 & I2). rewrite I1.
    eexists. split; [reflexivity|]. cbn [answers]. auto.
Qed.
(** With OutputStreamWriter, which writes the bytes of each piece: any pieces of text without
    U+0000, read in any portions. *)
Theorem C163_reader_gives_what_the_writer_wrote : forall chunk pieces asks,
  Forall (Forall (fun c => 0 < c < 0x10000)) pieces -> Forall (fun n => (0 < n)%nat) asks ->
  exists os, isrRun chunk asks {| coming := concat (map encode pieces); calls := 0 |} = Some os /\ answers asks os (concat pieces).
Proof.
  intros chunk pieces asks F Q.
  assert (E : concat (map encode pieces) = modifiedUtf8 (concat pieces)).
  { induction F as [|x l Fx Fl IH]; [reflexivity|]. cbn [map concat]. rewrite IH, text_app, C162_bytes_are_the_encoding by assumption. reflexivity. }
  assert (G : Forall (fun c => c < 0x10000) (concat pieces)).
  { clear E. induction F as [|x l Fx Fl IH]; [constructor|]. cbn [concat]. apply Forall_app. split; [|exact IH]. eapply Forall_impl; [|exact Fx]. cbn beta. lia. }
  rewrite E. destruct (C163_reader_gives_the_text chunk (concat pieces) [] asks G (or_introl eq_refl) Q) as (os & I1 & I2).
  rewrite app_nil_r in I1, I2. exists os. auto.
Qed.
Example C163_example : isrRun (fun k => k) [2; 3; 1; 5; 2]%nat {| coming := modifiedUtf8 [0x41; 0x20ac; 0xe9; 0x42] ++ [0xe2; 0x82]; calls := 0 |}
  = Some [Some [0x41]; Some [0x20ac]; Some [0xe9]; Some [0x42; 0xfffd]; None].
Proof. vm_compute. reflexivity. Qed.

(** C164. What fails. *)
(** Text with U+0000: "A\0" comes back as "A\0\0". *)
Theorem C164_text_with_nul_refuted :
  ~ (forall t, Forall (fun c => c < 0x10000) t -> exists fuel, newString fuel true (encode t) = Made t).
Proof.
  intros H. destruct (H [0x41; 0]) as ([|f] & E); [repeat constructor|discriminate|].
  revert E. vm_compute. discriminate.
Qed.
(** A zero byte in bytes swallows the byte after it. *)
Example C164_byte_lost : newString 1 true [0x41; 0; 0x42] = Made [0x41; 0; 0].
Proof. vm_compute. reflexivity. Qed.
(** Bytes that end with a zero byte are refused with RuntimeException. *)
Example C164_last_zero : newString 2 true [0x41; 0] = Raises.
Proof. vm_compute. reflexivity. Qed.
(** The standard encoding of U+1F600 in four bytes becomes four U+0000. *)
Example C164_four_bytes : newString 1 true [0xf0; 0x9f; 0x98; 0x80] = Made [0; 0; 0; 0].
Proof. vm_compute. reflexivity. Qed.
(** Bytes that end inside a character: the constructor does not come to an end, at any depth. *)
Theorem C164_constructor_ends_refuted :
  ~ (forall b, Forall (fun x => x < 256) b -> exists fuel, newString fuel true b <> Deeper).
Proof.
  intros H. destruct (H [0xc3]) as (fuel & E); [repeat constructor|]. apply E. clear E H.
  enough (G : forall copy, newString fuel copy [0xc3] = Deeper) by apply G.
  induction fuel as [|f IH]; intros copy; [reflexivity|]. cbn [newString].
  replace (copy || test [0xc3]) with true by (destruct copy; reflexivity).
  change (decode [0xc3]) with Null. cbn iota. rewrite IH. reflexivity.
Qed.
(** It does for every other: bytes without 128-255, or whole characters. *)
Theorem C164_constructor_ends_otherwise : forall b, Forall (fun x => x < 256) b -> test b = false \/ decode b <> Null ->
  newString 2 true b <> Deeper.
Proof.
  intros b F H. cbn [newString orb]. pose proof (C162_decoding_stays_inside b F) as S1.
  destruct (decode b) as [|[l|l]|]; try discriminate. destruct H as [H|H]; [rewrite H; discriminate|congruence].
Qed.
(** Latin-1: new String(s.getBytes("ISO-8859-1"), "ISO-8859-1") is s for characters below 256. *)
Theorem C164_latin1_refuted :
  ~ (forall t fuel, Forall (fun c => 0 < c < 256) t -> newStringLatin1 (S fuel) (encodeLatin1 t) = Made t).
Proof.
  intros H. specialize (H [0xc3; 0xa9] 0%nat). assert (F : Forall (fun c => 0 < c < 256) [0xc3; 0xa9]) by (repeat constructor; lia).
  specialize (H F). vm_compute in H. discriminate.
Qed.

Definition JUtf8_theorems := (C162_bytes_are_the_encoding, C162_string_of_an_encoding, C162_string_of_bytes_of_string, C162_decoding_stays_inside,
  C163_reader_gives_the_text, C163_reader_gives_what_the_writer_wrote, C164_text_with_nul_refuted, C164_constructor_ends_refuted,
  C164_constructor_ends_otherwise, C164_latin1_refuted).
Print Assumptions JUtf8_theorems.
