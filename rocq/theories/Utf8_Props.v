(** Property theorems C08, C09. *)
From Verif Require Import Base Utf8_Model Utf8_Spec Utf8_Proofs.
Local Open Scope N_scope.

(** C08: the reserved length is exact ... *)
Theorem C08_length_exact : forall s, N.of_nat (length (stringUTFChars s)) = stringUTFLength s + 1.
Proof. exact utfLength_ok. Qed.
Print Assumptions C08_length_exact.

(** ... the text produced for a string without U+0000 is its modified UTF-8 encoding ... *)
Theorem C08_encoding_is_modified_utf8 : forall s, validString s -> ~ In 0 (units s) ->
  stringUTFChars s = modifiedUtf8 (units s) ++ [0].
Proof. exact utfChars_spec. Qed.
Print Assumptions C08_encoding_is_modified_utf8.

(** ... modified UTF-8 of any string (also with U+0000) decodes to its units ... *)
Theorem C08_decode_modified_utf8 : forall us, Forall (fun u => u < 0x10000) us ->
  units (parseUtf8 (modifiedUtf8 us)) = us.
Proof. exact parse_spec. Qed.
Print Assumptions C08_decode_modified_utf8.

(** ... arbitrary (also malformed) input bytes decode to a well-formed string ... *)
Theorem C08_decode_total : forall l, Forall (fun b => b < 0x100) l -> validString (parseUtf8 l).
Proof. exact parse_valid. Qed.
Print Assumptions C08_decode_total.

(** ... and GetStringUTFChars followed by NewStringUTF gives the same units. *)
Theorem C08_roundtrip : forall s, validString s -> ~ In 0 (units s) ->
  units (newStringUTF (stringUTFChars s)) = units s.
Proof. intros s Hv Hz. rewrite newStringUTF_ok, beforeNul_id by assumption. reflexivity. Qed.
Print Assumptions C08_roundtrip.

Example C08_demo : stringUTFChars (CharsS [0x41; 0xe9; 0x20ac; 0xd83d; 0xde00])
  = [0x41; 0xc3; 0xa9; 0xe2; 0x82; 0xac; 0xed; 0xa0; 0xbd; 0xed; 0xb8; 0x80; 0].
Proof. reflexivity. Qed.

(** C09: in general the round trip cuts the string at its first U+0000 ... *)
Theorem C09_roundtrip_cuts_at_nul : forall s, validString s ->
  units (newStringUTF (stringUTFChars s)) = beforeNul (units s).
Proof. exact newStringUTF_ok. Qed.
Print Assumptions C09_roundtrip_cuts_at_nul.

(** ... so the property is refuted. *)
Theorem C09_nul_roundtrip_refuted :
  exists s, validString s /\ units (newStringUTF (stringUTFChars s)) <> units s.
Proof. exists (CharsS [0x41; 0; 0x42]). split; [repeat constructor|discriminate]. Qed.
Print Assumptions C09_nul_roundtrip_refuted.
