(** Property theorems C45, C55. *)
From Verif Require Import Base Chars Names_Model Names_Spec Names_Proofs.
Local Open Scope N_scope.

(** C45: the bytes written are exactly the reserved length (plus the final NUL): the
    buffers of process.cpp:154, 163 ([size + 1 + 6] bytes, written from offset 1) are
    never overrun. *)
Theorem C45_name_length_exact : forall prefix c m spec decorate,
  length (makeJNIName prefix c m spec decorate)
  = (length prefix + jniNameLength c m spec decorate + 1)%nat.
Proof. exact makeJNIName_length. Qed.
Print Assumptions C45_name_length_exact.

(** C45: for names whose segments do not start with one of the digits 0-3 (all Java
    language identifiers), equal symbols mean the same class and method, both decorated
    or both plain, and if decorated the same parameter list. *)
Theorem C45_names_injective : forall prefix c m s c' m' s' d d',
  className c -> methodName m -> (d = true -> sigOk true (params s)) ->
  className c' -> methodName m' -> (d' = true -> sigOk true (params s')) ->
  makeJNIName prefix c m s d = makeJNIName prefix c' m' s' d' ->
  d = d' /\ c = c' /\ m = m' /\ (d = true -> params s = params s').
Proof.
  intros prefix c m s c' m' s' d d' H1 [H2 H3] H4 H5 [H6 H7] H8.
  exact (name_inj prefix c m s c' m' s' d d' H1 H2 H4 H5 H6 H8 H3 H7).
Qed.
Print Assumptions C45_names_injective.

Example C45_demo : makeJNIName (bytes "Java_") (bytes "a/_b$C") (bytes "f_g") (bytes "([Lx/Y;I)V") true
  = bytes "Java_a__1b_00024C_f_1g___3Lx_Y_2I" ++ [0].
Proof. reflexivity. Qed.
Example C45_demo_hyps : className (bytes "a/_b$C") /\ methodName (bytes "f_g") /\ sigOk true (params (bytes "([Lx/Y;I)V")).
Proof.
  split; [|split; [split|]].
  - cbn. intuition discriminate.
  - cbn. intuition discriminate.
  - cbn. intuition discriminate.
  - cbn. intuition discriminate.
Qed.

(** C55 refuted: class names legal in the JVM (not in the Java language) collide. *)
Theorem C55_digit_segments_collide_refuted :
  exists c c' m spec d, c <> c' /\ ~ In 0 c /\ ~ In 0 c' /\
    makeJNIName (bytes "Java_") c m spec d = makeJNIName (bytes "Java_") c' m spec d.
Proof.
  exists (bytes "a/1"), (bytes "a_"), (bytes "f"), (bytes "()V"), false.
  repeat split; try discriminate; cbn; intuition discriminate.
Qed.
Print Assumptions C55_digit_segments_collide_refuted.

(** C57: for names made of ASCII letters, digits, '/', '_', ';', '[' and '$' the symbol is
    the one the JNI specification prescribes ([jniSymbol], Names_Spec.v), the decoration
    being the part of the descriptor between the parentheses. *)
Theorem C57_symbol_is_jni_symbol_partial : forall prefix c m ps ret d,
  Forall plainChar c -> Forall plainChar m -> Forall plainChar ps ->
  makeJNIName prefix c m (ch "(" :: ps ++ ch ")" :: ret) d = jniSymbol prefix c m ps d ++ [0].
Proof. exact jni_symbol_ok. Qed.
Print Assumptions C57_symbol_is_jni_symbol_partial.

Example C57_demo : jniSymbol (bytes "Java_") (bytes "p/q_/Cls$X") (bytes "f") (bytes "[Lp/q;") true
  = bytes "Java_p_q_1_Cls_00024X_f___3Lp_q_2".
Proof. reflexivity. Qed.
Example C57_demo_plain : Forall plainChar (bytes "p/q_/Cls$X").
Proof.
  apply Forall_forall. intros c H.
  destruct (alnum c) eqn:E; [left; exact E|right].
  cbn in H. repeat (destruct H as [<-|H]; [try discriminate E; cbn; auto 8|]). destruct H.
Qed.

(** C57 refuted for other characters: "foo-bar" is legal and must become foo_0002dbar. *)
Theorem C57_symbol_other_char_refuted :
  exists prefix c m, makeJNIName prefix c m (bytes "()V") false <> jniSymbol prefix c m [] false ++ [0].
Proof. exists (bytes "Java_"), (bytes "A"), (bytes "foo-bar"). intros H. discriminate H. Qed.
Print Assumptions C57_symbol_other_char_refuted.
