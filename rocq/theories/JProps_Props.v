From Coq Require Import NArith List Bool.
From Verif Require Import JProps_Model JProps_Spec JProps_Proofs.
Import ListNotations.
Local Open Scope N_scope.

(** * C175: load reads what store wrote, for plain keys and values *)
Theorem C175_load_reads_what_store_wrote : forall comment m, oneLine comment -> Forall plainEntry m -> load (store comment m) = Some m.
Proof. exact load_store. Qed.
(** A line of key, separator and value, the separator being blanks, : or = with blanks around. *)
Theorem C175_load_reads_a_line : forall k sep v, k <> [] -> plainKey k -> separator sep -> plainValue v -> load (k ++ sep ++ v ++ [10]) = Some [(k, v)].
Proof. exact load_line. Qed.
(** "a : b" and "a b". *)
Example line_somewhere : separator [32; 58; 32] /\ separator [32] /\ load [97; 32; 58; 32; 98; 10] = Some [([97], [98])] /\ load [97; 32; 98; 10] = Some [([97], [98])].
Proof.
  repeat split; try discriminate.
  - exists [32], [58], [32]. repeat split; auto; repeat constructor.
  - exists [32], [], []. repeat split; auto; repeat constructor.
Qed.
(** "un" = "a = # b", "" = "", "k!" = "". *)
Example plain_somewhere : oneLine [104; 105] /\ Forall plainEntry [([117; 110], [97; 32; 61; 32; 35; 32; 98]); ([], []); ([107; 33], [])] /\
  load (store [104; 105] [([117; 110], [97; 32; 61; 32; 35; 32; 98]); ([], []); ([107; 33], [])]) = Some [([117; 110], [97; 32; 61; 32; 35; 32; 98]); ([], []); ([107; 33], [])].
Proof.
  assert (V0 : plainValue []) by (repeat split; [constructor|discriminate..|intros c r E; destruct r; discriminate]).
  assert (KC : forall c, c = 117 \/ c = 110 \/ c = 107 \/ c = 33 -> keyCharacter c) by (intros c [->|[->|[->| ->]]]; repeat split; discriminate).
  repeat split.
  - intros [E|[E|[]]]; discriminate.
  - repeat constructor; cbn [fst snd]; try apply V0; try (apply KC; auto; fail); try (intros; discriminate);
    try (match goal with H : _ = _ |- _ => inversion H; subst end; discriminate); try discriminate.
    all: try (intros ? ? E; inversion E; subst; unfold blank; intuition discriminate).
    all: try (inversion H; subst; unfold blank; intuition discriminate).
    all: intros c r E; change [97; 32; 61; 32; 35; 32; 98] with ([97; 32; 61; 32; 35; 32] ++ [98]) in E; apply app_inj_tail in E; destruct E as [_ <-]; unfold blank; intuition discriminate.
Qed.

(** * C176: load reads what store wrote (any strings): false

    A key with =, a value with a newline, with a backslash, or with a space in front comes back
    changed; a value can make store write what load refuses. *)
Theorem C176_load_reads_what_store_wrote_refuted :
  load (store [] [([97; 61; 98], [99])]) = Some [([97], [98; 61; 99])] /\
  load (store [] [([97], [98; 10; 99])]) = Some [([97], [98]); ([99], [])] /\
  load (store [] [([97], [98; 92; 99])]) = Some [([97], [98; 99])] /\
  load (store [] [([97], [32; 98])]) = Some [([97], [98])] /\
  load (store [] [([97], [92; 117; 115; 114])]) = None.
Proof. vm_compute. repeat split. Qed.

(** * C177: escapes: a backslash before a newline joins the lines and one before # makes it
    part of the key: false

    a=b\<newline>c gives "b<newline>c" and not "bc"; \#a=b is a comment. *)
Theorem C177_escapes_refuted :
  load [97; 61; 98; 92; 10; 99] = Some [([97], [98; 10; 99])] /\ (forall s, oneLine s -> load ([92; 35] ++ s ++ [10]) = Some []).
Proof.
  split; [vm_compute; reflexivity|]. intros s H. unfold load. cbn [app]. rewrite !parse_cons. cbn [N.eqb Pos.eqb orb fresh key].
  rewrite skip_comment by exact H. reflexivity.
Qed.
Definition JProps_theorems := (C175_load_reads_what_store_wrote, C175_load_reads_a_line, C176_load_reads_what_store_wrote_refuted, C177_escapes_refuted).
Print Assumptions JProps_theorems.
