(** Properties of java.lang.StringBuilder. [step] calls the method of a call, [documented] is the text's own account
    (JBuilder_Spec). *)
From Coq Require Import List NArith ZArith Bool Lia.
From Verif Require Import JBuilder_Model JBuilder_Spec JBuilder_Proofs.
Import ListNotations.
Local Open Scope Z_scope.

(** A history of calls on a new builder and on an empty text *)
Fixpoint answers (cs : list call) (b : builder) : list answer :=
  match cs with [] => [] | c :: r => snd (step c b) :: answers r (fst (step c b)) end.
Fixpoint documentedAnswers (cs : list call) (t : text) : list answer :=
  match cs with [] => [] | c :: r => snd (documented c t) :: documentedAnswers r (fst (documented c t)) end.
Fixpoint allFine (cs : list call) (t : text) : Prop :=
  match cs with [] => True | c :: r => fine c t /\ allFine r (fst (documented c t)) end.

Lemma answers_ok : forall cs b t, holds b t -> allFine cs t -> answers cs b = documentedAnswers cs t.
Proof.
  induction cs as [|c r IH]; intros b t H F; [reflexivity|]. destruct F as [F FR].
  pose proof (step_ok c b t H F) as X. cbn [answers documentedAnswers].
  destruct (documented c t) as [t' a]. destruct X as [b' [E H']]. rewrite E. cbn [fst snd] in *. f_equal.
  apply IH; assumption.
Qed.

(** C151. Whatever the history of appends, insertions, reads, cuts of the end and refused calls, every call answers what
    the documentation says for the text so far. Reads also change the cells, never the text. *)
Theorem builder_answers_as_documented : forall cs, allFine cs [] -> answers cs empty = documentedAnswers cs [].
Proof. intros cs F. apply answers_ok; [exact empty_holds|exact F]. Qed.

(** From any builder that has been through such a history, the text is what toString returns *)
Fixpoint runCalls (cs : list call) (b : builder) : builder :=
  match cs with [] => b | c :: r => runCalls r (fst (step c b)) end.
Fixpoint textOf (cs : list call) (t : text) : text :=
  match cs with [] => t | c :: r => textOf r (fst (documented c t)) end.

Theorem builder_shows_its_text : forall cs, allFine cs [] ->
  snd (step ToString (runCalls cs empty)) = Text (textOf cs []) /\
  snd (step Length (runCalls cs empty)) = Number (size (textOf cs [])).
Proof.
  intros cs F.
  assert (X : forall cs b t, holds b t -> allFine cs t -> holds (runCalls cs b) (textOf cs t)).
  { clear. induction cs as [|c r IH]; intros b t H F; [exact H|]. destruct F as [F FR]. cbn [runCalls textOf].
    pose proof (step_ok c b t H F) as X. destruct (documented c t) as [t' a]. destruct X as [b' [E H']].
    rewrite E. cbn [fst] in *. apply IH; assumption. }
  specialize (X cs empty [] empty_holds F). split.
  - pose proof (step_ok ToString _ _ X I) as [b' [E _]]. rewrite E. reflexivity.
  - pose proof (step_ok Length _ _ X I) as [b' [E _]]. rewrite E. reflexivity.
Qed.

(** C152, what holds of delete: anywhere in a text appended in one piece to a new builder *)
Theorem delete_of_one_piece_partial : forall s i j, 0 <= i <= j -> j <= size s ->
  exists b, step (Delete i j) (append (Some s) empty) = (b, Nothing) /\
    snd (step ToString b) = Text (upTo i s ++ from j s).
Proof.
  intros s i j I J.
  assert (H : holds (append (Some s) empty) s) by (apply (appendText_holds s empty []); exact empty_holds).
  destruct (Z.eq_dec i j) as [EQ|NE].
  { subst j. pose proof (step_ok (Delete i i) _ _ H ltac:(cbn; lia)) as X. cbn [documented] in X.
    rewrite Z.min_l in X by lia. replace ((0 <=? i) && (i <=? i))%bool with true in X by (zb; reflexivity).
    destruct X as [b [E H']]. exists b. split; [exact E|].
    pose proof (step_ok ToString _ _ H' Logic.I) as [b' [E' _]]. rewrite E'. reflexivity. }
  assert (A : append (Some s) empty = mkB [s] (size s) None).
  { unfold append, appendText. replace (0 <? len s) with true by (symmetry; apply Z.ltb_lt; unfold size, len in *; lia).
    reflexivity. }
  rewrite A. cbn [step]. unfold delete.
  replace (j <=? i) with false by (symmetry; apply Z.leb_gt; lia). cbn [blen].
  replace ((i <? 0) || (size s <? j))%bool with false by (zb; reflexivity). cbn [flush buffer chain blen deleteLoop].
  replace (size s) with (len s) in * by reflexivity. rewrite Z.sub_diag.
  assert (K : forall cs n, content cs = upTo i s ++ from j s -> n = size (upTo i s ++ from j s) ->
    snd (step ToString (mkB cs n None)) = Text (upTo i s ++ from j s)).
  { intros cs n C L. assert (HB : holds (mkB cs n None) (upTo i s ++ from j s)) by (apply (rebuilt _ _ _ []); [exact Logic.I|exact C|exact L]).
    pose proof (step_ok ToString _ _ HB Logic.I) as [b' [E' _]]. rewrite E'. reflexivity. }
  assert (SZ : len s - (j - i) = size (upTo i s ++ from j s)).
  { unfold size, upTo, from, len in *. rewrite app_length, firstn_length, skipn_length. lia. }
  destruct (Z.leb_spec (len s) j) as [LJ|LJ].
  - assert (j = len s) by lia. subst j. destruct (Z.leb_spec i 0) as [I0|I0].
    + assert (i = 0) by lia. subst i. eexists. split; [reflexivity|]. apply K; [|exact SZ].
      change (len s) with (size s). rewrite from_all. reflexivity.
    + rewrite Z.sub_0_r, substring_head by lia. eexists. split; [reflexivity|]. apply K; [|exact SZ].
      change (len s) with (size s). rewrite from_all. cbn [app]. rewrite content_cons, app_nil_r. reflexivity.
  - rewrite !Z.sub_0_r, substring_tail by lia. destruct (Z.leb_spec i 0) as [I0|I0].
    + assert (i = 0) by lia. subst i. eexists. split; [reflexivity|]. apply K; [|exact SZ]. cbn [app].
      rewrite content_cons. reflexivity.
    + rewrite substring_head by lia. eexists. split; [reflexivity|]. apply K; [|exact SZ]. cbn [app].
      rewrite !content_cons. reflexivity.
Qed.

(** ** Examples *)
Definition abc : text := [97; 98; 99]%N.
Definition def : text := [100; 101; 102]%N.
Definition ghi : text := [103; 104; 105]%N.

(** C152. Removing characters that do not end the text of a builder of several pieces fails, whatever the pieces: if the
    removed ones end before the last piece, an exception is thrown. *)
Theorem delete_before_the_last_piece_refuted : forall s1 s2 i j, s1 <> [] -> s2 <> [] -> 0 <= i < j -> j < size s1 ->
  snd (documented (Delete i j) (s1 ++ s2)) = Nothing /\
  snd (step (Delete i j) (append (Some s2) (append (Some s1) empty))) = Refused.
Proof.
  intros s1 s2 i j N1 N2 I J. split.
  - cbn [documented]. rewrite Z.min_l by (unfold size in *; rewrite app_length; lia).
    replace ((0 <=? i) && (i <=? j))%bool with true by (zb; reflexivity). reflexivity.
  - assert (P1 : 0 < len s1) by (destruct s1; [congruence|unfold len; cbn [length]; lia]).
    assert (P2 : 0 < len s2) by (destruct s2; [congruence|unfold len; cbn [length]; lia]).
    unfold append, appendText, empty. cbn [buffer].
    replace (0 <? len s1) with true by (symmetry; apply Z.ltb_lt; lia).
    replace (0 <? len s2) with true by (symmetry; apply Z.ltb_lt; lia).
    cbn [buffer flush chain blen step]. unfold delete. cbn [blen].
    replace (j <=? i) with false by (symmetry; apply Z.leb_gt; lia).
    change (size s1) with (len s1) in J.
    replace ((i <? 0) || (0 + len s1 + len s2 <? j))%bool with false by (zb; reflexivity).
    cbn [flush buffer chain blen deleteLoop].
    replace (0 + len s1 + len s2 <=? j) with false by (symmetry; apply Z.leb_gt; lia).
    unfold substring at 1. replace (j - (0 + len s1 + len s2 - len s2) <? 0) with true by (symmetry; apply Z.ltb_lt; lia).
    reflexivity.
Qed.

(** so setting a character does not work there either *)
Theorem setCharAt_refuted : documentedAnswers [Append (Some abc); Append (Some def); SetCharAt 0 120; ToString] [] =
    [Nothing; Nothing; Nothing; Text [120; 98; 99; 100; 101; 102]%N] /\
  answers [Append (Some abc); Append (Some def); SetCharAt 0 120; ToString] empty =
    [Nothing; Nothing; Refused; Text (abc ++ def)].
Proof. split; vm_compute; reflexivity. Qed.

(** removing a middle part that contains a whole piece loses the pieces behind it: "abcdefghi" without 2..7 is "\0\0ab" *)
Theorem delete_of_a_whole_piece_refuted :
  documentedAnswers [Append (Some abc); Append (Some def); Append (Some ghi); Delete 2 7; ToString] [] =
    [Nothing; Nothing; Nothing; Nothing; Text [97; 98; 104; 105]%N] /\
  answers [Append (Some abc); Append (Some def); Append (Some ghi); Delete 2 7; ToString] empty =
    [Nothing; Nothing; Nothing; Nothing; Text [0; 0; 97; 98]%N].
Proof. split; vm_compute; reflexivity. Qed.

(** a larger length puts the new zero characters in front of the text *)
Theorem setLength_larger_refuted :
  documentedAnswers [Append (Some abc); SetLength 5; ToString] [] = [Nothing; Nothing; Text [97; 98; 99; 0; 0]%N] /\
  answers [Append (Some abc); SetLength 5; ToString] empty = [Nothing; Nothing; Text [0; 0; 97; 98; 99]%N].
Proof. split; vm_compute; reflexivity. Qed.

(** null is appended as "null" and not inserted at all; an end beyond the text is refused instead of cut *)
Theorem insert_null_refuted :
  documentedAnswers [Append (Some abc); Insert 1 None; ToString] [] =
    [Nothing; Nothing; Text [97; 110; 117; 108; 108; 98; 99]%N] /\
  answers [Append (Some abc); Insert 1 None; ToString] empty = [Nothing; Refused; Text abc].
Proof. split; vm_compute; reflexivity. Qed.
Theorem delete_beyond_refuted :
  documentedAnswers [Append (Some abc); Delete 1 9; ToString] [] = [Nothing; Nothing; Text [97]%N] /\
  answers [Append (Some abc); Delete 1 9; ToString] empty = [Nothing; Refused; Text abc].
Proof. split; vm_compute; reflexivity. Qed.

(** A history that meets the hypotheses: the buffer, cells, insertion in the middle of one, a cut, and a reused builder
    whose buffer kept characters *)
Definition history : list call :=
  [Append (Some abc); AppendChar 46%N; AppendChar 47%N; Append (Some def); Insert 2 (Some ghi); CharAt 3; Append None;
   Delete 5 15; ToString; Substring 1 4; SetCharAt 4 48%N; Replace 3 5 abc; CharAt 6; ToString; AppendChar 46%N; SetLength 0;
   Append (Some def); Length; Insert 3 None; ToString].
Example history_fine : allFine history [].
Proof. vm_compute. repeat first [split | (left; repeat split; (discriminate || reflexivity)) | (right; discriminate) | discriminate ]. Qed.
Example history_answers : answers history empty =
  [Nothing; Nothing; Nothing; Nothing; Nothing; Char 104%N; Nothing; Nothing; Text [97; 98; 103; 104; 105]%N;
   Text [98; 103; 104]%N; Nothing; Nothing; Refused; Text [97; 98; 103; 97; 98; 99]%N; Nothing; Nothing; Nothing; Number 3;
   Nothing; Text [100; 101; 102; 110; 117; 108; 108]%N].
Proof. vm_compute. reflexivity. Qed.

Definition jbuilder_theorems := (builder_answers_as_documented, builder_shows_its_text, delete_of_one_piece_partial,
  delete_before_the_last_piece_refuted, setCharAt_refuted, delete_of_a_whole_piece_refuted, setLength_larger_refuted,
  insert_null_refuted, delete_beyond_refuted).
Print Assumptions jbuilder_theorems.
