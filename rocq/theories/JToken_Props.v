From Coq Require Import NArith List Bool Arith.
From Verif Require Import JToken_Model JToken_Spec JToken_Proofs.
Import ListNotations.

(** * C170: StringTokenizer gives the tokens

    For every text and every set of delimiters, along every sequence of calls, nextToken gives
    the tokens in order and then throws, hasMoreTokens says whether there are any, and
    countTokens how many. *)
Theorem C170_tokenizer_gives_the_tokens : forall s ds cs, run cs (make s ds false) = expected cs (tokens ds s).
Proof. intros s ds cs. exact (run_ok cs (make s ds false) eq_refl). Qed.
(** countTokens also counts the delimiters when they are to be tokens. *)
Theorem C170_count_with_delimiters : forall s ds, countTokens (make s ds true) = length (withDelimiters ds s).
Proof. intros s ds. unfold countTokens. cbn [make delimiters includeDelimiters position text skipn]. rewrite countInc_ok. cbn. apply Nat.add_0_r. Qed.
Example tokenizer_somewhere :
  tokens [44; 32]%N [44; 97; 98; 44; 32; 99]%N = [[97; 98]; [99]]%N /\
  run [Count; Next; HasMore; HasMore; Next; HasMore; Next] (make [44; 97; 98; 44; 32; 99]%N [44; 32]%N false) =
  [Number 2; Token [97; 98]%N; Bool true; Bool true; Token [99]%N; Bool false; NoSuchElement] /\
  countTokens (make [44; 97; 98; 44; 32; 99]%N [44; 32]%N true) = 5.
Proof. vm_compute. repeat split. Qed.

(** * C171: delimiters as tokens, and tokens with other delimiters

    False: when delimiters are tokens, nextToken at a delimiter gives it and stays there, so the
    same token comes for ever, for every text that begins with one. *)
Theorem C171_delimiters_as_tokens_refuted : forall c s ds n, In c ds ->
  run (repeat Next n) (make (c :: s) ds true) = repeat (Token [c]) n.
Proof.
  intros c s ds n H. apply delim_in in H. induction n; [reflexivity|]. cbn [repeat run exec]. unfold nextToken.
  cbn [make position text skipn nextLoop delimiters includeDelimiters]. rewrite H. cbn [firstn]. f_equal. exact IHn.
Qed.
(** hasMoreTokens moves over the delimiters of before, which nextToken with others should give. *)
Theorem C171_has_more_tokens_changes_nothing_refuted : exists t,
  t = fst (nextToken (make [97; 44; 98]%N [44]%N false)) /\
  snd (nextTokenWith [59]%N t) = Some [44; 98]%N /\ snd (nextTokenWith [59]%N (fst (hasMoreTokens t))) = Some [98]%N.
Proof. eexists. split; [reflexivity|]. split; reflexivity. Qed.

Definition JToken_theorems :=
  (C170_tokenizer_gives_the_tokens, C170_count_with_delimiters, C171_delimiters_as_tokens_refuted, C171_has_more_tokens_changes_nothing_refuted).
Print Assumptions JToken_theorems.
