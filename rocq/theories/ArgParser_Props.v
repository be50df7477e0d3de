(** C50: the command-line argument parser. *)
From Coq Require Import List Bool Arith String.
From Verif Require Import Chain ArgParser_Model ArgParser_Spec ArgParser_Proofs.
Import ListNotations.

(** With distinct option names, the accepted command lines are exactly the well-formed ones. *)
Theorem C50_accepts_exactly : forall os av, NoDup (map name os) ->
  ((exists v, parse os av = Some v) <-> exists l, wellFormed os av l).
Proof.
  intros os av N. split. intros [v E]. exact (line_parse os av v N E). intros [l W]. destruct (parse_line os av N l W) as (v & E & _). eauto.
Qed.
(** A value-taking option gets the word that followed it, a flag gets "true", an option not given gets nothing. *)
Theorem C50_values : forall os av v l, NoDup (map name os) -> parse os av = Some v -> wellFormed os av l ->
  forall k o, nth_error os k = Some o ->
    match v k with
    | Some a => if takes o then In (name o, Some a) l else a = "true"%string /\ In (name o, None) l
    | None => ~ given (name o) l
    end.
Proof.
  intros os av v l N E W k o Hk. destruct (parse_line os av N l W) as (v' & E' & Wr). rewrite E in E'. injection E' as <-. rewrite (Wr k o Hk).
  destruct W as [HL _]. destruct (assigned l (name o)) as [a|] eqn:A.
  - assert (K := Line_kind os _ _ HL (name o)). assert (Ho := nth_error_In _ _ Hk). destruct (assigned_value _ _ _ A) as [H|[Ea H]]; destruct (K _ H) as (p & Hp & Ep & T); rewrite (same_opt os N p o Hp Ho Ep) in T; rewrite T; auto.
  - rewrite <- assigned_in. rewrite A. auto.
Qed.
Example tool : list opt := [Opt "in" true true; Opt "verbose" false false; Opt "out" true false].
Example tool_distinct : NoDup (map name tool).
Proof. repeat constructor; cbn; intuition discriminate. Qed.
Example tool_ok : wellFormed tool ["prog"; "-verbose"; "-in"; "-verbose"; "-out"; ""]%string [("verbose", None); ("in", Some "-verbose"); ("out", Some "")]%string.
Proof.
  split; [|split].
  - apply (line_flag tool (Opt "verbose" false false)); cbn; auto. apply (line_opt tool (Opt "in" true true)); cbn; auto. apply (line_opt tool (Opt "out" true false)); cbn; auto. constructor.
  - repeat constructor; cbn; intuition discriminate.
  - intros o Ho Hr. cbn in Ho. destruct Ho as [<-|[<-|[<-|[]]]]; try discriminate. cbn. auto.
Qed.
Example tool_values : option_map (fun v => (v 0, v 1, v 2)) (parse tool ["prog"; "-verbose"; "-in"; "x"]%string) = Some (Some "x", Some "true", None)%string.
Proof. reflexivity. Qed.
Example tool_rejects : parse tool ["prog"; "-in"; "x"; "-in"; "y"]%string = None /\ parse tool ["prog"; "-out"; "x"]%string = None /\ parse tool ["prog"; "-in"]%string = None.
Proof. repeat split. Qed.
Print Assumptions C50_accepts_exactly.
Print Assumptions C50_values.
