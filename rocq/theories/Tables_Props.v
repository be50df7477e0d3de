(** Property theorems C13, C14, C54. *)
From Verif Require Import Base Res Tables_Model Tables_Proofs.
Local Open Scope N_scope.

(** C13: packed exception handlers and line entries unpack to their components. *)
Theorem C13_exception_handler_roundtrip : forall start end_ ip catchType,
  start < 65536 -> end_ < 65536 -> ip < 65536 -> catchType < 65536 ->
  let eh := exceptionHandler start end_ ip catchType in
  exceptionHandlerStart eh = start /\ exceptionHandlerEnd eh = end_
  /\ exceptionHandlerIp eh = ip /\ exceptionHandlerCatchType eh = catchType.
Proof. exact exceptionHandler_unpack. Qed.
Print Assumptions C13_exception_handler_roundtrip.

Theorem C13_line_number_roundtrip : forall ip line, ip < 2 ^ 32 -> line < 2 ^ 32 ->
  lineNumberIp (lineNumber ip line) = ip /\ lineNumberLine (lineNumber ip line) = line.
Proof. exact lineNumber_unpack. Qed.
Print Assumptions C13_line_number_roundtrip.

(** C14: for a table in ascending pc order in which the instruction's pc does not occur
    twice in a row, the lookup of return address [ret] ends within [length tbl]
    iterations with the line of the last entry at or before the instruction [ret - 1];
    if every entry starts later, the first entry's line is returned ([UnknownLine] for
    an empty table). *)
Theorem C14_line_lookup : forall (tbl : list (N * N)) ret,
  Forall (fun e => fst e < 65536 /\ snd e < 65536) tbl -> ascending N.le tbl -> 1 <= ret < 2 ^ 32 ->
  (forall i l l', nth_error tbl i = Some (ret - 1, l) -> nth_error tbl (S i) = Some (ret - 1, l') -> False) ->
  forall fuel, (length tbl <= fuel)%nat ->
  (exists i line,
     (exists pc, nth_error tbl i = Some (pc, line) /\ pc <= ret - 1)
     /\ (forall j pc l, (i < j)%nat -> nth_error tbl j = Some (pc, l) -> ret - 1 < pc)
     /\ findLineNumber fuel false (Some (packTable tbl)) ret = Ok (Z.of_N line))
  \/ ((forall j e, nth_error tbl j = Some e -> ret - 1 < fst e)
      /\ findLineNumber fuel false (Some (packTable tbl)) ret
         = Ok (match hd_error tbl with None => UnknownLine | Some e => Z.of_N (snd e) end)).
Proof.
  intros tbl ret H1 H2 H3 H4 fuel Hf.
  destruct (findLineNumber_ok tbl ret H1 H2 H3 H4 fuel Hf) as [(i & line & (Ha & Hb) & Hc)|H]; [left|right; exact H].
  exists i, line. auto.
Qed.
Print Assumptions C14_line_lookup.

Example C14_demo : findLineNumber 4 false (Some (packTable [(0, 7); (3, 8); (3, 9); (10, 4)])) 6 = Ok 9%Z.
Proof. reflexivity. Qed.
Example C14_demo_ascending : ascending N.le [(0, 7); (3, 8); (3, 9); (10, 4)].
Proof.
  intros i j e e' Hij Hi Hj. assert (H : nth_error [(0, 7); (3, 8); (3, 9); (10, 4)] j <> None) by congruence. apply nth_error_Some in H. cbn [length] in H.
  destruct j as [|[|[|[|j]]]]; [| | | |lia]; destruct i as [|[|[|[|i]]]]; try lia;
    cbn in Hi, Hj; injection Hi as <-; injection Hj as <-; cbn; lia.
Qed.

(** C54 refuted: with repeated start pcs (allowed by the class-file format and stored
    unchecked by the parser) the lookup never ends... *)
Theorem C54_repeated_pc_diverges_refuted :
  exists tbl ret, ascending N.le tbl /\ Forall (fun e => fst e < 65536 /\ snd e < 65536) tbl
    /\ 1 <= ret < 2 ^ 32
    /\ forall fuel, findLineNumber fuel false (Some (packTable tbl)) ret = Fuel.
Proof.
  exists [(4, 10); (4, 11); (4, 12)], 5. split; [|split; [|split]].
  - intros i j e e' Hij Hi Hj. apply nth_error_In in Hi, Hj.
    cbn in Hi, Hj. intuition (subst; cbn; lia).
  - repeat constructor.
  - split; [lia|reflexivity].
  - exact dup_diverges.
Qed.
Print Assumptions C54_repeated_pc_diverges_refuted.

(** ... and with entries out of order a line is reported that is not the one of the
    nearest preceding entry. *)
Theorem C54_out_of_order_refuted :
  exists tbl ret line, findLineNumber 10 false (Some (packTable tbl)) ret = Ok (Z.of_N line)
    /\ exists pc l pc', In (pc, l) tbl /\ In (pc', line) tbl /\ NoDup (map fst tbl)
       /\ pc' < pc /\ pc <= ret - 1.
Proof.
  exists [(10, 1); (0, 2)], 13, 2. split; [reflexivity|].
  exists 10, 1, 0. repeat split; try (cbn; auto; fail); try lia.
  cbn. repeat constructor; cbn; intuition discriminate.
Qed.
Print Assumptions C54_out_of_order_refuted.
