(** Property theorems C15, C56. *)
From Verif Require Import Base Res Chars Desc_Model Desc_Spec Desc_Proofs.
Local Open Scope N_scope.

(** C15: on every well-formed descriptor the scan ends after one iteration per
    parameter, without reading past the NUL, with the grammar's count, footprint (plus
    receiver) and return code. *)
Theorem C15_scan_method_spec : forall ps ret fuel static_,
  Forall wellFormed ps -> (length ps <= fuel)%nat ->
  scanMethodSpec fuel (printMethod ps ret) static_
  = Ok (N.of_nat (length ps), totalSlots ps + (if static_ then 0 else 1), codeOf ret).
Proof. exact scanMethodSpec_ok. Qed.
Print Assumptions C15_scan_method_spec.

Theorem C15_parameter_footprint : forall ps ret fuel static_,
  Forall wellFormed ps -> (length ps <= fuel)%nat ->
  parameterFootprint fuel (printMethod ps ret) static_ = Ok (totalSlots ps + (if static_ then 0 else 1)).
Proof. exact parameterFootprint_ok. Qed.
Print Assumptions C15_parameter_footprint.

Example C15_demo : scanMethodSpec 4 (bytes "(I[[JLjava/lang/String;D)[Z" ++ [0]) false = Ok (4, 6, ObjectField)
  /\ bytes "(I[[JLjava/lang/String;D)[Z" ++ [0]
     = printMethod [Prim PInt; Array (Array (Prim PLong)); Class (bytes "java/lang/String"); Prim PDouble] (Some (Array (Prim PBoolean))).
Proof. split; reflexivity. Qed.

(** C56 refuted: a malformed (truncated) descriptor makes the scanner read past the end
    of the byte array; the class loader does not validate descriptors. *)
Theorem C56_truncated_descriptor_refuted :
  exists s fuel static_, ~ In 0 s /\ scanMethodSpec fuel (s ++ [0]) static_ = UB.
Proof. exists (bytes "(L"), 5%nat, true. split; [cbn; intuition discriminate|reflexivity]. Qed.
Print Assumptions C56_truncated_descriptor_refuted.
