From Verif Require Import Base Res Chars Desc_Model Desc_Spec.
Local Open Scope N_scope.

Lemma skipToSemi_ok : forall n rest, ~ In (ch ";") n -> ~ In 0 n ->
  skipToSemi (n ++ ch ";" :: rest) = Ok (ch ";" :: rest).
Proof.
  induction n as [|c n IH]; intros rest H1 H2; [reflexivity|].
  cbn [app skipToSemi].
  destruct (c =? 0) eqn:E1; [apply N.eqb_eq in E1; subst; exfalso; apply H2; left; reflexivity|].
  destruct (c =? ch ";") eqn:E2; [apply N.eqb_eq in E2; subst; exfalso; apply H1; left; reflexivity|].
  cbn [orb]. apply IH; intros H; [apply H1|apply H2]; right; assumption.
Qed.

Fixpoint base (t : ftype) : ftype := match t with Array t => base t | _ => t end.
Lemma skipBrackets_ok : forall t rest, skipBrackets (printType t ++ rest) = Ok (printType (base t) ++ rest).
Proof.
  induction t as [p|n|t IH]; intros rest; cbn [printType base].
  - destruct p; reflexivity.
  - reflexivity.
  - cbn [app skipBrackets]. rewrite N.eqb_refl. apply IH.
Qed.
Lemma base_not_array : forall t t', base t <> Array t'.
Proof. induction t; cbn; intros; try discriminate. apply IHt. Qed.
Lemma base_wf : forall t, wellFormed t -> wellFormed (base t).
Proof. induction t; cbn; auto. Qed.

Lemma next_class : forall n rest, ~ In (ch ";") n /\ ~ In 0 n ->
  (do s <- skipToSemi (ch "L" :: n ++ ch ";" :: rest); Ok (inc s))%res = Ok rest.
Proof.
  intros n rest [H1 H2]. change (ch "L" :: n ++ ch ";" :: rest) with ((ch "L" :: n) ++ ch ";" :: rest). rewrite skipToSemi_ok.
  - reflexivity.
  - intros [H|H]; [discriminate|auto].
  - intros [H|H]; [discriminate|auto].
Qed.

Lemma next_ok : forall t rest, wellFormed t -> next (printType t ++ rest) = Ok rest.
Proof.
  intros t rest H. destruct t as [p|n|t]; cbn [wellFormed] in H.
  - destruct p; reflexivity.
  - cbn [printType app]. rewrite <- app_assoc. cbn [app]. apply next_class. assumption.
  - unfold next. cbn [printType app deref bind].
    change (ch "[" =? ch ")") with false. change (ch "[" =? ch "L") with false. rewrite N.eqb_refl. cbn iota.
    change (ch "[" :: printType t ++ rest) with (printType (Array t) ++ rest).
    rewrite skipBrackets_ok. cbn [bind base].
    pose proof (base_not_array t) as Hna. pose proof (base_wf t H) as Hw.
    destruct (base t) as [p|n|t'].
    + destruct p; reflexivity.
    + cbn [printType app deref bind]. rewrite N.eqb_refl. rewrite <- app_assoc. cbn [app]. apply next_class. assumption.
    + exfalso. exact (Hna t' eq_refl).
Qed.

Lemma deref_type : forall t rest, exists c, deref (printType t ++ rest) = Ok c
  /\ (c =? ch ")") = false
  /\ ((c =? ch "J") || (c =? ch "D")) = (slots t =? 2)
  /\ fieldCode c = Ok (codeOf (Some t)).
Proof.
  intros [p|n|t] rest; cbn [printType app deref].
  - destruct p; eexists; repeat split; reflexivity.
  - eexists; repeat split; reflexivity.
  - eexists; repeat split; reflexivity.
Qed.

Lemma slots_12 : forall t, slots t = if slots t =? 2 then 2 else 1.
Proof. intros [[]|n|t]; reflexivity. Qed.

Lemma scanLoop_ok : forall ps fuel rest count fp, Forall wellFormed ps -> (length ps <= fuel)%nat ->
  scanLoop fuel (flat_map printType ps ++ ch ")" :: rest) count fp
  = Ok (count + N.of_nat (length ps), fp + totalSlots ps, ch ")" :: rest).
Proof.
  induction ps as [|t ps IH]; intros fuel rest count fp Hw Hf.
  - cbn [flat_map app totalSlots fold_right length]. destruct fuel; cbn [scanLoop deref bind];
      change (ch ")" =? ch ")") with true; cbn iota; rewrite !N.add_0_r; reflexivity.
  - inversion Hw as [|? ? Ht Hw']; subst. cbn [length] in Hf. destruct fuel as [|fuel]; [lia|].
    cbn [flat_map]. rewrite <- app_assoc. cbn [scanLoop].
    destruct (deref_type t (flat_map printType ps ++ ch ")" :: rest)) as (c & H1 & H2 & H3 & _).
    rewrite H1. cbn [bind]. rewrite H2, next_ok by assumption. cbn [bind].
    rewrite H3, IH by (auto; lia). cbn [totalSlots fold_right length].
    rewrite (slots_12 t) at 2. destruct (slots t =? 2); do 3 f_equal; fold (totalSlots ps); lia.
Qed.

Lemma scanMethodSpec_ok : forall ps r fuel static_,
  Forall wellFormed ps -> (length ps <= fuel)%nat ->
  scanMethodSpec fuel (printMethod ps r) static_
  = Ok (N.of_nat (length ps), totalSlots ps + (if static_ then 0 else 1), codeOf r).
Proof.
  intros ps r fuel static_ Hw Hf. unfold scanMethodSpec, printMethod. cbn [inc tl].
  rewrite scanLoop_ok by assumption. cbn [bind]. rewrite !N.add_0_l.
  assert (E : exists c, deref (inc (ch ")" :: printReturn r ++ [0])) = Ok c /\ fieldCode c = Ok (codeOf r)).
  { destruct r as [t|]; cbn [inc tl printReturn].
    - destruct (deref_type t [0]) as (c & H1 & _ & _ & H4). eauto.
    - exists (ch "V"). split; reflexivity. }
  destruct E as (c & E1 & E2). rewrite E1. cbn [bind]. rewrite E2. cbn [bind].
  destruct static_; rewrite ?N.add_0_r; reflexivity.
Qed.

Lemma parameterFootprint_ok : forall ps r fuel static_,
  Forall wellFormed ps -> (length ps <= fuel)%nat ->
  parameterFootprint fuel (printMethod ps r) static_ = Ok (totalSlots ps + (if static_ then 0 else 1)).
Proof.
  intros ps r fuel static_ Hw Hf. unfold parameterFootprint, printMethod. cbn [inc tl].
  rewrite scanLoop_ok by assumption. cbn [bind]. destruct static_; rewrite ?N.add_0_r; reflexivity.
Qed.
