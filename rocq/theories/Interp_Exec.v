(** Each instruction of the interpreter does what the specification's [jeval] says. *)
From Verif Require Import Base Res Bits Interp_Types Interp_Model Jvm_Spec Interp_Obs Interp_Spec.
From Verif Require Import Interp_Rel Interp_Rel2 Interp_Rel3 Interp_Rel4 Interp_Heap Interp_Arith.
Import ListNotations.
Local Open Scope N_scope.
Local Open Scope res_scope.

(** * Decoding *)
Definition opEq (a b : option opcode) : {a = b} + {a <> b}.
Proof. repeat decide equality. Defined.

Lemma decode_jdecode_all : forallb (fun n => if opEq (decode (N.of_nat n)) (jdecode (N.of_nat n)) then true else false) (seq 0 256) = true.
Proof. vm_compute. reflexivity. Qed.
Lemma decode_jdecode : forall b, b < 256 -> decode b = jdecode b.
Proof.
  intros b H. pose proof decode_jdecode_all as A. rewrite forallb_forall in A.
  specialize (A (N.to_nat b) ltac:(apply in_seq; lia)). rewrite N2Nat.id in A.
  destruct (opEq (decode b) (jdecode b)); [assumption|discriminate].
Qed.

Definition smallConst (o : option opcode) : bool :=
  match o with
  | Some (OIconst z) => (-1 <=? z)%Z && (z <=? 5)%Z
  | Some (OLconst z) => (0 <=? z)%Z && (z <=? 1)%Z
  | Some (OFconst n) => n <=? 2
  | Some (ODconst n) => n <=? 1
  | Some (OArrStore KBool) => false
  | _ => true
  end.
Lemma smallConst_all : forallb (fun n => smallConst (jdecode (N.of_nat n))) (seq 0 256) = true.
Proof. vm_compute. reflexivity. Qed.
Lemma opAt_small : forall c pc, Forall (fun b => b < 256) c -> smallConst (opAt c pc) = true.
Proof.
  intros c pc F. unfold opAt, bindO. destruct (byteAt c pc) as [b|] eqn:B; [|reflexivity].
  apply byteAt_byte in B; [|assumption]. pose proof smallConst_all as A. rewrite forallb_forall in A.
  specialize (A (N.to_nat b) ltac:(apply in_seq; lia)). rewrite N2Nat.id in A. exact A.
Qed.

Lemma opAt_ilen : forall c pc o, opAt c pc = Some o -> ilen c pc =
  match o with
  | OBipush | OLdc | OLoad _ | OStore _ | ORet | ONewarray => Some 2
  | OSipush | OLdcW | OLdc2W | OIinc | OIf _ | OIfI _ | OIfA _ | OIfNull _ | OGoto | OJsr
  | OGetstatic | OPutstatic | OGetfield | OPutfield
  | OInvokevirtual | OInvokespecial | OInvokestatic
  | ONew | OAnewarray | OCheckcast | OInstanceof => Some 3
  | OGotoW | OJsrW | OInvokeinterface => Some 5
  | OTableswitch =>
      let a := aligned pc in
      let? lo := s4At c (a + 4) in let? hi := s4At c (a + 8) in
      guard (lo <=? hi)%Z (Some (a - pc + 12 + 4 * Z.to_N (hi - lo + 1)))
  | OLookupswitch =>
      let a := aligned pc in
      let? n := s4At c (a + 4) in
      guard (0 <=? n)%Z (Some (a - pc + 8 + 8 * Z.to_N n))
  | OWide => let? o2 := opAt c (pc + 1) in Some (match o2 with OIinc => 6 | _ => 4 end)
  | _ => Some 1
  end.
Proof.
  intros c pc o H. unfold opAt, bindO in H. unfold ilen. destruct (byteAt c pc) as [b|] eqn:B; [|discriminate].
  cbn [bindO]. destruct (N.eqb_spec b 186); [subst; discriminate|]. destruct (N.eqb_spec b 197); [subst; discriminate|].
  rewrite H. cbn [bindO]. reflexivity.
Qed.


Lemma wloc_id : forall f, wloc f (j_loc f) = f.
Proof. destruct f. reflexivity. Qed.

Section Exec.
Variables (E : env) (bot : Z).
Hypothesis WF : wfEnv E.
Variables (s : cst) (h : heap) (lg : list mev) (f : jframe) (rest : list jframe) (jh : jheap).
Notation codeOf := (codeOf E).
Notation pc := (j_pc f).
Notation Rs := (Rst E bot).
Hypothesis H : Rs 0 s (pc + 1) h lg f rest.
Hypothesis HR : hrel E h jh.
Hypothesis HJ : jnext jh < 2 ^ 63.

Definition effOk (o : opcode) (e : jeff) : Prop :=
  match e with
  | ENext loc st jh' =>
      depth st <= maxSt E f -> jnext jh' < 2 ^ 63 ->
      exists s' h' l, exec E bot o s = Ok (s', CLoop) /\ ilen (codeOf f) pc = Some l /\
        Rs 0 s' (pc + l) h' lg (wst (wloc f loc) st) rest /\ hrel E h' jh'
  | EJump p loc st =>
      depth st <= maxSt E f -> p < 2 ^ 16 ->
      exists s', exec E bot o s = Ok (s', CLoop) /\ Rs 0 s' p h lg (wst (wloc f loc) st) rest
  | EMon ev st =>
      exists s' l, exec E bot o s = Ok (s', CLoop) /\ ilen (codeOf f) pc = Some l /\
        Rs 0 s' (pc + l) h (ev :: lg) (wst f st) rest
  | ENew c jh' =>
      jh' = jh /\
      exists s' i h' st l, exec E bot o s = Ok (s', CThrow) /\ ilen (codeOf f) pc = Some l /\
        pc < i <= pc + l /\ Rs (jnext jh) s' i h' lg (wst f st) rest /\
        hrel E h' (snd (jalloc jh (newInst E c)))
  | EThrow x =>
      exists s' i st l, exec E bot o s = Ok (s', CThrow) /\ ilen (codeOf f) pc = Some l /\
        pc < i <= pc + l /\ Rs x s' i h lg (wst f st) rest /\ x < 2 ^ 64
  | ECall m' args st =>
      exists s1 l, exec E bot o s = doInvoke E s1 m' /\ ilen (codeOf f) pc = Some l /\
        Rs 0 s1 (pc + l) h lg f rest /\ takeArgs (m_pf (e_method E m')) (j_stk f) = Some (args, st)
  | EReturn v =>
      exists s1 i st r, exec E bot o s = ret E bot s1 r /\ Rs 0 s1 i h lg (wst f st) rest /\ retRel v r
  end.

Definition okOp (o : opcode) : Prop :=
  opAt (codeOf f) pc = Some o ->
  forall e, jeval E (j_m f) pc (j_loc f) (j_stk f) jh = Some e ->
  diverges E (j_m f) pc (j_stk f) jh = false -> effOk o e.

Lemma throwNew_ok : forall s1 i st c, Rs 0 s1 i h lg (wst f st) rest ->
  exists s' h', throwNew E s1 c = Ok (s', CThrow) /\ Rs (jnext jh) s' i h' lg (wst f st) rest /\
     hrel E h' (snd (jalloc jh (newInst E c))).
Proof.
  intros s1 i st c H1. pose proof (Rst_hp _ _ _ _ _ _ _ _ _ H1) as HP.
  destruct (hrel_alloc E h jh (zeroInst E c) (newInst E c) HR HJ (newInst_rel E WF c)) as [A1 A2].
  unfold throwNew. rewrite HP. destruct (alloc h (zeroInst E c)) as [o h'] eqn:AL. cbn [fst snd] in *.
  exists (setExc (setHp s1 h') o), h'. split; [reflexivity|]. split; [|assumption].
  destruct H1 as (B1 & B2 & B3 & B4 & B5 & B6 & B7 & B8 & B9). unfold Rst.
  cbn [ip hp log cur exc ssz frm mem sp setExc setHp].
  split; [assumption|]. split; [reflexivity|]. split; [assumption|]. split; [assumption|].
  split; [rewrite A1; reflexivity|]. do 3 (split; [assumption|]). exact B9.
Qed.

Lemma stk0 : Rs 0 s (pc + 1) h lg (wst f (j_stk f)) rest.
Proof. apply Rst_stk. exact H. Qed.

Lemma throw_np : forall o s1 i st c l,
  exec E bot o s = throwNew E s1 c -> Rs 0 s1 i h lg (wst f st) rest ->
  ilen (codeOf f) pc = Some l -> pc < i <= pc + l -> effOk o (ENew c jh).
Proof.
  intros o s1 i st c l X R L I. destruct (throwNew_ok _ _ _ c R) as (s' & h' & T & R' & HR').
  cbn [effOk]. split; [reflexivity|]. exists s', i, h', st, l. rewrite X. auto.
Qed.

End Exec.

(** * Tactics shared by the per-instruction proofs *)
Ltac begin :=
  let OP := fresh "OP" in let e := fresh "e" in let J := fresh "J" in let DV := fresh "DV" in
  let IL := fresh "IL" in let HS := fresh "HS" in
  intros OP e J DV; unfold jeval in J; unfold diverges in DV;
  match goal with
  | HH : Rst ?E _ 0 _ _ _ _ ?f _ |- _ =>
      change (m_code (e_method E (j_m f))) with (codeOf E f) in J;
      change (m_code (e_method E (j_m f))) with (codeOf E f) in DV;
      pose proof (Rst_stk _ _ _ _ _ _ _ _ _ HH) as HS
  end;
  rewrite OP in J; cbn [bindO] in J; rewrite OP in DV;
  pose proof (opAt_ilen _ _ _ OP) as IL;
  unfold jif, jload, jret, jinc, jstore, target, bindO, guard in *.
Ltac split1 J :=
  match type of J with context [match ?y with _ => _ end] => destruct y eqn:?; try discriminate end.
Lemma some_inj : forall A (a b : A), Some a = Some b -> a = b.
Proof. intros A a b X. injection X as X. exact X. Qed.
Ltac fin J := apply some_inj in J; match type of J with _ = ?e => subst e end.

Ltac popI :=
  match goal with
  | HH : Rst _ _ _ ?s1 _ _ _ (wst _ (?v :: _)) _ |- context [popInt ?s1] =>
      let s2 := fresh "s" in let P := fresh "P" in let R := fresh "R" in let V := fresh "V" in
      destruct (popInt_ok _ _ _ _ _ _ _ _ _ v _ HH eq_refl eq_refl) as (s2 & P & R & V);
      rewrite P; cbn [bind valBits]; cbn [valOk] in V
  end.
Ltac popL :=
  match goal with
  | HH : Rst _ _ _ ?s1 _ _ _ (wst _ (?v :: _)) _ |- context [popLong ?s1] =>
      let s2 := fresh "s" in let P := fresh "P" in let R := fresh "R" in let V := fresh "V" in
      destruct (popLong_ok _ _ _ _ _ _ _ _ _ v _ HH eq_refl) as (s2 & P & R & V);
      rewrite P; cbn [bind valBits]; cbn [valOk] in V
  end.
Ltac popO :=
  match goal with
  | HH : Rst _ _ _ ?s1 _ _ _ (wst _ (VRef ?v :: _)) _ |- context [popObject ?s1] =>
      let s2 := fresh "s" in let P := fresh "P" in let R := fresh "R" in let V := fresh "V" in
      destruct (popObject_ok _ _ _ _ _ _ _ _ _ v _ HH) as (s2 & P & R & V);
      rewrite P; cbn [bind valBits]
  end.
Ltac peekO :=
  match goal with
  | HH : Rst _ _ _ ?s1 _ _ _ (wst _ (VRef ?v :: _)) _ |- context [below ?s1 1] =>
      let B := fresh "B" in
      destruct (popSlot_ok _ _ _ _ _ _ _ _ _ (VRef v) _ HH eq_refl) as (? & _ & _ & ? & _ & ? & B);
      unfold below at 1; replace (1 <=? sp s1) with true by lia; cbn [bind];
      unfold peekObject at 1; unfold peek at 1; unfold rdSlot at 1;
      replace (sp s1 - 1 <? ssz s1) with true by lia; cbn [bind];
      match goal with MM : mem s1 (sp s1 - 1) = _ |- _ => rewrite MM end;
      cbn [fst snd valTag valBits]; rewrite N.eqb_refl; cbn [bind]
  end.
(* push v, given as valBits v *)
Ltac pushI v :=
  match goal with
  | HH : Rst _ _ _ ?s1 _ _ _ (wst _ ?st) _ |- context [pushInt ?s1 ?n] =>
      let s2 := fresh "s" in let P := fresh "P" in let R := fresh "R" in
      destruct (pushInt_ok _ _ _ _ _ _ _ _ _ st v n HH eq_refl eq_refl) as (s2 & P & R);
      [ cbn [valBits]; try reflexivity | cbn [valOk] | assumption
      | rewrite P; unfold loop; cbn [bind] ]
  end.
Ltac pushL v :=
  match goal with
  | HH : Rst _ _ _ ?s1 _ _ _ (wst _ ?st) _ |- context [pushLong ?s1 ?n] =>
      let s2 := fresh "s" in let P := fresh "P" in let R := fresh "R" in
      destruct (pushLong_ok _ _ _ _ _ _ _ _ _ st v n HH eq_refl) as (s2 & P & R);
      [ cbn [valBits]; try reflexivity | cbn [valOk] | assumption
      | rewrite P; unfold loop; cbn [bind] ]
  end.
Ltac pushO :=
  match goal with
  | HH : Rst _ _ _ ?s1 _ _ _ (wst _ ?st) _ |- context [pushObject ?s1 ?n] =>
      let s2 := fresh "s" in let P := fresh "P" in let R := fresh "R" in
      destruct (pushObject_ok _ _ _ _ _ _ _ _ _ st n HH) as (s2 & P & R);
      [ | assumption | rewrite P; unfold loop; cbn [bind] ]
  end.
Ltac conclude := do 3 eexists; split; [reflexivity|]; split; [eassumption|]; split; [eassumption | assumption].
Ltac goNext := let D := fresh "D" in let NJ := fresh "NJ" in intros D NJ; cbn [exec].

Ltac nx :=
  match goal with
  | B : byteAt _ ?i = Some _, HH : Rst ?E ?bot _ ?s1 ?i _ _ ?ff _ |- context [next1 ?E ?s1] =>
      let P := fresh "P" in let R := fresh "R" in
      destruct (next1_ok E bot _ s1 i _ _ ff _ _ HH B) as (P & R); rewrite P; cbn [bind]
  end.
Ltac rdIdx :=
  match goal with
  | B : u2At _ ?i = Some _, HH : Rst ?E ?bot _ ?s1 ?i _ _ ?ff _, WF : wfEnv ?E |- context [readIndex ?E ?s1] =>
      let s2 := fresh "s" in let P := fresh "P" in let R := fresh "R" in
      destruct (readIndex_ok E bot _ WF s1 i _ _ ff _ _ HH B) as (s2 & P & R); rewrite P; cbn [bind];
      match goal with HH0 : Rst _ _ 0 _ (j_pc ?f + 1) _ _ ?f _ |- _ => replace (i + 2) with (j_pc f + 3) in R by lia end
  end.
Ltac rd16 :=
  match goal with
  | B : s2At _ ?i = Some _, HH : Rst ?E ?bot _ ?s1 ?i _ _ ?ff _, WF : wfEnv ?E |- context [codeReadInt16 ?E ?s1] =>
      let s2 := fresh "s" in let P := fresh "P" in let R := fresh "R" in
      destruct (read16_ok E bot _ WF s1 i _ _ ff _ _ HH B) as (s2 & P & R); rewrite P; cbn [bind];
      match goal with HH0 : Rst _ _ 0 _ (j_pc ?f + 1) _ _ ?f _ |- _ => replace (i + 2) with (j_pc f + 3) in R by lia end
  end.
Ltac rd32 :=
  match goal with
  | B : s4At _ ?i = Some _, HH : Rst ?E ?bot _ ?s1 ?i _ _ ?ff _, WF : wfEnv ?E |- context [codeReadInt32 ?E ?s1] =>
      let P := fresh "P" in let R := fresh "R" in
      destruct (read32_ok E bot _ WF s1 i _ _ ff _ _ HH B) as (P & R); rewrite P; cbn [bind]
  end.
Ltac two := match goal with HH0 : Rst _ _ 0 _ (j_pc ?f + 1) _ _ ?f _ |- _ => replace (j_pc f + 1 + 1) with (j_pc f + 2) in * by lia end.

Ltac thrStart := cbn [effOk]; split; [reflexivity|]; cbn [exec].
Ltac thr :=
  match goal with
  | HH : Rst ?E ?bot _ ?s1 ?i ?h ?lg (wst ?f ?st) ?rest, HRR : hrel ?E ?h ?jh, HJJ : jnext ?jh < 2 ^ 63, WF : wfEnv ?E |- context [throwNew ?E ?s1 ?c] =>
      let s' := fresh "s" in let h' := fresh "h" in let T := fresh "T" in let R := fresh "R" in let HR' := fresh "HR" in
      destruct (throwNew_ok E bot WF h lg f rest jh HRR HJJ s1 i st c HH) as (s' & h' & T & R & HR'); rewrite T;
      do 5 eexists; split; [reflexivity|]; split; [eassumption|]; split; [|split; [eassumption|eassumption]]; lia
  end.

