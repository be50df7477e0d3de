(** Small methods run to their end: from the refinement theorem to results of calls. *)
From Verif Require Import Base Res Bits Interp_Types Interp_Model Jvm_Spec Interp_Obs Interp_Spec.
From Verif Require Import Interp_Rel Interp_Rel2 Interp_Rel3 Interp_Rel4 Interp_Heap Interp_Arith Interp_Entry.
Import ListNotations.
Local Open Scope N_scope.

Lemma ends_sound : forall E n S P, ends (regular E) n E S P -> sound E S.
Proof.
  intros E n S P H S' R. cut (exists k, ends (regular E) k E S' P).
  { intros [[|k] K]; [contradiction|]. destruct K as [K1 K2]. split.
    - unfold regular in K1. destruct (divergent E S'); [discriminate|reflexivity].
    - intros ov J. specialize (K2 ov). rewrite J in K2. exact K2. }
  induction R as [|S1 ov S2 R IH J]; [eauto|].
  destruct IH as [[|k] K]; [contradiction|]. destruct K as [_ K]. specialize (K ov). rewrite J in K. eauto.
Qed.

Lemma ends_out : forall ok E n S P k out, ends ok n E S P -> (n <= k)%nat -> jsteps E k S out -> P out.
Proof.
  intros ok E n. induction n as [|n IH]; intros S P k out H L J; [contradiction|].
  destruct H as [_ H]. inversion J as [|k' S1 ov out' JS NR|k' S1 ov S' out' JS JR]; subst.
  - lia.
  - specialize (H ov). rewrite JS in H. destruct out as [S'|v h l|x h l]; [contradiction (NR S' eq_refl)|exact H|exact H].
  - specialize (H ov). rewrite JS in H. eapply IH; [exact H| |exact JR]. lia.
Qed.

Lemma ends_mono : forall ok E n S (P Q : jres -> Prop), (forall out, P out -> Q out) -> ends ok n E S P -> ends ok n E S Q.
Proof.
  intros ok E n. induction n as [|n IH]; intros S P Q I H; [contradiction|]. destruct H as [H1 H2]. split; [exact H1|].
  intros ov. specialize (H2 ov). destruct (jstep ov E S) as [[S'|v h l|x h l]|]; auto. eapply IH; eassumption.
Qed.

(** Enough interpreter stack for a call of [M] *)
Definition room (s : cst) (M : method) : Prop :=
  sp s + 2 * m_pf M + m_maxLocals M + 4 + m_maxStack M <= ssz s.

Lemma call_ends : forall n E s m args jh S0 P,
  wfEnv E -> ready s -> hrel E (hp s) jh -> jnext jh < 2 ^ 63 -> room s (e_method E m) ->
  Forall argOk args -> depth args = m_pf (e_method E m) ->
  m_pf (e_method E m) <= m_maxLocals (e_method E m) ->
  isBoundary (m_code (e_method E m)) 0 = true ->
  entered E m args jh (log s) = Some S0 ->
  ends (regular E) n E S0 P ->
  exists s' o out, invokeN n E s m args = Ok (s', o) /\ P out /\ agrees E out s' o.
Proof.
  intros n E s m args jh S0 P WF RD HR HJ RM FA DA PL B0 EN EX.
  destruct (invoke_ok E WF n s m args jh S0 RD HR HJ FA DA PL B0 EN (ends_sound _ _ _ _ EX)) as (s' & o & IN & [(out & JS & AG)|OV]).
  - exists s', o, out. split; [exact IN|]. split; [|exact AG]. eapply ends_out; [exact EX| |exact JS]. lia.
  - exfalso. destruct OV as (_ & _ & _ & _ & OV). unfold room in RM. lia.
Qed.

(** A static, unsynchronized method without handlers *)
Definition plain (code : list N) (locals stack pf : N) : method :=
  {| m_code := code; m_maxLocals := locals; m_maxStack := stack; m_pf := pf; m_static := true; m_sync := false;
     m_class := 0; m_jclass := 0; m_handlers := [] |}.

Definition gives (v : val) (out : jres) : Prop :=
  match out with JDone (Some w) _ _ => w = v | _ => False end.
Definition throws (E : env) (c : N) (out : jres) : Prop :=
  match out with JThrown o h _ => jclass h o = Some c | _ => False end.

Lemma call_gives : forall n E s m args jh S0 v code locals stack pf,
  wfEnv E -> ready s -> hrel E (hp s) jh -> jnext jh < 2 ^ 63 ->
  e_method E m = plain code locals stack pf -> room s (e_method E m) ->
  Forall argOk args -> depth args = pf -> pf <= locals -> isBoundary code 0 = true ->
  entered E m args jh (log s) = Some S0 ->
  ends (regular E) n E S0 (gives v) ->
  exists s' r, invokeN n E s m args = Ok (s', IReturned r) /\ retRel (Some v) r.
Proof.
  intros n E s m args jh S0 v code locals stack pf WF RD HR HJ HM RM FA DA PL B0 EN EX.
  destruct (call_ends n E s m args jh S0 (gives v) WF RD HR HJ RM FA) as (s' & o & out & IN & PO & AG); try (rewrite HM; assumption); try assumption.
  destruct out as [S'|[w|] h l|x h l]; try contradiction. cbn [gives] in PO. subst w.
  destruct o; try contradiction. destruct AG as (RR & _). eauto.
Qed.

Lemma call_throws : forall n E s m args jh S0 c code locals stack pf,
  wfEnv E -> ready s -> hrel E (hp s) jh -> jnext jh < 2 ^ 63 ->
  e_method E m = plain code locals stack pf -> room s (e_method E m) ->
  Forall argOk args -> depth args = pf -> pf <= locals -> isBoundary code 0 = true ->
  entered E m args jh (log s) = Some S0 ->
  ends (regular E) n E S0 (throws E c) ->
  exists s' x, invokeN n E s m args = Ok (s', IThrew x) /\ objectClass (hp s') x = Ok c.
Proof.
  intros n E s m args jh S0 c code locals stack pf WF RD HR HJ HM RM FA DA PL B0 EN EX.
  destruct (call_ends n E s m args jh S0 (throws E c) WF RD HR HJ RM FA) as (s' & o & out & IN & PO & AG); try (rewrite HM; assumption); try assumption.
  destruct out as [S'|[w|] h l|x h l]; try contradiction. cbn [throws] in PO.
  destruct o; try contradiction. destruct AG as (-> & HR' & _). exists s', x. split; [exact IN|]. eapply hrel_class; eassumption.
Qed.

(** One instruction of a small method *)
Lemma ends_next : forall ok k E m pc loc0 st0 mo rest h lg P loc st h' l,
  let f := {| j_m := m; j_pc := pc; j_loc := loc0; j_stk := st0; j_mon := mo |} in
  ok {| j_frames := f :: rest; j_heap := h; j_log := lg |} = true ->
  jeval E m pc loc0 st0 h = Some (ENext loc st h') ->
  ilen (m_code (e_method E m)) pc = Some l ->
  isBoundary (m_code (e_method E m)) (pc + l) = true ->
  (depth st <=? m_maxStack (e_method E m)) = true -> jnext h' < 2 ^ 63 ->
  ends ok k E {| j_frames := {| j_m := m; j_pc := pc + l; j_loc := loc; j_stk := st; j_mon := mo |} :: rest; j_heap := h'; j_log := lg |} P ->
  ends ok (S k) E {| j_frames := f :: rest; j_heap := h; j_log := lg |} P.
Proof.
  intros ok k E m pc loc0 st0 mo rest h lg P loc st h' l f OK JE IL B D NX K. cbn [ends]. split; [exact OK|]. intros ov.
  unfold jstep. cbn [j_frames j_heap j_log f j_m j_pc j_loc j_stk j_mon]. rewrite JE. cbn [bindO]. rewrite IL. cbn [bindO].
  unfold runs, runnable, guard. cbn [j_m j_pc j_stk]. rewrite B, D. apply N.ltb_lt in NX. rewrite NX. exact K.
Qed.

Lemma ends_jump : forall ok k E m pc loc0 st0 mo rest h lg P loc st p,
  let f := {| j_m := m; j_pc := pc; j_loc := loc0; j_stk := st0; j_mon := mo |} in
  ok {| j_frames := f :: rest; j_heap := h; j_log := lg |} = true ->
  jeval E m pc loc0 st0 h = Some (EJump p loc st) ->
  isBoundary (m_code (e_method E m)) p = true ->
  (depth st <=? m_maxStack (e_method E m)) = true -> jnext h < 2 ^ 63 ->
  ends ok k E {| j_frames := {| j_m := m; j_pc := p; j_loc := loc; j_stk := st; j_mon := mo |} :: rest; j_heap := h; j_log := lg |} P ->
  ends ok (S k) E {| j_frames := f :: rest; j_heap := h; j_log := lg |} P.
Proof.
  intros ok k E m pc loc0 st0 mo rest h lg P loc st p f OK JE B D NX K. cbn [ends]. split; [exact OK|]. intros ov.
  unfold jstep. cbn [j_frames j_heap j_log f j_m j_pc j_loc j_stk j_mon]. rewrite JE. cbn [bindO].
  unfold runs, runnable, guard. cbn [j_m j_pc j_stk]. rewrite B, D. apply N.ltb_lt in NX. rewrite NX. exact K.
Qed.

Lemma ends_return : forall ok k E m pc loc0 st0 mo h lg (P : jres -> Prop) v,
  let f := {| j_m := m; j_pc := pc; j_loc := loc0; j_stk := st0; j_mon := mo |} in
  ok {| j_frames := [f]; j_heap := h; j_log := lg |} = true ->
  jeval E m pc loc0 st0 h = Some (EReturn v) ->
  P (JDone v h (exitLog f lg)) ->
  ends ok (S k) E {| j_frames := [f]; j_heap := h; j_log := lg |} P.
Proof.
  intros ok k E m pc loc0 st0 mo h lg P v f OK JE HP. cbn [ends]. split; [exact OK|]. intros ov.
  unfold jstep. cbn [j_frames j_heap j_log f j_m j_pc j_loc j_stk j_mon]. rewrite JE. exact HP.
Qed.

(** A new exception no handler of the (only) frame takes *)
Lemma ends_new : forall ok k E m pc loc0 st0 mo h lg (P : jres -> Prop) c h1,
  let f := {| j_m := m; j_pc := pc; j_loc := loc0; j_stk := st0; j_mon := mo |} in
  ok {| j_frames := [f]; j_heap := h; j_log := lg |} = true ->
  jeval E m pc loc0 st0 h = Some (ENew c h1) -> m_handlers (e_method E m) = [] ->
  P (JThrown (jnext h1) (snd (jalloc h1 (newInst E c))) (exitLog f lg)) ->
  ends ok (S k) E {| j_frames := [f]; j_heap := h; j_log := lg |} P.
Proof.
  intros ok k E m pc loc0 st0 mo h lg P c h1 f OK JE HH HP. cbn [ends]. split; [exact OK|]. intros ov.
  unfold jstep. cbn [j_frames j_heap j_log f j_m j_pc j_loc j_stk j_mon]. rewrite JE. cbn [bindO].
  unfold throwNewJ, jalloc. cbn [jthrow f j_m j_pc]. rewrite HH. cbn [find]. exact HP.
Qed.

(** Tactics computing the premises *)
Ltac evalIn t := let v := eval vm_compute in t in change t with v.
Ltac evalCode :=
  repeat match goal with
  | |- context [ opAt ?c ?p ] => evalIn (opAt c p)
  | |- context [ byteAt ?c ?p ] => evalIn (byteAt c p)
  | |- context [ u2At ?c ?p ] => evalIn (u2At c p)
  | |- context [ s2At ?c ?p ] => evalIn (s2At c p)
  | |- context [ s4At ?c ?p ] => evalIn (s4At c p)
  | |- context [ ilen ?c ?p ] => evalIn (ilen c p)
  end.
Ltac keep := cbn -[Z.add Z.sub Z.mul Z.land Z.lor Z.lxor Z.pow Z.div Z.modulo Z.quot Z.rem Z.opp sgn wrap jtoint jfcmp jshift jbin
  jcond fdec32 fdec64 fcompare Z.eqb Z.ltb Z.leb inI minI isBoundary opAt byteAt u2At s2At s4At ilen narrow].
Ltac calc HM :=
  rewrite ?HM; cbn [m_code plain bindO]; evalCode; keep; evalCode; keep.
Ltac jevalc HM := unfold jeval, jload, jstore, jinc, jif, target, guard; calc HM; try reflexivity.
Ltac okc HM := unfold regular, divergent, diverges, lostMonitor; cbn [j_frames j_m j_pc j_loc j_stk j_mon j_heap existsb]; calc HM; try reflexivity.
Ltac nxt HM :=
  eapply ends_next;
  [ okc HM | jevalc HM | rewrite HM; vm_compute; reflexivity | rewrite HM; vm_compute; reflexivity
  | rewrite HM; reflexivity | try assumption | match goal with |- context [?a + ?b] => evalIn (a + b) end ].
Ltac retc HM := eapply ends_return; [ okc HM | jevalc HM | ].
Ltac jmp HM :=
  eapply ends_jump;
  [ okc HM | jevalc HM | rewrite HM; vm_compute; reflexivity | rewrite HM; reflexivity | try assumption | ].
