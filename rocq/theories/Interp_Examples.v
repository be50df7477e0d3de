(** Concrete programs: non-vacuity of the interpreter theorems, and the programs on which the
    interpreter departs from the JVM specification. *)
From Verif Require Import Base Res Bits Interp_Types Interp_Model Jvm_Spec Interp_Obs Interp_Spec.
From Verif Require Import Interp_Entry Interp_Small Interp_Ops.
Import ListNotations.
Local Open Scope N_scope.

(** * Deciding [ends] and well-formedness *)
Definition isCall (E : env) (S : jstate) : bool :=
  match j_frames S with
  | f :: _ => match jeval E (j_m f) (j_pc f) (j_loc f) (j_stk f) (j_heap S) with Some (ECall _ _ _) => true | _ => false end
  | [] => false
  end.
Lemma jstep_ov : forall E S ov, isCall E S = false -> jstep ov E S = jstep false E S.
Proof.
  intros E S ov H. unfold isCall in H. unfold jstep. destruct (j_frames S) as [|f rest]; [reflexivity|].
  destruct (jeval E (j_m f) (j_pc f) (j_loc f) (j_stk f) (j_heap S)) as [e|]; [|reflexivity]. destruct e; try reflexivity. discriminate.
Qed.
Fixpoint endsb (ok : jstate -> bool) (n : nat) (E : env) (S : jstate) (p : jres -> bool) : bool :=
  match n with
  | O => false
  | Datatypes.S k =>
      ok S &&
      forallb (fun ov => match jstep ov E S with
                         | None => false
                         | Some (JRun S') => endsb ok k E S' p
                         | Some out => p out
                         end) (if isCall E S then [true; false] else [false])
  end.
Lemma endsb_ok : forall ok n E S p (P : jres -> Prop),
  (forall out, p out = true -> P out) -> endsb ok n E S p = true -> ends ok n E S P.
Proof.
  intros ok n E. induction n as [|n IH]; intros S p P HP H; [discriminate|]. cbn [endsb] in H.
  apply andb_true_iff in H. destruct H as [H1 H2]. split; [exact H1|]. intros ov.
  assert (K : match jstep ov E S with None => false | Some (JRun S') => endsb ok n E S' p | Some out => p out end = true).
  { rewrite forallb_forall in H2. destruct (isCall E S) eqn:C.
    - apply (H2 ov). destruct ov; cbn; auto.
    - rewrite jstep_ov by assumption. apply (H2 false). cbn. auto. }
  destruct (jstep ov E S) as [[S'|v h l|x h l]|]; auto; [eapply IH; eassumption|discriminate].
Qed.

Definition wfCode (M : method) : bool :=
  let c := m_code M in
  let n := N.of_nat (length c) in
  forallb (fun b => b <? 256) c && (n <? 2 ^ 16) && (m_maxLocals M <? 2 ^ 16) && (m_maxStack M <? 2 ^ 16)
  && forallb (fun pc => match ilen c pc with Some l => pc + l <=? n | None => false end) (boundaries c)
  && forallb (fun h => (isBoundary c (h_start h) || (n <=? h_start h)) && (isBoundary c (h_end h) || (n <=? h_end h))) (m_handlers M).
Lemma wfCode_ok : forall M, wfCode M = true -> wfMethod M.
Proof.
  intros M H. unfold wfCode in H. rewrite !andb_true_iff in H. destruct H as (((((H1 & H2) & H3) & H4) & H5) & H6).
  constructor.
  - apply Forall_forall. intros b Hb. rewrite forallb_forall in H1. specialize (H1 b Hb). lia.
  - lia.
  - lia.
  - lia.
  - intros pc B. unfold isBoundary in B. apply existsb_exists in B. destruct B as (q & Q1 & Q2). apply N.eqb_eq in Q2. subst q.
    rewrite forallb_forall in H5. specialize (H5 pc Q1). destruct (ilen (m_code M) pc) as [l|]; [|discriminate].
    exists l. split; [reflexivity|]. lia.
  - intros h Hh. rewrite forallb_forall in H6. specialize (H6 h Hh). apply andb_true_iff in H6. destruct H6 as [A B].
    apply orb_true_iff in A, B. split; [destruct A; [left; assumption|right; lia]|destruct B; [left; assumption|right; lia]].
Qed.

(** * A linked program with two methods and one class with four fields *)
Definition zeroFops : fops :=
  {| f_bin32 := fun _ _ _ => 0; f_bin64 := fun _ _ _ => 0; f_neg32 := fun _ => 0; f_neg64 := fun _ => 0;
     f_f2d := fun _ => 0; f_d2f := fun _ => 0; f_i2f := fun _ => 0; f_i2d := fun _ => 0; f_l2f := fun _ => 0; f_l2d := fun _ => 0 |}.
Definition fields1 : list field :=
  [ {| f_id := 0; f_kind := KChar; f_off := 8 |}; {| f_id := 1; f_kind := KBool; f_off := 10 |};
    {| f_id := 2; f_kind := KInt; f_off := 12 |}; {| f_id := 3; f_kind := KByte; f_off := 16 |} ].
Definition noField : field := {| f_id := 99; f_kind := KInt; f_off := 8 |}.
Definition kindNo (k : kind) : N :=
  match k with KBool => 101 | KByte => 102 | KChar => 103 | KShort => 104 | KInt => 105 | KLong => 106 | KFlt => 107 | KDbl => 108 | KRef => 109 end.
Definition prog (M0 M1 : method) (wrapv : bool) : env :=
  {| e_method := fun m => if m =? 1 then M1 else M0;
     e_resolveMethod := fun _ _ => 1;
     e_resolveField := fun _ i => nth (N.to_nat i) fields1 noField;
     e_resolveClass := fun _ i => i;
     e_const := fun _ _ => VInt 7;
     e_virtual := fun m _ => m; e_interface := fun m _ => m; e_special := fun m _ => m;
     e_layout := fun c => if c =? 1 then fields1 else [];
     e_size := fun _ => 24;
     e_staticTable := fun _ _ => 0;
     e_arrayClass := kindNo;
     e_objArrayClass := fun c => 1000 + c;
     e_elemClass := fun c => c - 1000;
     e_instance := fun c k => c =? k;
     e_npe := 201; e_aioobe := 202; e_arith := 203; e_negsize := 204; e_soe := 205; e_cce := 206; e_ase := 207;
     e_shutdown := 0; e_fops := zeroFops; e_wrapv := wrapv |}.

Lemma prog_wf : forall M0 M1, wfCode M0 = true -> wfCode M1 = true -> wfEnv (prog M0 M1 true).
Proof.
  intros M0 M1 H0 H1.
  assert (L : forall c f, In f (e_layout (prog M0 M1 true) c) -> In f fields1).
  { intros c f. cbn [prog e_layout]. destruct (c =? 1); [auto|contradiction]. }
  constructor; cbn [prog e_wrapv e_method e_size e_arrayClass e_objArrayClass e_const e_fops zeroFops
    f_bin32 f_bin64 f_neg32 f_neg64 f_f2d f_d2f f_i2f f_i2d f_l2f f_l2d]; try (intros; reflexivity).
  - intros m. destruct (m =? 1); apply wfCode_ok; assumption.
  - intros c f Hf. apply L in Hf. cbn in Hf. repeat (destruct Hf as [<-|Hf]; [cbn; lia|]). contradiction.
  - intros c f g Hf Hg Hn. apply L in Hf, Hg. cbn in Hf, Hg.
    repeat (destruct Hf as [<-|Hf]; [repeat (destruct Hg as [<-|Hg]; [cbn in *; lia|]); contradiction|]). contradiction.
  - intros c f g Hf Hg Hn. apply L in Hf, Hg. cbn in Hf, Hg.
    repeat (destruct Hf as [<-|Hf]; [repeat (destruct Hg as [<-|Hg]; [first [reflexivity | discriminate Hn]|]); contradiction|]). contradiction.
  - intros m i c f Hf Hn. apply L in Hf. cbn [prog e_resolveField] in *.
    destruct (N.to_nat i) as [|[|[|[|[|k]]]]]; cbn in Hf, Hn |- *;
      repeat (destruct Hf as [<-|Hf]; [first [reflexivity | discriminate Hn]|]); contradiction.
  - intros k. destruct k; intros H; try discriminate H; reflexivity.
  - intros c H. unfold kindNo in H. lia.
Qed.

(** A thread with an empty stack of n slots, and an empty heap *)
Definition idle (n : N) : cst :=
  {| mem := fun _ => (0, 0); ssz := n; sp := 0; frm := -1; ip := 0; cur := 0; exc := 0;
     hp := {| objs := fun _ => None; next := 8 |}; log := [] |}.
Definition noObjs : jheap := {| jobjs := fun _ => None; jnext := 8 |}.

Lemma idle_ready : forall n, n < 2 ^ 31 -> ready (idle n).
Proof. intros n H. unfold ready. cbn. split; [reflexivity|]. split; [exact H|]. split; [lia|]. intros; lia. Qed.
Lemma idle_heap : forall E n, hrel E (hp (idle n)) noObjs.
Proof. intros E n. split; [reflexivity|]. split; [reflexivity|]. intros a. exact I. Qed.

Lemma prog_callable : forall M0 M1, wfCode M0 = true -> wfCode M1 = true ->
  2 * m_pf M0 + m_maxLocals M0 + 4 + m_maxStack M0 <= 1000 ->
  callable (prog M0 M1 true) (idle 1000) noObjs 0 M0.
Proof.
  intros M0 M1 H0 H1 R. constructor.
  - apply prog_wf; assumption.
  - apply idle_ready. reflexivity.
  - apply idle_heap.
  - reflexivity.
  - reflexivity.
  - unfold room. cbn [sp ssz idle]. lia.
Qed.

(** * Loops, calls, objects, exceptions and monitors together: the hypotheses of the main
    theorem hold.

    static int f(int n) { int s = 0; while (n > 0) { s += g(n); n--; } return s; }
    static synchronized int g(int n) { try { return 10 / (n - 2); } catch (ArithmeticException e) { return 100; } } *)
Definition loopM : method :=
  plain [0x03; 0x3c; 0x1a; 0x9e; 0; 16; 0x1b; 0x1a; 0xb8; 0; 1; 0x60; 0x3c; 0x84; 0; 255; 0xa7; 255; 242; 0x1b; 0xac] 2 2 1.
Definition divM : method :=
  {| m_code := [0x10; 10; 0x1a; 0x05; 0x64; 0x6c; 0xac; 0x57; 0x10; 100; 0xac]; m_maxLocals := 1; m_maxStack := 3; m_pf := 1;
     m_static := true; m_sync := true; m_class := 0; m_jclass := 48;
     m_handlers := [ {| h_start := 0; h_end := 7; h_ip := 7; h_type := 203 |} ] |}.

Definition givesb (v : Z) (out : jres) : bool :=
  match out with JDone (Some (VInt w)) _ _ => (w =? v)%Z | _ => false end.
Definition throwsb (c : N) (out : jres) : bool :=
  match out with JThrown o h _ => match jclass h o with Some k => k =? c | None => false end | _ => false end.
Lemma givesb_ok : forall v out, givesb v out = true -> gives (VInt v) out.
Proof.
  intros v out H. destruct out as [S'|[[z|z|b|b|o|p]|] h l|x h l]; try discriminate. cbn [givesb] in H. apply Z.eqb_eq in H.
  subst. reflexivity.
Qed.
Lemma throwsb_ok : forall E c out, throwsb c out = true -> throws E c out.
Proof.
  intros E c out H. destruct out as [S'|v h l|x h l]; try discriminate. unfold throwsb in H. unfold throws.
  destruct (jclass h x) as [k|]; [|discriminate]. apply N.eqb_eq in H. subst. reflexivity.
Qed.

Definition always : jstate -> bool := fun _ => true.

Definition loopE : env := prog loopM divM true.
Definition loopS (n : Z) : jstate :=
  {| j_frames := [{| j_m := 0; j_pc := 0; j_loc := argLoc [VInt n] 0 noLoc; j_stk := []; j_mon := None |}];
     j_heap := noObjs; j_log := [] |}.
Definition loopOut (out : jres) : bool :=
  match out with JDone (Some (VInt w)) _ _ => (w =? 105)%Z | JThrown o h _ => match jclass h o with Some k => k =? 205 | None => false end | _ => false end.
Lemma loop_sound : sound loopE (loopS 4).
Proof.
  apply ends_sound with (n := 100%nat) (P := fun _ => True).
  apply endsb_ok with (p := loopOut); [intros; exact I|]. vm_compute. reflexivity.
Qed.
Lemma loop_runs : exists s', invokeN 100 loopE (idle 1000) 0 [VInt 4] = Ok (s', IReturned (RInt 105)) /\
  log s' = [MExit 48; MEnter 48; MExit 48; MEnter 48; MExit 48; MEnter 48; MExit 48; MEnter 48].
Proof. eexists. split; vm_compute; reflexivity. Qed.

(** * Departures *)
(** fcmpl on a NaN leaves two results: [iconst_5; fload_0; fload_1; fcmpl; pop; ireturn] *)
Definition nanM : method := plain [0x08; 0x22; 0x23; 0x95; 0x57; 0xac] 2 3 2.
(** idiv, ldiv of the minimum by -1 *)
Definition divI : method := plain [0x1a; 0x1b; 0x6c; 0xac] 2 2 2.
Definition divL : method := plain [0x1e; 0x20; 0x6d; 0xad] 4 4 4.
(** f2l; lreturn *)
Definition f2lM : method := plain [0x22; 0x8c; 0xad] 1 2 1.
(** boolean[] a = new boolean[1]; a[0] = (boolean) 2; return a[0] *)
Definition boolArrM : method := plain [0x04; 0xbc; 4; 0x4b; 0x2a; 0x03; 0x05; 0x54; 0x2a; 0x03; 0x33; 0xac] 1 3 0.
(** C1[] a = new C1[1]; a[0] = new C2(); return 0 *)
Definition storeM : method := plain [0x04; 0xbd; 0; 1; 0x4b; 0x2a; 0x03; 0xbb; 0; 2; 0x53; 0x03; 0xac] 1 3 0.
(** C1 o = new C1(); o.c = (char) -1; return o.c *)
Definition charM : method := plain [0xbb; 0; 1; 0x4b; 0x2a; 0x02; 0xb5; 0; 0; 0x2a; 0xb4; 0; 0; 0xac] 1 2 0.
(** C1 o = new C1(); o.z = (boolean) 2; return o.z *)
Definition boolM : method := plain [0xbb; 0; 1; 0x4b; 0x2a; 0x05; 0xb5; 0; 1; 0x2a; 0xb4; 0; 1; 0xac] 1 2 0.
(** wide fload 0; freturn *)
Definition wideM : method := plain [0xc4; 0x17; 0; 0; 0xae] 1 1 1.
(** jsr L; return; L: wide astore 1; ret 1 *)
Definition wideRetM : method := plain [0xa8; 0; 4; 0xb1; 0xc4; 0x3a; 0; 1; 0xa9; 1] 2 1 0.
(** synchronized void f(Object o) { this := o } *)
Definition lostM : method :=
  {| m_code := [0x2b; 0x4b; 0xb1]; m_maxLocals := 2; m_maxStack := 1; m_pf := 2; m_static := false; m_sync := true;
     m_class := 0; m_jclass := 0; m_handlers := [] |}.

(** The specification of a call in a fresh thread: every execution ends in [P] *)
Definition specified (n : nat) (E : env) (args : list val) (P : jres -> Prop) : Prop :=
  exists S0, entered E 0 args noObjs [] = Some S0 /\ ends always n E S0 P.
Ltac spec q := eexists; split; [reflexivity|]; eapply (endsb_ok _ _ _ _ q); [|vm_compute; reflexivity].

Lemma nan_spec : specified 6 (prog nanM nanM true) [VFlt 0x7fc00000; VFlt 0] (gives (VInt 5)).
Proof. spec (givesb 5). apply givesb_ok. Qed.
Lemma nan_run : returns 6 (prog nanM nanM true) (idle 1000) 0 [VFlt 0x7fc00000; VFlt 0] (RInt (u32 (-1))).
Proof. eexists. vm_compute. reflexivity. Qed.

Lemma divI_spec : specified 4 (prog divI divI true) [VInt (-2147483648); VInt (-1)] (gives (VInt (-2147483648))).
Proof. spec (givesb (-2147483648)). apply givesb_ok. Qed.
Lemma divI_run : invokeN 4 (prog divI divI true) (idle 1000) 0 [VInt (-2147483648); VInt (-1)] = UB.
Proof. vm_compute. reflexivity. Qed.

Definition givesLb (v : Z) (out : jres) : bool :=
  match out with JDone (Some (VLong w)) _ _ => (w =? v)%Z | _ => false end.
Lemma givesLb_ok : forall v out, givesLb v out = true -> gives (VLong v) out.
Proof.
  intros v out H. destruct out as [S'|[[z|z|b|b|o|p]|] h l|x h l]; try discriminate. cbn [givesLb] in H. apply Z.eqb_eq in H.
  subst. reflexivity.
Qed.
Lemma f2l_spec : specified 3 (prog f2lM f2lM true) [VFlt 0x60AD78EC] (gives (VLong 9223372036854775807)).
Proof. spec (givesLb 9223372036854775807). apply givesLb_ok. Qed.
Lemma f2l_run : invokeN 3 (prog f2lM f2lM true) (idle 1000) 0 [VFlt 0x60AD78EC] = UB.
Proof. vm_compute. reflexivity. Qed.

Lemma boolArr_spec : specified 11 (prog boolArrM boolArrM true) [] (gives (VInt 0)).
Proof. spec (givesb 0). apply givesb_ok. Qed.
Lemma boolArr_run : returns 11 (prog boolArrM boolArrM true) (idle 1000) 0 [] (RInt 2).
Proof. eexists. vm_compute. reflexivity. Qed.

Lemma store_spec : specified 9 (prog storeM storeM true) [] (throws (prog storeM storeM true) (e_ase (prog storeM storeM true))).
Proof. spec (throwsb 207). apply throwsb_ok. Qed.
Lemma store_run : returns 9 (prog storeM storeM true) (idle 1000) 0 [] (RInt 0).
Proof. eexists. vm_compute. reflexivity. Qed.

Lemma char_spec : specified 8 (prog charM charM true) [] (gives (VInt 65535)).
Proof. spec (givesb 65535). apply givesb_ok. Qed.
Lemma char_run : returns 8 (prog charM charM true) (idle 1000) 0 [] (RInt (u32 (-1))).
Proof. eexists. vm_compute. reflexivity. Qed.

Lemma bool_spec : specified 8 (prog boolM boolM true) [] (gives (VInt 0)).
Proof. spec (givesb 0). apply givesb_ok. Qed.
Lemma bool_run : returns 8 (prog boolM boolM true) (idle 1000) 0 [] (RInt 2).
Proof. eexists. vm_compute. reflexivity. Qed.

Definition givesFb (v : N) (out : jres) : bool :=
  match out with JDone (Some (VFlt w)) _ _ => (w =? v) | _ => false end.
Lemma givesFb_ok : forall v out, givesFb v out = true -> gives (VFlt v) out.
Proof.
  intros v out H. destruct out as [S'|[[z|z|b|b|o|p]|] h l|x h l]; try discriminate. cbn [givesFb] in H. apply N.eqb_eq in H.
  subst. reflexivity.
Qed.
Lemma wide_spec : specified 2 (prog wideM wideM true) [VFlt 0x3F800000] (gives (VFlt 0x3F800000)).
Proof. spec (givesFb 0x3F800000). apply givesFb_ok. Qed.
Lemma wide_run : invokeN 2 (prog wideM wideM true) (idle 1000) 0 [VFlt 0x3F800000] = Abort.
Proof. vm_compute. reflexivity. Qed.

Definition donebP (out : jres) : Prop := match out with JDone None _ _ => True | _ => False end.
Definition doneb (out : jres) : bool := match out with JDone None _ _ => true | _ => false end.
Lemma doneb_ok : forall out, doneb out = true -> donebP out.
Proof. intros [S'|[v|] h l|x h l] H; try discriminate; exact I. Qed.
Lemma wideRet_spec : specified 4 (prog wideRetM wideRetM true) [] donebP.
Proof. spec doneb. apply doneb_ok. Qed.
Lemma wideRet_run : invokeN 4 (prog wideRetM wideRetM true) (idle 1000) 0 [] = Abort.
Proof. vm_compute. reflexivity. Qed.

Definition logIs (l : list mev) (out : jres) : Prop := match out with JDone None _ l' => l' = l | _ => False end.
Definition logIsb (a b : N) (out : jres) : bool :=
  match out with JDone None _ [MExit x; MEnter y] => (x =? a) && (y =? b) | _ => false end.
Lemma logIsb_ok : forall a b out, logIsb a b out = true -> logIs [MExit a; MEnter b] out.
Proof.
  intros a b [S'|[v|] h l|x h l] H; try discriminate. destruct l as [|[] [|[] [|]]]; try discriminate.
  cbn [logIsb] in H. apply andb_true_iff in H. destruct H as [H1 H2]. apply N.eqb_eq in H1, H2. subst. reflexivity.
Qed.
Lemma lost_spec : specified 3 (prog lostM lostM true) [VRef 16; VRef 24] (logIs [MExit 16; MEnter 16]).
Proof. spec (logIsb 16 16). apply logIsb_ok. Qed.
Lemma lost_run : exists s', invokeN 3 (prog lostM lostM true) (idle 1000) 0 [VRef 16; VRef 24] = Ok (s', IReturned RVoid) /\
  log s' = [MExit 24; MEnter 16].
Proof. eexists. split; vm_compute; reflexivity. Qed.

(** Compiled without -fwrapv, an overflowing iadd has no defined result. *)
Definition addI : method := plain [0x1a; 0x1b; 0x60; 0xac] 2 2 2.
Lemma addI_spec : specified 4 (prog addI addI false) [VInt 2147483647; VInt 1] (gives (VInt (-2147483648))).
Proof. spec (givesb (-2147483648)). apply givesb_ok. Qed.
Lemma addI_run : invokeN 4 (prog addI addI false) (idle 1000) 0 [VInt 2147483647; VInt 1] = UB.
Proof. vm_compute. reflexivity. Qed.
