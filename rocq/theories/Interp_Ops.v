(** Results of calls of methods consisting of one operation on their parameters. *)
From Verif Require Import Base Res Bits Interp_Types Interp_Model Jvm_Spec Interp_Obs Interp_Spec.
From Verif Require Import Interp_Rel Interp_Arith Interp_Entry Interp_Small.
Import ListNotations.
Local Open Scope N_scope.

(** Opcode of each operation and its mathematical meaning; the result is taken modulo 2^32
    (2^64) by the statements below. *)
Definition intOps : list (N * (Z -> Z -> Z)) :=
  [ (0x60, Z.add); (0x64, Z.sub); (0x68, Z.mul); (0x7e, Z.land); (0x80, Z.lor); (0x82, Z.lxor);
    (0x78, fun a b => (a * 2 ^ (b mod 32))%Z); (0x7a, fun a b => (a / 2 ^ (b mod 32))%Z);
    (0x7c, fun a b => ((a mod 2 ^ 32) / 2 ^ (b mod 32))%Z) ].
Definition longOps : list (N * (Z -> Z -> Z)) :=
  [ (0x61, Z.add); (0x65, Z.sub); (0x69, Z.mul); (0x7f, Z.land); (0x81, Z.lor); (0x83, Z.lxor) ].
Definition longShifts : list (N * (Z -> Z -> Z)) :=
  [ (0x79, fun a b => (a * 2 ^ (b mod 64))%Z); (0x7b, fun a b => (a / 2 ^ (b mod 64))%Z);
    (0x7d, fun a b => ((a mod 2 ^ 64) / 2 ^ (b mod 64))%Z) ].
(** unary: the low 8 or 16 bits sign-extended, the low 16 bits, negation *)
Definition signed (w z : Z) : Z := ((z + 2 ^ (w - 1)) mod 2 ^ w - 2 ^ (w - 1))%Z.
Definition intUnary : list (N * (Z -> Z)) :=
  [ (0x91, signed 8); (0x92, fun a => (a mod 2 ^ 16)%Z); (0x93, signed 16); (0x74, Z.opp) ].
Definition comparisons : list (N * (Z -> Z -> bool)) :=
  [ (0x9f, Z.eqb); (0xa0, fun a b => negb (Z.eqb a b)); (0xa1, Z.ltb); (0xa2, Z.geb); (0xa3, Z.gtb); (0xa4, Z.leb) ].

(** The circumstances of a call: a linked program, a thread, a heap the two sides agree on, and
    stack space. *)
Record callable (E : env) (s : cst) (jh : jheap) (m : N) (M : method) : Prop := {
  ca_wf : wfEnv E;
  ca_ready : ready s;
  ca_heap : hrel E (hp s) jh;
  ca_next : jnext jh < 2 ^ 63;
  ca_method : e_method E m = M;
  ca_room : room s M
}.

Definition returns (n : nat) (E : env) (s : cst) (m : N) (args : list val) (r : rres) : Prop :=
  exists s', invokeN n E s m args = Ok (s', IReturned r).
Definition raises (n : nat) (E : env) (s : cst) (m : N) (args : list val) (c : N) : Prop :=
  exists s' x, invokeN n E s m args = Ok (s', IThrew x) /\ objectClass (hp s') x = Ok c.

Ltac start C HM :=
  let X := fresh in let HR := fresh "HR" in let RM := fresh "RM" in
  destruct C as [WF RD HR HJ HM RM]; rewrite <- HM in RM.
Ltac args := repeat (apply Forall_cons; [split; [assumption|exact I]|]); apply Forall_nil.
Ltac enter HM EN := unfold entered in EN; rewrite HM in EN; cbn in EN; injection EN as <-.

Lemma call_ret : forall n E s jh m args v code locals stack pf,
  callable E s jh m (plain code locals stack pf) ->
  Forall argOk args -> depth args = pf -> pf <= locals -> isBoundary code 0 = true ->
  (forall S0, entered E m args jh (log s) = Some S0 -> ends (regular E) n E S0 (gives v)) ->
  exists r, returns n E s m args r /\ retRel (Some v) r.
Proof.
  intros n E s jh m args v code locals stack pf C FA DA PL B0 K. start C HM.
  destruct (entered E m args jh (log s)) as [S0|] eqn:EN.
  2:{ unfold entered in EN. rewrite HM in EN. discriminate. }
  destruct (call_gives n E s m args jh S0 v code locals stack pf WF RD HR HJ HM RM FA DA PL B0 EN (K S0 eq_refl)) as (s' & r & I & R).
  exists r. split; [exists s'; exact I|exact R].
Qed.
Lemma call_exn : forall n E s jh m args c code locals stack pf,
  callable E s jh m (plain code locals stack pf) ->
  Forall argOk args -> depth args = pf -> pf <= locals -> isBoundary code 0 = true ->
  (forall S0, entered E m args jh (log s) = Some S0 -> ends (regular E) n E S0 (throws E c)) ->
  raises n E s m args c.
Proof.
  intros n E s jh m args c code locals stack pf C FA DA PL B0 K. start C HM.
  destruct (entered E m args jh (log s)) as [S0|] eqn:EN.
  2:{ unfold entered in EN. rewrite HM in EN. discriminate. }
  exact (call_throws n E s m args jh S0 c code locals stack pf WF RD HR HJ HM RM FA DA PL B0 EN (K S0 eq_refl)).
Qed.

Ltac fromRet R := destruct R as (r & R1 & R2); destruct r; try contradiction R2; cbn [retRel] in R2; destruct R2 as [-> _].

Lemma u32_sgn : forall z, u32 (sgn 32 z) = u32 z.
Proof. intros. apply ubits_sgn. lia. Qed.
Lemma u64_sgn : forall z, u64 (sgn 64 z) = u64 z.
Proof. intros. apply ubits_sgn. lia. Qed.
Lemma signed_sgn : forall w z, (0 < w)%Z -> signed w z = sgn w z.
Proof.
  intros w z Hw. unfold signed, sgn. destruct (pow_half w Hw) as [E P]. 
  pose proof (Z.mod_pos_bound z (2 ^ w) ltac:(lia)) as B.
  rewrite Z.add_mod by lia. rewrite (Z.mod_small (2 ^ (w - 1))) by lia.
  destruct (Z.ltb_spec (z mod 2 ^ w) (2 ^ (w - 1))).
  - rewrite Z.mod_small by lia. lia.
  - replace (z mod 2 ^ w + 2 ^ (w - 1))%Z with ((z mod 2 ^ w - 2 ^ (w - 1)) + 1 * 2 ^ w)%Z by lia.
    rewrite Z.mod_add by lia. rewrite Z.mod_small by lia. lia.
Qed.

Ltac inTab H := cbn [In] in H; repeat (destruct H as [H|H]; [injection H as <- <-|]); [..|contradiction].

Lemma int_binary : forall E s jh m op f a b,
  callable E s jh m (plain [0x1a; 0x1b; op; 0xac] 2 2 2) -> In (op, f) intOps ->
  inI 32 a = true -> inI 32 b = true ->
  returns 4 E s m [VInt a; VInt b] (RInt (u32 (f a b))).
Proof.
  intros E s jh m op f a b C IN Ha Hb. unfold intOps in IN.
  inTab IN;
    (match goal with |- returns _ _ _ _ _ (RInt (u32 ?z)) =>
      assert (R : exists r, returns 4 E s m [VInt a; VInt b] r /\ retRel (Some (VInt (sgn 32 z))) r) end;
     [ pose proof C as C'; start C' HM; eapply call_ret; [exact C|args|reflexivity|lia|reflexivity|];
       intros S0 EN; enter HM EN; nxt HM; nxt HM; nxt HM; retc HM; reflexivity
     | fromRet R; rewrite u32_sgn in R1; exact R1 ]).
Qed.

Lemma long_binary : forall E s jh m op f a b,
  callable E s jh m (plain [0x1e; 0x20; op; 0xad] 4 4 4) -> In (op, f) longOps ->
  inI 64 a = true -> inI 64 b = true ->
  returns 4 E s m [VLong a; VLong b] (RLong (u64 (f a b))).
Proof.
  intros E s jh m op f a b C IN Ha Hb. unfold longOps in IN.
  inTab IN;
    (match goal with |- returns _ _ _ _ _ (RLong (u64 ?z)) =>
      assert (R : exists r, returns 4 E s m [VLong a; VLong b] r /\ retRel (Some (VLong (sgn 64 z))) r) end;
     [ pose proof C as C'; start C' HM; eapply call_ret; [exact C|args|reflexivity|lia|reflexivity|];
       intros S0 EN; enter HM EN; nxt HM; nxt HM; nxt HM; retc HM; reflexivity
     | fromRet R; rewrite u64_sgn in R1; exact R1 ]).
Qed.

Lemma long_shift : forall E s jh m op f a b,
  callable E s jh m (plain [0x1e; 0x1c; op; 0xad] 3 3 3) -> In (op, f) longShifts ->
  inI 64 a = true -> inI 32 b = true ->
  returns 4 E s m [VLong a; VInt b] (RLong (u64 (f a b))).
Proof.
  intros E s jh m op f a b C IN Ha Hb. unfold longShifts in IN.
  inTab IN;
    (match goal with |- returns _ _ _ _ _ (RLong (u64 ?z)) =>
      assert (R : exists r, returns 4 E s m [VLong a; VInt b] r /\ retRel (Some (VLong (sgn 64 z))) r) end;
     [ pose proof C as C'; start C' HM; eapply call_ret; [exact C|args|reflexivity|lia|reflexivity|];
       intros S0 EN; enter HM EN; nxt HM; nxt HM; nxt HM; retc HM; reflexivity
     | fromRet R; rewrite u64_sgn in R1; exact R1 ]).
Qed.

Lemma int_unary : forall E s jh m op f a,
  callable E s jh m (plain [0x1a; op; 0xac] 1 1 1) -> In (op, f) intUnary -> inI 32 a = true ->
  returns 3 E s m [VInt a] (RInt (u32 (f a))).
Proof.
  intros E s jh m op f a C IN Ha. unfold intUnary in IN.
  assert (G : forall z, (forall S0, entered E m [VInt a] jh (log s) = Some S0 -> ends (regular E) 3 E S0 (gives (VInt z))) ->
             isBoundary [0x1a; op; 0xac] 0 = true -> returns 3 E s m [VInt a] (RInt (u32 z))).
  { intros z K B. assert (R : exists r, returns 3 E s m [VInt a] r /\ retRel (Some (VInt z)) r).
    { eapply call_ret; [exact C|args|reflexivity|lia|exact B|exact K]. }
    fromRet R. exact R1. }
  inTab IN; rewrite ?signed_sgn by lia.
  - apply G; [|reflexivity]. start C HM. intros S0 EN. enter HM EN. nxt HM. nxt HM. retc HM. reflexivity.
  - apply G; [|reflexivity]. start C HM. intros S0 EN. enter HM EN. nxt HM. nxt HM. retc HM. reflexivity.
  - apply G; [|reflexivity]. start C HM. intros S0 EN. enter HM EN. nxt HM. nxt HM. retc HM. reflexivity.
  - rewrite <- u32_sgn. apply G; [|reflexivity]. start C HM. intros S0 EN. enter HM EN. nxt HM. nxt HM. retc HM. reflexivity.
Qed.

Lemma int_to_long : forall E s jh m a,
  callable E s jh m (plain [0x1a; 0x85; 0xad] 1 2 1) -> inI 32 a = true ->
  returns 3 E s m [VInt a] (RLong (u64 a)).
Proof.
  intros E s jh m a C Ha.
  assert (R : exists r, returns 3 E s m [VInt a] r /\ retRel (Some (VLong a)) r).
  { eapply call_ret; [exact C|args|reflexivity|lia|reflexivity|]. start C HM. intros S0 EN. enter HM EN. nxt HM. nxt HM. retc HM. reflexivity. }
  fromRet R. exact R1.
Qed.
Lemma long_to_int : forall E s jh m a,
  callable E s jh m (plain [0x1e; 0x88; 0xac] 2 2 2) -> inI 64 a = true ->
  returns 3 E s m [VLong a] (RInt (u32 a)).
Proof.
  intros E s jh m a C Ha.
  assert (R : exists r, returns 3 E s m [VLong a] r /\ retRel (Some (VInt (sgn 32 a))) r).
  { eapply call_ret; [exact C|args|reflexivity|lia|reflexivity|]. start C HM. intros S0 EN. enter HM EN. nxt HM. nxt HM. retc HM. reflexivity. }
  fromRet R. rewrite u32_sgn in R1. exact R1.
Qed.
Lemma long_neg : forall E s jh m a,
  callable E s jh m (plain [0x1e; 0x75; 0xad] 2 2 2) -> inI 64 a = true ->
  returns 3 E s m [VLong a] (RLong (u64 (- a))).
Proof.
  intros E s jh m a C Ha.
  assert (R : exists r, returns 3 E s m [VLong a] r /\ retRel (Some (VLong (sgn 64 (- a)))) r).
  { eapply call_ret; [exact C|args|reflexivity|lia|reflexivity|]. start C HM. intros S0 EN. enter HM EN. nxt HM. nxt HM. retc HM. reflexivity. }
  fromRet R. rewrite u64_sgn in R1. exact R1.
Qed.
Lemma long_compare : forall E s jh m a b,
  callable E s jh m (plain [0x1e; 0x20; 0x94; 0xac] 4 4 4) -> inI 64 a = true -> inI 64 b = true ->
  returns 4 E s m [VLong a; VLong b] (RInt (u32 (Z.sgn (a - b)))).
Proof.
  intros E s jh m a b C Ha Hb.
  assert (R : exists r, returns 4 E s m [VLong a; VLong b] r /\ retRel (Some (VInt (Z.sgn (a - b)))) r).
  { eapply call_ret; [exact C|args|reflexivity|lia|reflexivity|]. start C HM. intros S0 EN. enter HM EN. nxt HM. nxt HM. nxt HM. retc HM.
    cbn [gives]. f_equal. destruct (Z.compare_spec a b); lia. }
  fromRet R. exact R1.
Qed.

Lemma jcond_val : forall c a b, jcond c a b =
  match c with Ceq => (a =? b)%Z | Cne => negb (a =? b)%Z | Clt => (a <? b)%Z | Cge => (a >=? b)%Z | Cgt => (a >? b)%Z | Cle => (a <=? b)%Z end.
Proof.
  intros c a b. unfold jcond. rewrite Z.geb_leb, Z.gtb_ltb. destruct (Z.compare_spec a b), c; cbn [negb]; try reflexivity; lia.
Qed.

(** if_icmp<cond>: 1 when the condition holds, else 0 *)
Lemma int_compare : forall E s jh m op f a b,
  callable E s jh m (plain [0x1a; 0x1b; op; 0; 5; 0x03; 0xac; 0x04; 0xac] 2 2 2) -> In (op, f) comparisons ->
  inI 32 a = true -> inI 32 b = true ->
  returns 5 E s m [VInt a; VInt b] (RInt (if f a b then 1 else 0)).
Proof.
  intros E s jh m op f a b C IN Ha Hb. unfold comparisons in IN.
  assert (G : forall (t : bool), (forall S0, entered E m [VInt a; VInt b] jh (log s) = Some S0 -> ends (regular E) 5 E S0 (gives (VInt (if t then 1 else 0)))) ->
             isBoundary [0x1a; 0x1b; op; 0; 5; 0x03; 0xac; 0x04; 0xac] 0 = true ->
             returns 5 E s m [VInt a; VInt b] (RInt (if t then 1 else 0))).
  { intros t K B. assert (R : exists r, returns 5 E s m [VInt a; VInt b] r /\ retRel (Some (VInt (if t then 1 else 0))) r).
    { eapply call_ret; [exact C|args|reflexivity|lia|exact B|exact K]. }
    fromRet R. destruct t; exact R1. }
  inTab IN;
    (apply G; [|reflexivity]; start C HM; intros S0 EN; enter HM EN; nxt HM; nxt HM;
     match goal with |- context [if ?t then 1%Z else 0%Z] => destruct t eqn:T end;
     ( eapply ends_jump;
       [okc HM|jevalc HM; rewrite jcond_val, T; reflexivity|rewrite HM; vm_compute; reflexivity|rewrite HM; vm_compute; reflexivity|assumption|];
       try match goal with |- context [Z.to_N ?a] => evalIn (Z.to_N a) | |- context [?a + ?b] => evalIn (a + b) end; nxt HM; retc HM; reflexivity)).
Qed.

Lemma throws_new : forall E c h lg, throws E c (JThrown (jnext h) (snd (jalloc h (newInst E c))) lg).
Proof. intros. unfold throws, jclass, jalloc. cbn [snd jobjs]. rewrite N.eqb_refl. reflexivity. Qed.

Lemma int_division : forall E s jh m (rem : bool) a b,
  callable E s jh m (plain [0x1a; 0x1b; if rem then 0x70 else 0x6c; 0xac] 2 2 2) ->
  inI 32 a = true -> inI 32 b = true ->
  (b = 0%Z -> raises 4 E s m [VInt a; VInt b] (e_arith E)) /\
  (b <> 0%Z -> ~ (a = - 2 ^ 31 /\ b = -1)%Z ->
   returns 4 E s m [VInt a; VInt b] (RInt (u32 (if rem then Z.rem a b else Z.quot a b)))).
Proof.
  intros E s jh m rem a b C Ha Hb. split.
  - intros ->. eapply call_exn; [exact C|args|reflexivity|lia|destruct rem; reflexivity|].
    start C HM. intros S0 EN. enter HM EN. destruct rem; nxt HM; nxt HM;
      (eapply ends_new; [okc HM; change (0 =? -1)%Z with false; rewrite andb_false_r; reflexivity|jevalc HM; change (0 =? 0)%Z with true; reflexivity|rewrite HM; reflexivity|apply throws_new]).
  - intros NZ NM. replace (u32 (if rem then Z.rem a b else Z.quot a b)) with (u32 (if rem then Z.rem a b else sgn 32 (Z.quot a b))) by (destruct rem; rewrite ?u32_sgn; reflexivity).
    assert (R : exists r, returns 4 E s m [VInt a; VInt b] r /\ retRel (Some (VInt (if rem then Z.rem a b else sgn 32 (Z.quot a b)))) r).
    { eapply call_ret; [exact C|args|reflexivity|lia|destruct rem; reflexivity|]. start C HM. intros S0 EN. enter HM EN.
      assert (D : ((a =? minI 32) && (b =? -1))%Z = false) by (unfold minI; change (2 ^ (32 - 1))%Z with (2 ^ 31)%Z; lia).
      assert (Z0 : (b =? 0)%Z = false) by lia.
      destruct rem; nxt HM; nxt HM;
        (eapply ends_next;
          [ okc HM; rewrite D; reflexivity
          | jevalc HM; rewrite Z0; reflexivity | rewrite HM; vm_compute; reflexivity | rewrite HM; vm_compute; reflexivity
          | rewrite HM; reflexivity | assumption | retc HM; reflexivity ]). }
    fromRet R. exact R1.
Qed.

Lemma long_division : forall E s jh m (rem : bool) a b,
  callable E s jh m (plain [0x1e; 0x20; if rem then 0x71 else 0x6d; 0xad] 4 4 4) ->
  inI 64 a = true -> inI 64 b = true ->
  (b = 0%Z -> raises 4 E s m [VLong a; VLong b] (e_arith E)) /\
  (b <> 0%Z -> ~ (a = - 2 ^ 63 /\ b = -1)%Z ->
   returns 4 E s m [VLong a; VLong b] (RLong (u64 (if rem then Z.rem a b else Z.quot a b)))).
Proof.
  intros E s jh m rem a b C Ha Hb. split.
  - intros ->. eapply call_exn; [exact C|args|reflexivity|lia|destruct rem; reflexivity|].
    start C HM. intros S0 EN. enter HM EN. destruct rem; nxt HM; nxt HM;
      (eapply ends_new; [okc HM; change (0 =? -1)%Z with false; rewrite andb_false_r; reflexivity|jevalc HM; change (0 =? 0)%Z with true; reflexivity|rewrite HM; reflexivity|apply throws_new]).
  - intros NZ NM. replace (u64 (if rem then Z.rem a b else Z.quot a b)) with (u64 (if rem then Z.rem a b else sgn 64 (Z.quot a b))) by (destruct rem; rewrite ?u64_sgn; reflexivity).
    assert (R : exists r, returns 4 E s m [VLong a; VLong b] r /\ retRel (Some (VLong (if rem then Z.rem a b else sgn 64 (Z.quot a b)))) r).
    { eapply call_ret; [exact C|args|reflexivity|lia|destruct rem; reflexivity|]. start C HM. intros S0 EN. enter HM EN.
      assert (D : ((a =? minI 64) && (b =? -1))%Z = false) by (unfold minI; change (2 ^ (64 - 1))%Z with (2 ^ 63)%Z; lia).
      assert (Z0 : (b =? 0)%Z = false) by lia.
      destruct rem; nxt HM; nxt HM;
        (eapply ends_next;
          [ okc HM; rewrite D; reflexivity
          | jevalc HM; rewrite Z0; reflexivity | rewrite HM; vm_compute; reflexivity | rewrite HM; vm_compute; reflexivity
          | rewrite HM; reflexivity | assumption | retc HM; reflexivity ]). }
    fromRet R. exact R1.
Qed.
