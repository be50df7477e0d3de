From Coq Require Import NArith Lia Bool List PeanoNat.
From Verif Require Import CallTable_Model CallTable_Proofs.
Import ListNotations.

(** C109.  A lookup that starts after the call was inserted finds what the call calls,
    whatever insertions and lookups run meanwhile, with or without a larger table made. *)
Theorem inserted_call_is_found : forall es1 s1 key v es2 s2 r,
  run initial es1 = Some s1 -> In (key, v) (inserted s1) ->
  run s1 (Lookup key :: es2) = Some s2 -> NoDup (map fst (started s2)) ->
  nth_error (readers s2) (length (readers s1)) = Some (key, Found r) -> r = Some v.
Proof.
  intros es1 s1 key v es2 s2 r R1 Hin R2 ND Er.
  destruct (run_ok es1 initial s1 initial_ok R1) as (I1 & _ & _).
  destruct (run_ok _ s1 s2 I1 R2) as (I2 & J1 & J2). cbn in R2.
  set (s1' := withReaders s1 (readers s1 ++ [(key, Begun)])) in *.
  assert (I1' : Inv s1') by (apply (step_ok s1 (Lookup key) s1' I1); reflexivity).
  destruct (must_run es2 s1' s2 (length (readers s1)) key v Begun I1' R2) as (rd & Er' & M).
  { cbn. rewrite nth_error_app2, Nat.sub_diag by lia. reflexivity. }
  { exact Hin. }
  rewrite Er in Er'. injection Er' as <-. cbn in M. destruct r as [v'|]; [|congruence]. f_equal.
  pose proof (proj1 (Forall_forall _ _) (i_readers s2 I2) _ (nth_error_In _ _ Er)) as H1. cbn in H1.
  assert (H2 : In (key, v) (started s2)) by (apply J1; apply (i_ins s1 I1); exact Hin).
  clear - ND H1 H2. induction (started s2) as [|[a b] l IH]; [destruct H1|]. cbn in ND. inversion ND as [|? ? N1 N2]; subst.
  destruct H1 as [H1|H1], H2 as [H2|H2].
  - congruence.
  - injection H1 as -> ->. exfalso. apply N1. change key with (fst (key, v)). apply in_map. exact H2.
  - injection H2 as -> ->. exfalso. apply N1. change key with (fst (key, v')). apply in_map. exact H1.
  - apply IH; assumption.
Qed.

(** What a lookup finds was given to an insertion of that key. *)
Theorem found_call_was_inserted : forall es s key v,
  run initial es = Some s -> In (key, Found (Some v)) (readers s) -> In (key, v) (started s).
Proof.
  intros es s key v R Hin. destruct (run_ok es initial s initial_ok R) as (I & _ & _).
  exact (proj1 (Forall_forall _ _) (i_readers s I) _ Hin).
Qed.

(** A lookup that has its chain ends after a number of its own steps that is fixed
    then, however many calls are inserted meanwhile. *)
Definition isGo (r : nat) (e : event) : bool := match e with Go r' => Nat.eqb r r' | _ => false end.

Lemma rank_step : forall s e s' r key rd k, Inv s -> step s e = Some s' ->
  nth_error (readers s) r = Some (key, rd) -> rank s rd k ->
  exists rd' k', nth_error (readers s') r = Some (key, rd') /\ rank s' rd' k'
    /\ k' <= k - (if isGo r e then 1 else 0).
Proof.
  intros s e s' r key rd k I St Er R. destruct (step_ok s e s' I St) as [I' K].
  assert (Lr : r < length (readers s)) by (apply nth_error_Some; congruence).
  destruct e as [a t| | | |key'|r']; cbn [isGo].
  5:{ cbn in St. injection St as <-. exists rd, k. split; [cbn; rewrite nth_error_app1 by exact Lr; exact Er|].
      split; [eapply rank_keeps; eassumption|lia]. }
  5:{ assert (St' : match nth_error (readers s) r' with
      | Some (key, rd) => Some (withReaders s (upd (readers s) r' (key, goReader s key rd))) | None => None end = Some s')
      by (unfold step in St; destruct (wr s); exact St). clear St.
      destruct (nth_error (readers s) r') as [[k' rd']|] eqn:E'; [|discriminate]. injection St' as <-.
      assert (Lr' : r' < length (readers s)) by (apply nth_error_Some; congruence).
      cbn [readers withReaders]. rewrite upd_nth_error by exact Lr'.
      destruct (Nat.eqb_spec r r') as [->|].
      - rewrite Er in E'. injection E' as <- <-. destruct k as [|k].
        + inversion R; subst. eexists _, 0. split; [reflexivity|]. split; [|lia]. cbn [goReader]. constructor.
        + destruct (rank_go s key rd k R) as [G|G]; eexists _, _; (split; [reflexivity|]);
            (split; [eapply rank_keeps; eassumption|lia]).
      - exists rd, k. split; [exact Er|]. split; [eapply rank_keeps; eassumption|lia]. }
  all: exists rd, k; (split; [|split; [eapply rank_keeps; eassumption|lia]]); unfold step in St; destruct (wr s); try discriminate.
  - injection St as <-. unfold beginInsert. destruct (Nat.leb _ _); [destruct (resizeTable _ _ _)|]; exact Er.
  - destruct (nth_error (nodes s) n); [|discriminate]. injection St as <-. exact Er.
  - destruct (nth_error (nodes s) n); [|discriminate]. injection St as <-. exact Er.
  - destruct (nth_error (nodes s) n); [|discriminate]. injection St as <-. exact Er.
Qed.

Theorem lookup_ends : forall es s r key p,
  run initial es = Some s -> nth_error (readers s) r = Some (key, At p) ->
  exists k, forall es' s', run s es' = Some s' -> k <= length (filter (isGo r) es') ->
    exists v, nth_error (readers s') r = Some (key, Found v).
Proof.
  intros es s r key p R Er. destruct (run_ok es initial s initial_ok R) as (I & _ & _).
  destruct (rank_exists s key p) as [k Rk].
  { apply (proj1 (Forall_forall _ _) (i_readers s I)). eapply nth_error_In. exact Er. }
  exists k. intros es' s' R' L. clear R. revert s k I Er Rk L R'. generalize (At p).
  induction es' as [|e es' IH]; intros rd s k I Er Rk L R'; cbn in R', L.
  - injection R' as <-. assert (k = 0) by lia. subst. inversion Rk; subst. eauto.
  - destruct (step s e) as [s1|] eqn:E; [|discriminate].
    destruct (rank_step s e s1 r key rd k I E Er Rk) as (rd' & k' & Er' & Rk' & Lk).
    apply (IH rd' s1 k'); auto.
    + apply (step_ok s e s1 I E).
    + destruct (isGo r e); cbn in L; lia.
Qed.

(** 300 calls inserted, so that the table grows, with a lookup started after the first
    and run while the others are inserted, and one started at the end. *)
Definition insertOne (i : nat) : list event := [Insert (N.of_nat (16 * i)) (N.of_nat (7 * i)); Link; Store; Publish].
Definition schedule : list event :=
  insertOne 3 ++ [Lookup 48; Go 0; Go 0] ++ flat_map insertOne (seq 4 150) ++ repeat (Go 0) 20
  ++ flat_map insertOne (seq 200 150) ++ [Lookup 48; Lookup 5] ++ repeat (Go 1) 150 ++ repeat (Go 2) 150.
Example schedule_runs :
  option_map (fun s => (readers s, length (tables s))) (run initial schedule)
  = Some ([(48%N, Found (Some 21%N)); (48%N, Found (Some 21%N)); (5%N, Found None)], 2).
Proof. vm_compute. reflexivity. Qed.

Definition callTable_theorems := (inserted_call_is_found, found_call_was_inserted, lookup_ends).
Print Assumptions callTable_theorems.
