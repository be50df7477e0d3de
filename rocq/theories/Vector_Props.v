(** C37: the byte vector. *)
From Coq Require Import List ZArith Bool Lia.
From Verif Require Import Zone_Model Vector_Model Vector_Spec Vector_Proofs.
Import ListNotations.
Local Open Scope nat_scope.

(** Any sequence of operations behaves on the vector as on the list of bytes, whatever fresh memory holds, as
    long as there are fewer than 2^32 bytes; an operation on bytes that are not there fails the assertion. *)
Theorem C37_vector_is_a_list : forall junk mc os, (0 < mc)%Z -> (Z.of_nat (peak os []) < 2 ^ 32)%Z ->
  match specs os [] with
  | Some (rs, l) => exists v, run junk 0 os (create mc) = Ok (rs, v) /\ position v = length l /\ forall off n, off + n <= length l -> get off n v = Ok (firstn n (skipn off l))
  | None => run junk 0 os (create mc) = Abort
  end.
Proof.
  intros junk mc os Hm Hp. pose proof (run_ok junk os 0 (create mc) [] (create_ok mc Hm) Hp) as H. destruct (specs os []) as [[rs l]|]; auto.
  destruct H as (v & E & Hv). exists v. split; auto. split. apply Hv. intros off n Hn. rewrite (get_ok v l off n Hv). rewrite (proj2 (Nat.leb_le _ _)) by auto. auto.
Qed.
(** Integers read back: what append2/append4/appendAddress wrote is what get2/get4/getAddress return, at the
    offset returned, after any later appends. *)
Theorem C37_integers_read_back : forall junk mc os rs l n x os', (0 < mc)%Z -> specs os [] = Some (rs, l) ->
  (forall o, In o os' -> exists bs, o = Append bs) -> (Z.of_nat (peak (os ++ Append (bytes n (x mod 256 ^ Z.of_nat n)) :: os') []) < 2 ^ 32)%Z ->
  exists rs' v, run junk 0 (os ++ Append (bytes n (x mod 256 ^ Z.of_nat n)) :: os') (create mc) = Ok (rs ++ OutOff (length l) :: rs', v) /\ getInt n (length l) v = Ok (x mod 256 ^ Z.of_nat n)%Z.
Proof.
  intros junk mc os rs l n x os' Hm Hs Ha Hp. set (b := bytes n (x mod 256 ^ Z.of_nat n)) in *.
  assert (A : forall os' l0, (forall o, In o os' -> exists bs, o = Append bs) -> exists rs' tl, specs os' l0 = Some (rs', l0 ++ tl)).
  { induction os'0 as [|o q IH]; intros l0 Hq; cbn. exists [], []. rewrite app_nil_r. auto. destruct (Hq o) as (bs & ->). cbn; auto. cbn. destruct (IH (l0 ++ bs)) as (r1 & t & E). intros; apply Hq; cbn; auto. rewrite E. exists (OutOff (length l0) :: r1), (bs ++ t). rewrite app_assoc. auto. }
  assert (C : forall p l0 r1 l1 q, specs p l0 = Some (r1, l1) -> specs (p ++ q) l0 = match specs q l1 with Some (r2, l2) => Some (r1 ++ r2, l2) | None => None end).
  { induction p as [|o p IH]; intros l0 r1 l1 q E; cbn in *. injection E as <- <-. destruct (specs q l0) as [[]|]; auto. destruct (spec o l0) as [[r l2]|]; [|discriminate]. destruct (specs p l2) as [[r2 l3]|] eqn:E2; [|discriminate]. injection E as <- <-. rewrite (IH _ _ _ q E2). destruct (specs q l3) as [[]|]; auto. }
  destruct (A os' (l ++ b) Ha) as (rs' & tl & Et). pose proof (C os [] rs l (Append b :: os') Hs) as Ec. cbn [specs spec] in Ec. rewrite Et in Ec.
  pose proof (C37_vector_is_a_list junk mc _ Hm Hp) as H. rewrite Ec in H. destruct H as (v & E & Hv & Hg). exists rs', v. split; auto.
  unfold getInt. rewrite Hg. 2:{ rewrite !app_length. unfold b. rewrite bytes_len. lia. } rewrite <- app_assoc, skipn_app, skipn_all, Nat.sub_diag. cbn [skipn app bind].
  rewrite <- (bytes_len n (x mod 256 ^ Z.of_nat n)) at 1. fold b. rewrite firstn_pre. unfold b. rewrite value_bytes. auto. apply Z.mod_pos_bound. lia.
Qed.
Example grows : run (fun _ _ => 99%Z) 0 [Append [1; 2; 3]%Z; Append [4]%Z; Append [5; 6; 7; 8; 9]%Z; Set_ 1 [20; 30]%Z; Get 0 5; Pop 6; Get 0 3] (create 2)
  = Ok ([OutOff 0; OutOff 3; OutOff 4; OutNone; OutBytes [1; 20; 30; 4; 5]%Z; OutBytes [4; 5; 6; 7; 8; 9]%Z; OutBytes [1; 20; 30]%Z], V (Some [1; 20; 30; 4; 5; 6; 7; 8; 9; 99; 99; 99]%Z) 3 2).
Proof. reflexivity. Qed.
(** set2 on a vector of fewer than two bytes passes its assertion and writes out of bounds. *)
Theorem C71_set2_refuted : exists off x v, position v = 1 /\ get 0 1 v = Ok [7%Z] /\ set2 off x v = UB.
Proof. exists 5, 0%Z, (V (Some [7; 0]%Z) 1 1). repeat split. Qed.
Print Assumptions C37_vector_is_a_list.
Print Assumptions C37_integers_read_back.
Print Assumptions C71_set2_refuted.
