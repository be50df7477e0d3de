(** Proofs about the heap walker: the walk itself. *)
From Coq Require Import List ZArith Bool Lia Permutation.
From Verif Require Import Res Chain HeapWalk_Model HeapWalk_Spec HeapSet_Proofs.
Import ListNotations.
Local Open Scope nat_scope.

(** ** Numbering *)
Fixpoint pos (vs : list nat) (p : nat) : option nat :=
  match vs with [] => None | x :: r => if Nat.eqb x p then Some 1 else option_map S (pos r p) end.
Definition num (vs : list nat) (p : nat) : option nat := if Nat.eqb p 0 then Some 0 else pos vs p.
Definition nm (vs : list nat) (p : nat) : nat := match num vs p with Some n => n | None => 0 end.

Lemma pos_range : forall vs p n, pos vs p = Some n -> 1 <= n <= length vs /\ In p vs.
Proof.
  induction vs as [|x vs IH]; intros p n H; cbn in H; [discriminate|]. destruct (Nat.eqb_spec x p).
  - inversion H; subst. cbn. split; [lia|auto].
  - destruct (pos vs p) as [m|] eqn:E; [|discriminate]. inversion H; subst. destruct (IH _ _ E). cbn. split; [lia|auto].
Qed.
Lemma pos_none : forall vs p, pos vs p = None <-> ~ In p vs.
Proof.
  induction vs as [|x vs IH]; intros p; cbn; [tauto|]. destruct (Nat.eqb_spec x p).
  - split; [discriminate|]. intros H. exfalso. auto.
  - split.
    + intros H [E|E]; [congruence|]. destruct (pos vs p) eqn:Q; [discriminate|]. apply IH in Q. contradiction.
    + intros H. assert (Q : pos vs p = None) by (apply IH; tauto). rewrite Q. reflexivity.
Qed.
Lemma pos_app : forall vs ws p n, pos vs p = Some n -> pos (vs ++ ws) p = Some n.
Proof.
  induction vs as [|x vs IH]; intros ws p n H; cbn in *; [discriminate|]. destruct (Nat.eqb x p); [exact H|].
  destruct (pos vs p) as [m|] eqn:E; [|discriminate]. rewrite (IH ws p m E). exact H.
Qed.
Lemma pos_new : forall vs ws p n, ~ In p vs -> pos (vs ++ ws) p = Some n -> length vs < n.
Proof.
  induction vs as [|x vs IH]; intros ws p n N H; cbn in *.
  - destruct (pos_range _ _ _ H). lia.
  - destruct (Nat.eqb_spec x p); [exfalso; auto|]. destruct (pos (vs ++ ws) p) as [m|] eqn:E; [|discriminate].
    inversion H; subst. assert (length vs < m) by (eapply IH; eauto). lia.
Qed.
Lemma pos_snoc : forall vs p, ~ In p vs -> pos (vs ++ [p]) p = Some (S (length vs)).
Proof.
  induction vs as [|x vs IH]; intros p N; cbn in *; [rewrite Nat.eqb_refl; reflexivity|].
  destruct (Nat.eqb_spec x p); [exfalso; auto|]. rewrite IH by auto. reflexivity.
Qed.
Lemma pos_inj : forall vs p q n, pos vs p = Some n -> pos vs q = Some n -> p = q.
Proof.
  induction vs as [|x vs IH]; intros p q n H1 H2; cbn in *; [discriminate|].
  destruct (Nat.eqb_spec x p), (Nat.eqb_spec x q); try congruence.
  - inversion H1; subst. destruct (pos vs q) as [m|] eqn:E; [|discriminate]. inversion H2. subst. destruct (pos_range _ _ _ E). lia.
  - inversion H2; subst. destruct (pos vs p) as [m|] eqn:E; [|discriminate]. inversion H1. subst. destruct (pos_range _ _ _ E). lia.
  - destruct (pos vs p) as [m|] eqn:E1; [|discriminate]. destruct (pos vs q) as [m'|] eqn:E2; [|discriminate].
    inversion H1; subst. inversion H2; subst. eapply IH; eauto.
Qed.
Lemma pos_nth : forall vs i p, NoDup vs -> nth_error vs i = Some p -> pos vs p = Some (S i).
Proof.
  induction vs as [|x vs IH]; intros [|i] p D H; cbn in *; try discriminate.
  - inversion H; subst. rewrite Nat.eqb_refl. reflexivity.
  - inversion D; subst. destruct (Nat.eqb_spec x p); [subst; exfalso; apply H2; eapply nth_error_In; eauto|].
    rewrite (IH i p H3 H). reflexivity.
Qed.

Lemma num_app : forall vs ws p n, num vs p = Some n -> num (vs ++ ws) p = Some n.
Proof. unfold num. intros vs ws p n. destruct (Nat.eqb p 0); [auto|apply pos_app]. Qed.
Lemma nm_app : forall vs ws p, num vs p <> None -> nm (vs ++ ws) p = nm vs p.
Proof. intros vs ws p H. unfold nm. destruct (num vs p) as [n|] eqn:E; [|congruence]. rewrite (num_app _ _ _ _ E). reflexivity. Qed.
Lemma num_some_app : forall vs ws p, num vs p <> None -> num (vs ++ ws) p <> None.
Proof. intros vs ws p H. destruct (num vs p) as [n|] eqn:E; [|congruence]. rewrite (num_app _ _ _ _ E). discriminate. Qed.
Lemma num_in : forall vs p, num vs p <> None <-> p = 0 \/ In p vs.
Proof.
  intros vs p. unfold num. destruct (Nat.eqb_spec p 0); [split; [auto|discriminate]|].
  destruct (in_dec Nat.eq_dec p vs) as [H|H].
  - split; [auto|]. intros _ E. apply pos_none in E. contradiction.
  - split; [|intros [X|X]; contradiction]. intros X. exfalso. apply X. apply pos_none. exact H.
Qed.
Lemma nm_old : forall vs ws p, In p vs -> p <> 0 -> 1 <= nm (vs ++ ws) p <= length vs.
Proof.
  intros vs ws p H N. unfold nm, num. destruct (Nat.eqb_spec p 0); [contradiction|].
  destruct (pos vs p) as [n0|] eqn:E; [|apply pos_none in E; contradiction].
  rewrite (pos_app _ _ _ _ E). apply (pos_range _ _ _ E).
Qed.
Lemma nm_new : forall vs ws p, In p ws -> p <> 0 -> ~ In p vs -> length vs < nm (vs ++ ws) p <= length (vs ++ ws).
Proof.
  intros vs ws p H N N2. unfold nm, num. destruct (Nat.eqb_spec p 0); [contradiction|].
  destruct (pos (vs ++ ws) p) as [n0|] eqn:E; [|apply pos_none in E; exfalso; apply E; apply in_or_app; auto].
  split; [eapply pos_new; eauto|apply (pos_range _ _ _ E)].
Qed.

(** ** The stack *)
Definition stackOk (c : context) : Prop := Forall (fun l => l <> []) (tl (stack c)).

Lemma push_ok : forall chunk c p o, 0 < chunk -> stackOk c ->
  concat (stack (push chunk c p o)) = (p, o) :: concat (stack c) /\ stackOk (push chunk c p o) /\
  objects (push chunk c p o) = objects c /\ numbers (push chunk c p o) = numbers c.
Proof.
  intros chunk c p o Hc S. unfold push, stackOk in *. cbn. destruct (stack c) as [|top rest]; cbn; [auto|].
  destruct (Nat.eqb_spec (length top) chunk); cbn.
  - split; [reflexivity|]. split; [|auto]. constructor; [|exact S]. destruct top; [cbn in e; lia|discriminate].
  - auto.
Qed.

Lemma pop_ok : forall c e k, stackOk c -> concat (stack c) = e :: k ->
  exists c', pop c = Ok (Some e, c') /\ concat (stack c') = k /\ stackOk c' /\ objects c' = objects c /\ numbers c' = numbers c.
Proof.
  intros c e k S E. unfold pop, stackOk in *. destruct (stack c) as [|[|x top] rest]; cbn in *.
  - discriminate.
  - destruct rest as [|[|x top] rest]; cbn in *; [discriminate|inversion S; congruence|].
    inversion E; subst. inversion S; subst. eexists. split; [reflexivity|]. cbn. auto.
  - inversion E; subst. eexists. split; [reflexivity|]. cbn. auto.
Qed.
Lemma pop_end : forall c, stackOk c -> concat (stack c) = [] -> pop c = Ok (None, c).
Proof.
  intros c S E. unfold pop, stackOk in *. destruct (stack c) as [|[|x top] rest]; cbn in *; [reflexivity| |discriminate].
  destruct rest as [|[|x top] rest]; cbn in *; [reflexivity|inversion S; congruence|discriminate].
Qed.

(** ** Fields *)
Lemma next_first : forall l least prev, increasing least l -> (prev < least)%Z ->
  nextOffset l prev = match l with [] => (-1)%Z | (o, _) :: _ => o end.
Proof. intros [|[o c] l] least prev I H; cbn in *; [reflexivity|]. destruct (Z.ltb_spec prev o); [reflexivity|lia]. Qed.
Lemma inc_weaken : forall l a b, (a <= b)%Z -> increasing b l -> increasing a l.
Proof. intros [|[o c] l] a b H I; cbn in *; [auto|]. split; [lia|tauto]. Qed.
Lemma inc_le : forall pre b o c fs, increasing b (pre ++ (o, c) :: fs) -> (b <= o)%Z.
Proof. induction pre as [|[o2 c2] pre IH]; intros b o c fs H; cbn in *; [tauto|]. destruct H as [H1 H2]. apply IH in H2. lia. Qed.
Lemma next_after : forall pre o c fs least, increasing least (pre ++ (o, c) :: fs) ->
  nextOffset (pre ++ (o, c) :: fs) o = match fs with [] => (-1)%Z | (o', _) :: _ => o' end.
Proof.
  induction pre as [|[o1 c1] pre IH]; intros o c fs least I; cbn in *.
  - destruct I as [_ I]. destruct (Z.ltb_spec o o); [lia|]. eapply next_first; [exact I|lia].
  - destruct I as [_ I]. pose proof (inc_le _ _ _ _ _ I). destruct (Z.ltb_spec o o1); [lia|]. eapply IH; eauto.
Qed.
Lemma get_mid : forall pre o c fs least, increasing least (pre ++ (o, c) :: fs) -> getIn (pre ++ (o, c) :: fs) o = Some c.
Proof.
  induction pre as [|[o1 c1] pre IH]; intros o c fs least I; cbn in *.
  - rewrite Z.eqb_refl. reflexivity.
  - destruct I as [_ I]. pose proof (inc_le _ _ _ _ _ I). destruct (Z.eqb_spec o1 o); [lia|]. eapply IH; eauto.
Qed.

(** ** The walk *)
Section Dfs.
Context (capacity0 chunk : nat) (h : heap) (size : nat -> nat) (name : nat -> option (list Z)) (all : list nat).
Context (Pc : isPow capacity0) (Hchunk : 0 < chunk) (Fin : finite h all).

Record st (c : context) (vs : list nat) (k : list (nat * Z)) : Prop := {
  s_knows : knows c (num vs);
  s_stack : concat (stack c) = k;
  s_ok : stackOk c;
  s_num : numbers c = S (length vs);
  s_dup : NoDup vs;
  s_zero : ~ In 0 vs;
  s_all : incl vs all }.

Definition replay (es : list event) (g : graph) : graph := fold_left read1 (map (tokenOf size name) es) g.
Lemma replay_app : forall a b g, replay (a ++ b) g = replay b (replay a g).
Proof. intros. unfold replay. rewrite map_app, fold_left_app. reflexivity. Qed.

(** the order in which the tags come *)
Definition isObj (e : event) : Prop := match e with ENew _ _ | EOld _ _ => True | _ => False end.
Inductive shaped : list event -> Prop :=
| sh_nil : shaped []
| sh_push p n o x r : isObj x -> shaped r -> shaped (EPush p n o :: x :: r)
| sh_pop r : shaped r -> shaped (EPop :: r)
| sh_root x r : isObj x -> shaped r -> shaped (ERoot :: x :: r).
Lemma shaped_app : forall a b, shaped a -> shaped b -> shaped (a ++ b).
Proof. induction 1; intros B; cbn; try constructor; auto. Qed.

Lemma news_app : forall a b, news (a ++ b) = news a ++ news b.
Proof. intros. unfold news. apply flat_map_app. Qed.
Lemma targets_app : forall a b m, targets (a ++ b) m = targets a m ++ targets b m.
Proof. intros. unfold targets. rewrite filter_app, map_app. reflexivity. Qed.

(** the numbers given with the events *)
Definition numbered (vs : list nat) (e : event) : Prop :=
  match e with ENew p n | EOld p n | EPush p n _ => num vs p = Some n | _ => True end.
Lemma numbered_app : forall vs ws l, Forall (numbered vs) l -> Forall (numbered (vs ++ ws)) l.
Proof.
  intros vs ws l H. eapply Forall_impl; [|exact H]. intros [|p n|p n|p n o|] E; cbn in *; auto; apply num_app; exact E.
Qed.

(** the edges drawn for the new objects [ws], and no others except from [own] *)
Definition edgesOk (own : nat -> Prop) (vs ws : list nat) (D : list (nat * nat)) : Prop :=
  (forall x, In x ws -> targets D (nm (vs ++ ws) x) = map (nm (vs ++ ws)) (children h x)) /\
  (forall m, ~ own m -> m <= length vs \/ length (vs ++ ws) < m -> targets D m = []).

Record done (p : nat) (vs ws : list nat) (evs : list event) : Prop := {
  d_num : num (vs ++ ws) p <> None;
  d_reach : forall x, In x ws -> reach h p x;
  d_closed : forall x ch, In x ws -> In ch (children h x) -> num (vs ++ ws) ch <> None;
  d_news : news evs = ws;
  d_nums : Forall (numbered (vs ++ ws)) evs;
  d_shape : exists o r, evs = o :: r /\ isObj o /\ shaped r;
  d_replay : exists D, edgesOk (fun _ => False) vs ws D /\
    forall g, replay evs g =
      match gOpen g with
      | [] => Graph (gRoots g ++ [nm (vs ++ ws) p]) (gEdges g ++ D) [] (nm (vs ++ ws) p)
      | m :: o => Graph (gRoots g) (gEdges g ++ (m, nm (vs ++ ws) p) :: D) (m :: o) (nm (vs ++ ws) p)
      end }.

Record fdone (p : nat) (fs : list (Z * nat)) (vs ws : list nat) (evs : list event) : Prop := {
  f_kids : forall ch, In ch (map snd fs) -> num (vs ++ ws) ch <> None;
  f_reach : forall x, In x ws -> reach h p x;
  f_closed : forall x ch, In x ws -> In ch (children h x) -> num (vs ++ ws) ch <> None;
  f_news : news evs = ws;
  f_nums : Forall (numbered (vs ++ ws)) evs;
  f_shape : shaped evs;
  f_replay : exists D, edgesOk (fun m => m = nm vs p) vs ws D /\
    targets D (nm vs p) = map (nm (vs ++ ws)) (map snd fs) /\
    forall g, gLast g = nm vs p -> replay evs g = Graph (gRoots g) (gEdges g ++ D) (gOpen g) (gLast g) }.

Definition visits (n : nat) : Prop := forall c vs k p, length all - length vs <= n -> (p = 0 \/ In p all) -> st c vs k ->
  exists f1 c' ws evs, st c' (vs ++ ws) k /\ done p vs ws evs /\
    forall fuel out, loop capacity0 chunk h (f1 + fuel) c (Visit p) out = loop capacity0 chunk h fuel c' Pop (out ++ evs).

Definition after (p : nat) (fs : list (Z * nat)) : label :=
  match fs with [] => Pop | (o, _) :: _ => Children p o end.

Lemma st_closed : forall c vs k p, st c vs k -> num vs p <> None -> p = 0 \/ In p all.
Proof. intros c vs k p S H. apply num_in in H. destruct H as [H|H]; [auto|right; apply (s_all _ _ _ S); exact H]. Qed.

Lemma nm_num : forall vs p, num vs p <> None -> num vs p = Some (nm vs p).
Proof. intros vs p H. unfold nm. destruct (num vs p); [reflexivity|congruence]. Qed.

Lemma st_app_new : forall c vs ws k x, st c (vs ++ ws) k -> In x ws -> x <> 0 /\ ~ In x vs.
Proof.
  intros c vs ws k x S H. split.
  - intros ->. apply (s_zero _ _ _ S). apply in_or_app. auto.
  - intros V. pose proof (s_dup _ _ _ S) as D. clear S. induction vs as [|v vs IH]; cbn in *; [contradiction|].
    inversion D; subst. destruct V as [->|V]; [apply H2; apply in_or_app; auto|auto].
Qed.

Lemma map_nm_app : forall vs ws l, (forall x, In x l -> num vs x <> None) -> map (nm (vs ++ ws)) l = map (nm vs) l.
Proof. intros vs ws l H. apply map_ext_in. intros x Hx. apply nm_app. auto. Qed.

Lemma fields_ok : forall n, visits n -> forall p fs pre c vs k, length all - length vs <= n -> In p vs ->
  h p = pre ++ fs -> st c vs k ->
  exists f1 c' ws evs, st c' (vs ++ ws) k /\ fdone p fs vs ws evs /\
    forall fuel out, loop capacity0 chunk h (f1 + fuel) c (after p fs) out = loop capacity0 chunk h fuel c' Pop (out ++ evs).
Proof.
  intros n V p fs. induction fs as [|[o ch] fs IH]; intros pre c vs k Hn Hp Hh S.
  - exists 0, c, [], []. rewrite app_nil_r. split; [exact S|]. split.
    + constructor; cbn; try tauto; try constructor. exists []. split; [|split; [reflexivity|]].
      * split; [intros x []|reflexivity].
      * intros [r e oo l] E. cbn in *. rewrite app_nil_r. reflexivity.
    + intros. rewrite app_nil_r. reflexivity.
  - assert (Inc : increasing 0 (pre ++ (o, ch) :: fs)) by (rewrite <- Hh; apply (proj1 Fin)).
    assert (Np : p <> 0) by (intros ->; apply (s_zero _ _ _ S Hp)).
    assert (Qp : num vs p <> None) by (apply num_in; auto).
    assert (Hch : In ch (children h p)) by (unfold children; rewrite Hh, map_app; apply in_or_app; cbn; auto).
    assert (Ach : ch = 0 \/ In ch all) by (apply (proj2 Fin p ch); [apply (s_all _ _ _ S); exact Hp|exact Hch]).
    destruct (push_ok chunk c p o Hchunk (s_ok _ _ _ S)) as [P1 [P2 [P3 P4]]].
    assert (S1 : st (push chunk c p o) vs ((p, o) :: k)).
    { destruct S. constructor; auto; try congruence. }
    destruct (V _ _ _ ch Hn Ach S1) as [f1 [c1 [ws1 [ev1 [S2 [D1 L1]]]]]].
    destruct (pop_ok c1 (p, o) k (s_ok _ _ _ S2) (s_stack _ _ _ S2)) as [c2 [O1 [O2 [O3 [O4 O5]]]]].
    assert (S3 : st c2 (vs ++ ws1) k).
    { destruct S2. constructor; auto; try congruence. destruct s_knows0 as [s [E Q]]. exists s. split; [congruence|exact Q]. }
    assert (Hn2 : length all - length (vs ++ ws1) <= n) by (rewrite app_length; lia).
    assert (Hp2 : In p (vs ++ ws1)) by (apply in_or_app; auto).
    assert (Hh2 : h p = (pre ++ [(o, ch)]) ++ fs) by (rewrite <- app_assoc; exact Hh).
    destruct (IH _ c2 _ k Hn2 Hp2 Hh2 S3) as [f2 [c3 [ws2 [ev2 [S4 [D2 L2]]]]]].
    exists (Datatypes.S (f1 + Datatypes.S f2)), c3, (ws1 ++ ws2), (EPush p (nm vs p) o :: ev1 ++ EPop :: ev2).
    rewrite app_assoc. split; [exact S4|]. split.
    + destruct D1 as [dn dr dc dnw dns ds drp]. destruct D2 as [fk fr fc fnw fns fsh frp].
      assert (NC : forall x, num (vs ++ ws1) x <> None -> num ((vs ++ ws1) ++ ws2) x <> None) by (intros; apply num_some_app; auto).
      constructor; rewrite ?(app_assoc vs ws1 ws2).
      * intros x [<-|Hx]; [apply NC; exact dn|apply fk; exact Hx].
      * intros x Hx. apply in_app_or in Hx. destruct Hx as [Hx|Hx]; [|apply fr; exact Hx].
        eapply r_step; [exact Np|exact Hch|apply dr; exact Hx].
      * intros x y Hx Hy. apply in_app_or in Hx. destruct Hx as [Hx|Hx]; [apply NC; eapply dc; eauto|eapply fc; eauto].
      * change (news (EPush p (nm vs p) o :: ev1 ++ EPop :: ev2)) with (news (ev1 ++ EPop :: ev2)). rewrite news_app, dnw. change (news (EPop :: ev2)) with (news ev2). rewrite fnw. reflexivity.
      * constructor; [cbn; apply num_app, num_app, nm_num; exact Qp|]. apply Forall_app. split; [apply numbered_app; exact dns|].
        constructor; [exact I|exact fns].
      * destruct ds as [x [r [-> [Ox Sr]]]]. cbn. constructor; [exact Ox|]. apply shaped_app; [exact Sr|]. constructor. exact fsh.
      * destruct drp as [Da [[Ea1 Ea2] Ra]]. destruct frp as [Db [[Eb1 Eb2] [Tb Rb]]].
        assert (Ep : nm (vs ++ ws1) p = nm vs p) by (apply nm_app; exact Qp).
        rewrite Ep in *.
        assert (Bp : 1 <= nm vs p <= length vs).
        { rewrite <- (app_nil_r vs) at 1 2. apply nm_old; auto. }
        exists ((nm vs p, nm (vs ++ ws1) ch) :: Da ++ Db).
        assert (Tc : forall m, targets ((nm vs p, nm (vs ++ ws1) ch) :: Da ++ Db) m =
                     (if Nat.eqb (nm vs p) m then [nm (vs ++ ws1) ch] else []) ++ targets Da m ++ targets Db m).
        { intros m. rewrite <- targets_app. unfold targets. cbn. destruct (Nat.eqb (nm vs p) m); reflexivity. }
        split; [split|split].
        -- intros x Hx. rewrite Tc. rewrite (app_assoc vs ws1 ws2). apply in_app_or in Hx.
           destruct Hx as [Hx|Hx].
           ++ destruct (st_app_new _ _ _ _ _ S2 Hx) as [Nx0 Nxv].
              pose proof (nm_new vs ws1 x Hx Nx0 Nxv) as B1.
              assert (Ex : nm ((vs ++ ws1) ++ ws2) x = nm (vs ++ ws1) x) by (apply nm_app; apply num_in; right; apply in_or_app; auto).
              rewrite Ex. destruct (Nat.eqb_spec (nm vs p) (nm (vs ++ ws1) x)); [lia|]. cbn [app].
              rewrite (Eb2 (nm (vs ++ ws1) x)); [|lia|left; lia]. rewrite app_nil_r, (Ea1 x Hx). symmetry. apply map_nm_app.
              intros y Hy. eapply dc; eauto.
           ++ destruct (st_app_new _ _ _ _ _ S4 Hx) as [Nx0 Nxv].
              pose proof (nm_new (vs ++ ws1) ws2 x Hx Nx0 Nxv) as B1. rewrite app_length in B1 at 1.
              destruct (Nat.eqb_spec (nm vs p) (nm ((vs ++ ws1) ++ ws2) x)); [lia|]. cbn [app].
              rewrite (Ea2 (nm ((vs ++ ws1) ++ ws2) x)); [|tauto|right; rewrite app_length; lia]. cbn [app]. apply Eb1. exact Hx.
        -- intros m Om Hm. rewrite !app_length in Hm. rewrite Tc. destruct (Nat.eqb_spec (nm vs p) m); [subst; tauto|].
           cbn [app]. rewrite (Ea2 m), (Eb2 m); [reflexivity|congruence| |tauto|]; rewrite !app_length; lia.
        -- rewrite Tc, Nat.eqb_refl. cbn [app map snd]. rewrite (Ea2 (nm vs p)); [|tauto|left; lia]. cbn [app].
           rewrite Tb. rewrite ?(app_assoc vs ws1 ws2). f_equal. symmetry. apply nm_app. exact dn.
        -- intros g Hg. change (EPush p (nm vs p) o :: ev1 ++ EPop :: ev2) with ([EPush p (nm vs p) o] ++ ev1 ++ [EPop] ++ ev2).
           rewrite !replay_app. unfold replay at 4. cbn [map fold_left tokenOf read1]. rewrite Ra. cbn [gOpen gRoots gEdges].
           unfold replay at 2. cbn [map fold_left tokenOf read1 gOpen gRoots gEdges]. rewrite Rb by (cbn; exact Hg). cbn [gOpen gRoots gEdges gLast].
           rewrite Hg, <- app_assoc. reflexivity.
    + intros fuel out. cbn [after]. cbn [Nat.add loop].
      destruct (find_ok c (num vs) p (s_knows _ _ _ S)) as [_ Fd]. destruct (Fd (nm vs p) (nm_num _ _ Qp)) as [_ ->]. cbn [bind].
      unfold getField. rewrite Hh, (get_mid _ _ _ _ _ Inc). cbn [of_option bind].
      replace (f1 + Datatypes.S f2 + fuel) with (f1 + (Datatypes.S (f2 + fuel))) by lia.
      rewrite L1. cbn [loop]. rewrite O1. cbn [bind fst snd]. unfold walkNext. rewrite Hh, (next_after _ _ _ _ _ Inc).
      replace (out ++ EPush p (nm vs p) o :: ev1 ++ EPop :: ev2) with ((((out ++ [EPush p (nm vs p) o]) ++ ev1) ++ [EPop]) ++ ev2)
        by (rewrite <- !app_assoc; reflexivity).
      rewrite <- L2. destruct fs as [|[o' ch'] fs]; cbn [after]; [reflexivity|].
      assert (B : (0 <= o')%Z).
      { rewrite app_assoc_reverse in Hh2 || idtac. rewrite Hh in Inc || idtac. eapply (inc_le (pre ++ [(o, ch)]) 0 o' ch' fs). rewrite <- app_assoc. exact Inc. }
      destruct (Z.leb_spec 0 o'); [reflexivity|lia].
Qed.

Lemma visit_ok : forall n, visits n.
Proof.
  induction n as [n V] using lt_wf_ind. intros c vs k p Hn Ap S.
  destruct (find_ok c (num vs) p (s_knows _ _ _ S)) as [F1 F2].
  destruct (num vs p) as [m|] eqn:Ep.
  - destruct (F2 m eq_refl) as [[j Ej] En]. exists 1, c, [], [EOld p m]. rewrite app_nil_r. split; [exact S|]. split.
    + assert (Em : nm vs p = m) by (unfold nm; rewrite Ep; reflexivity).
      constructor; rewrite ?app_nil_r; cbn; try tauto; try congruence.
      * constructor; [exact Ep|constructor].
      * exists (EOld p m), []. repeat constructor.
      * exists []. split; [split; [intros x []|reflexivity]|]. intros g. rewrite Em. unfold replay. cbn. rewrite ?app_nil_r.
        destruct (gOpen g) as [|a b]; cbn; rewrite ?app_nil_r; reflexivity.
    + intros. cbn [Nat.add loop]. rewrite Ej. cbn [bind]. rewrite En. reflexivity.
  - assert (Np : p <> 0) by (intros ->; discriminate).
    assert (Nv : ~ In p vs) by (intros H; apply (proj2 (num_in vs p)); auto).
    assert (Ip : In p all) by (destruct Ap; [contradiction|assumption]).
    assert (D2 : NoDup (vs ++ [p])) by (apply nodup_snoc; [exact (s_dup _ _ _ S)|exact Nv]).
    assert (I2 : incl (vs ++ [p]) all).
    { intros x Hx. apply in_app_or in Hx. destruct Hx as [Hx|[<-|[]]]; [apply (s_all _ _ _ S); exact Hx|exact Ip]. }
    pose proof (NoDup_incl_length D2 I2) as Len. rewrite app_length in Len. cbn in Len.
    destruct (add_ok capacity0 c (num vs) p (Datatypes.S (length vs)) Pc (s_knows _ _ _ S) Ep) as [c1 [A1 [A2 [A3 [s' [A4 A5]]]]]].
    set (c3 := setNumber (Context (Some s') (stack c) (Datatypes.S (numbers c))) (Datatypes.S (length vs))).
    destruct (A5 (Datatypes.S (numbers c)) (stack c)) as [K1 [K2 K3]]. fold c3 in K1, K2, K3.
    assert (S3 : st c3 (vs ++ [p]) k).
    { constructor; auto.
      - destruct K1 as [s3 [Q1 [Q2 Q3]]]. exists s3. split; [exact Q1|]. split; [exact Q2|]. intros q m. rewrite Q3.
        unfold put. destruct (Nat.eqb_spec q p) as [->|Nq].
        + unfold num. destruct (Nat.eqb_spec p 0); [contradiction|]. rewrite pos_snoc by exact Nv. reflexivity.
        + unfold num. destruct (Nat.eqb q 0); [reflexivity|]. destruct (pos vs q) as [i|] eqn:Eq.
          * rewrite (pos_app _ _ _ _ Eq). reflexivity.
          * assert (pos (vs ++ [p]) q = None) as ->; [|reflexivity]. apply pos_none. apply pos_none in Eq.
            intros H. apply in_app_or in H. destruct H as [H|[H|[]]]; [auto|congruence].
      - rewrite K2. apply (s_stack _ _ _ S).
      - unfold stackOk. rewrite K2. apply (s_ok _ _ _ S).
      - rewrite K3, (s_num _ _ _ S), app_length. cbn. lia.
      - intros H. apply in_app_or in H. destruct H as [H|[H|[]]]; [apply (s_zero _ _ _ S H)|congruence]. }
    assert (Hp3 : In p (vs ++ [p])) by (apply in_or_app; cbn; auto).
    assert (Hlt : length all - length (vs ++ [p]) < n \/ n = 0) by (rewrite app_length; cbn; lia).
    destruct Hlt as [Hlt|Hz]; [|lia].
    destruct (fields_ok _ (V _ Hlt) p (h p) [] c3 (vs ++ [p]) k (le_n _) Hp3 eq_refl S3) as [f2 [c4 [ws [evs [S4 [FD L]]]]]].
    assert (Em : nm (vs ++ [p]) p = Datatypes.S (length vs)).
    { unfold nm, num. destruct (Nat.eqb_spec p 0); [contradiction|]. rewrite pos_snoc by exact Nv. reflexivity. }
    assert (Ew : nm ((vs ++ [p]) ++ ws) p = Datatypes.S (length vs)) by (rewrite nm_app; [exact Em|apply num_in; auto]).
    exists (Datatypes.S f2), c4, (p :: ws), (ENew p (Datatypes.S (length vs)) :: evs).
    replace (vs ++ p :: ws) with ((vs ++ [p]) ++ ws) by (rewrite <- app_assoc; reflexivity). split; [exact S4|]. split.
    + destruct FD as [fk fr fc fnw fns fsh frp].
      assert (EL : vs ++ p :: ws = (vs ++ [p]) ++ ws) by (rewrite <- app_assoc; reflexivity).
      constructor; rewrite ?EL.
      * apply num_in. right. apply in_or_app. auto.
      * intros x [<-|Hx]; [apply r_here; exact Np|apply fr; exact Hx].
      * intros x ch [<-|Hx] Hc; [apply fk; exact Hc|eapply fc; eauto].
      * change (news (ENew p (Datatypes.S (length vs)) :: evs)) with (p :: news evs). rewrite fnw. reflexivity.
      * constructor; [|exact fns]. cbn. rewrite <- Ew. apply nm_num, num_some_app, num_in. auto.
      * eexists _, _. split; [reflexivity|]. split; [exact I|exact fsh].
      * destruct frp as [D [[E1 E2] [T R]]]. rewrite Em in *. exists D. split; [split|]; rewrite ?EL.
        -- intros x [<-|Hx]; [rewrite Ew; exact T|apply E1; exact Hx].
        -- intros m _ Hm. apply E2.
           ++ rewrite !app_length in Hm. cbn in Hm. lia.
           ++ rewrite app_length at 1. cbn. destruct Hm; [left; lia|right; assumption].
        -- intros g. change (ENew p (Datatypes.S (length vs)) :: evs) with ([ENew p (Datatypes.S (length vs))] ++ evs).
           rewrite replay_app, Ew. unfold replay at 2. cbn [map fold_left tokenOf read1].
           destruct (gOpen g) as [|a b]; rewrite R by reflexivity; cbn [gOpen gRoots gEdges gLast]; [reflexivity|].
           rewrite <- app_assoc. reflexivity.
    + intros fuel out. cbn [Nat.add loop]. rewrite F1 by reflexivity. cbn [bind]. rewrite A1. cbn [bind]. unfold visitNew.
      destruct (Nat.eqb_spec p 0); [contradiction|]. rewrite A2, A3, A4, (s_num _ _ _ S). unfold walkNext.
      rewrite (next_first (h p) 0 (-1)%Z (proj1 Fin p) ltac:(lia)).
      replace (out ++ ENew p (Datatypes.S (length vs)) :: evs) with ((out ++ [ENew p (Datatypes.S (length vs))]) ++ evs)
        by (rewrite <- app_assoc; reflexivity).
      rewrite <- L. unfold c3. rewrite (s_num _ _ _ S). destruct (h p) as [|[o ch] fs] eqn:Eh; cbn [after]; [reflexivity|].
      pose proof (proj1 Fin p) as Inc. rewrite Eh in Inc. cbn in Inc. destruct (Z.eqb_spec o (-1)); [lia|]. reflexivity.
Qed.

Definition closed (vs : list nat) : Prop := forall x ch, In x vs -> In ch (children h x) -> num vs ch <> None.

Lemma closed_app : forall vs ws, closed vs -> (forall x ch, In x ws -> In ch (children h x) -> num (vs ++ ws) ch <> None) -> closed (vs ++ ws).
Proof.
  intros vs ws C H x ch Hx Hc. apply in_app_or in Hx. destruct Hx as [Hx|Hx]; [apply num_some_app; eapply C; eauto|eapply H; eauto].
Qed.
Lemma closed_reach : forall vs p x, closed vs -> reach h p x -> num vs p <> None -> In x vs.
Proof.
  intros vs p x C R. induction R as [p Np|p c q Np Hc R IH]; intros H; apply num_in in H.
  - destruct H; [contradiction|assumption].
  - destruct H as [H|H]; [contradiction|]. apply IH. eapply C; eauto.
Qed.

Lemma walk_ok : forall c vs root, st c vs [] -> closed vs -> (root = 0 \/ In root all) ->
  exists N c' ws evs, st c' (vs ++ ws) [] /\ closed (vs ++ ws) /\ done root vs ws evs /\
    forall fuel, N <= fuel -> walk capacity0 chunk h fuel c root = Ok (ERoot :: evs, nm (vs ++ ws) root, c').
Proof.
  intros c vs root S C Ar. destruct (visit_ok _ c vs [] root (le_n _) Ar S) as [f1 [c' [ws [evs [S' [D L]]]]]].
  exists (f1 + 1), c', ws, evs. split; [exact S'|]. split; [apply closed_app; [exact C|apply (d_closed _ _ _ _ D)]|]. split; [exact D|].
  intros fuel Hf. unfold walk. replace fuel with (f1 + Datatypes.S (fuel - f1 - 1)) by lia. rewrite L. cbn [loop].
  rewrite (pop_end c' (s_ok _ _ _ S') (s_stack _ _ _ S')). cbn [bind fst snd].
  destruct (find_ok c' (num (vs ++ ws)) root (s_knows _ _ _ S')) as [_ Fd].
  destruct (Fd _ (nm_num _ _ (d_num _ _ _ _ D))) as [_ ->]. reflexivity.
Qed.

Record rdone (roots vs ws : list nat) (evs : list event) : Prop := {
  r_num : forall r, In r roots -> num (vs ++ ws) r <> None;
  r_reach : forall x, In x ws -> exists r, In r roots /\ reach h r x;
  r_news : news evs = ws;
  r_nums : Forall (numbered (vs ++ ws)) evs;
  r_shape : shaped evs;
  r_replay : exists D, edgesOk (fun _ => False) vs ws D /\
    forall g, gRoots (replay evs g) = gRoots g ++ map (nm (vs ++ ws)) roots /\ gEdges (replay evs g) = gEdges g ++ D }.

Lemma roots_ok : forall roots c vs, st c vs [] -> closed vs -> (forall r, In r roots -> r = 0 \/ In r all) ->
  exists N c' ws evs, st c' (vs ++ ws) [] /\ closed (vs ++ ws) /\ rdone roots vs ws evs /\
    forall fuel, N <= fuel -> visitRoots capacity0 chunk h fuel c roots = Ok (evs, c').
Proof.
  induction roots as [|r roots IH]; intros c vs S C Ar.
  - exists 0, c, [], []. rewrite app_nil_r. split; [exact S|]. split; [exact C|]. split; [|reflexivity].
    constructor; cbn; try tauto; try constructor. exists []. split; [split; [intros x []|reflexivity]|]. intros. rewrite !app_nil_r. auto.
  - destruct (walk_ok c vs r S C (Ar r (or_introl eq_refl))) as [N1 [c1 [ws1 [ev1 [S1 [C1 [D1 L1]]]]]]].
    destruct (IH c1 (vs ++ ws1) S1 C1 (fun x Hx => Ar x (or_intror Hx))) as [N2 [c2 [ws2 [ev2 [S2 [C2 [D2 L2]]]]]]].
    exists (Nat.max N1 N2), c2, (ws1 ++ ws2), ((ERoot :: ev1) ++ ev2). rewrite app_assoc. split; [exact S2|]. split; [exact C2|]. split.
    + destruct D1 as [dn dr dc dnw dns ds drp]. destruct D2 as [rn rr rnw rns rs rrp].
      constructor; rewrite ?(app_assoc vs ws1 ws2).
      * intros x [<-|Hx]; [apply num_some_app; exact dn|apply rn; exact Hx].
      * intros x Hx. apply in_app_or in Hx. destruct Hx as [Hx|Hx].
        -- exists r. split; [left; reflexivity|apply dr; exact Hx].
        -- destruct (rr x Hx) as [q [Q1 Q2]]. exists q. split; [right; exact Q1|exact Q2].
      * rewrite news_app, rnw. change (news (ERoot :: ev1)) with (news ev1). rewrite dnw. reflexivity.
      * apply Forall_app. split; [constructor; [exact I|]|exact rns]. apply numbered_app. exact dns.
      * apply shaped_app; [|exact rs]. destruct ds as [o [q [-> [Oo Sq]]]]. constructor; assumption.
      * destruct drp as [Da [[Ea1 Ea2] Ra]]. destruct rrp as [Db [[Eb1 Eb2] Rb]]. exists (Da ++ Db). split; [split|].
        -- intros x Hx. rewrite targets_app. rewrite (app_assoc vs ws1 ws2). apply in_app_or in Hx. destruct Hx as [Hx|Hx].
           ++ destruct (st_app_new _ _ _ _ _ S1 Hx) as [Nx0 Nxv]. pose proof (nm_new vs ws1 x Hx Nx0 Nxv) as B1.
              assert (Ex : nm ((vs ++ ws1) ++ ws2) x = nm (vs ++ ws1) x) by (apply nm_app; apply num_in; right; apply in_or_app; auto).
              rewrite Ex, (Eb2 (nm (vs ++ ws1) x)); [|tauto|left; lia]. rewrite app_nil_r, (Ea1 x Hx). symmetry. apply map_nm_app.
              intros y Hy. eapply dc; eauto.
           ++ destruct (st_app_new _ _ _ _ _ S2 Hx) as [Nx0 Nxv]. pose proof (nm_new (vs ++ ws1) ws2 x Hx Nx0 Nxv) as B1.
              rewrite app_length in B1 at 1. rewrite (Ea2 (nm ((vs ++ ws1) ++ ws2) x)); [|tauto|right; rewrite app_length; lia].
              cbn [app]. apply Eb1. exact Hx.
        -- intros m Om Hm. rewrite !app_length in Hm. rewrite targets_app, (Ea2 m), (Eb2 m); [reflexivity|tauto| |tauto|]; rewrite !app_length; lia.
        -- intros g. rewrite replay_app. change (ERoot :: ev1) with ([ERoot] ++ ev1). rewrite replay_app.
           unfold replay at 3 6. cbn [map fold_left tokenOf read1]. rewrite Ra. cbn [gOpen gRoots gEdges].
           match goal with |- context [replay ev2 ?x] => destruct (Rb x) as [-> ->] end. cbn [gRoots gEdges].
           rewrite ?(app_assoc vs ws1 ws2). cbn [map]. rewrite (nm_app (vs ++ ws1) ws2 r dn). rewrite <- !app_assoc. cbn [app]. split; reflexivity.
    + intros fuel Hf. cbn [visitRoots]. rewrite L1 by lia. cbn [bind fst snd]. rewrite L2 by lia. reflexivity.
Qed.
End Dfs.

(** ** The bytes *)
Lemma byteOf_range : forall z s, (0 <= byteOf z s < 256)%Z.
Proof. intros. unfold byteOf. change 255%Z with (Z.ones 8). rewrite Z.land_ones by lia. apply Z.mod_pos_bound. lia. Qed.
Lemma bytes4 : forall z, (0 <= z < 4294967296)%Z ->
  ((((z / 16777216) mod 256 * 256 + (z / 65536) mod 256) * 256 + (z / 256) mod 256) * 256 + (z / 1) mod 256 = z)%Z.
Proof. intros z H. Z.div_mod_to_equations. lia. Qed.
Lemma read4_write4 : forall n r, (Z.of_nat n < 2 ^ 32)%Z -> read4 (write4 n ++ r) = Some (n, r).
Proof.
  intros n r H. unfold write4, read4, byteOf. cbn [app]. f_equal. f_equal.
  change 255%Z with (Z.ones 8). rewrite !Z.land_ones, !Z.shiftr_div_pow2 by lia.
  change (2 ^ 24)%Z with 16777216%Z. change (2 ^ 16)%Z with 65536%Z. change (2 ^ 8)%Z with 256%Z. change (2 ^ 0)%Z with 1%Z.
  change (2 ^ 32)%Z with 4294967296%Z in H. rewrite bytes4 by lia. apply Nat2Z.id.
Qed.

Section Bytes.
Context (size : nat -> nat) (name : nat -> option (list Z)).
Notation bytes := (dumpBytes size name).
Definition small (e : event) : Prop :=
  match e with
  | ENew p n => (Z.of_nat n < 2 ^ 32)%Z /\ (Z.of_nat (size p) < 2 ^ 32)%Z /\
                match name p with Some s => (Z.of_nat (length s) < 2 ^ 32)%Z | None => True end
  | EOld _ n => (Z.of_nat n < 2 ^ 32)%Z
  | _ => True
  end.
Definition notHead (l : list Z) : Prop := match l with [] => True | b :: _ => b <> 1%Z /\ b <> 2%Z end.
Lemma shaped_notHead : forall es, shaped es -> notHead (bytes es).
Proof. intros es []; cbn; auto; split; discriminate. Qed.

Lemma readSize_other : forall l, notHead l -> readSize l = Some (None, l).
Proof. intros [|b l] H; cbn in *; [reflexivity|]. destruct H as [H1 H2]. destruct b as [|q|q]; try reflexivity. destruct q; try reflexivity. congruence. Qed.
Lemma readName_other : forall l, notHead l -> readName l = Some (None, l).
Proof.
  intros [|b l] H; cbn in *; [reflexivity|]. destruct H as [H1 H2]. destruct b as [|q|q]; try reflexivity.
  destruct q as [q|q|]; try reflexivity. destruct q; try reflexivity. congruence.
Qed.
Lemma readObject_ok : forall e r, isObj e -> small e -> notHead r -> readObject (writeEvent size name e ++ r) = Some (tokenOf size name e, r).
Proof.
  intros e r O S N. destruct e as [|p n|p n|p n o|]; cbn in O; try contradiction; unfold readObject; cbn [writeEvent tokenOf small] in *.
  - destruct S as [S1 [S2 S3]]. rewrite <- !app_assoc. rewrite read4_write4 by exact S1.
    change ([TagSize] ++ write4 (size p) ++ (match name p with Some s => [TagClassName] ++ write4 (length s) ++ s | None => [] end) ++ r)
      with (1%Z :: write4 (size p) ++ (match name p with Some s => [TagClassName] ++ write4 (length s) ++ s | None => [] end) ++ r).
    unfold readSize. rewrite read4_write4 by exact S2. destruct (name p) as [s|].
    + rewrite <- !app_assoc. change ([TagClassName] ++ write4 (length s) ++ s ++ r) with (2%Z :: write4 (length s) ++ s ++ r).
      unfold readName. rewrite read4_write4 by exact S3. rewrite app_length.
      destruct (Nat.leb_spec (length s) (length s + length r)); [|lia].
      rewrite firstn_app, skipn_app, firstn_all, skipn_all, Nat.sub_diag. cbn [firstn skipn app]. rewrite app_nil_r. reflexivity.
    + cbn [app]. rewrite readName_other by exact N. reflexivity.
  - rewrite read4_write4 by exact S. rewrite readSize_other by exact N. rewrite readName_other by exact N. reflexivity.
Qed.

Lemma readTokens_ok : forall es, shaped es -> Forall small es -> forall fuel, length es < fuel ->
  readTokens fuel (bytes es) = Some (map (tokenOf size name) es).
Proof.
  unfold dumpBytes. induction 1 as [|p n o x r Ox Sr IH|r Sr IH|x r Ox Sr IH]; intros Sm fuel Hf; (destruct fuel as [|fuel]; [cbn in Hf; lia|]).
  - reflexivity.
  - inversion Sm as [|? ? _ Sm1]; subst. inversion Sm1 as [|? ? Sx Sm2]; subst. cbn [length] in Hf. cbn [flat_map writeEvent app].
    unfold TagPush. cbn [readTokens]. rewrite readObject_ok by (auto; apply shaped_notHead; exact Sr). rewrite IH by (auto; lia). reflexivity.
  - inversion Sm as [|? ? _ Sm1]; subst. cbn [length] in Hf. cbn [flat_map writeEvent app]. unfold TagPop. cbn [readTokens].
    rewrite IH by (auto; lia). reflexivity.
  - inversion Sm as [|? ? _ Sm1]; subst. inversion Sm1 as [|? ? Sx Sm2]; subst. cbn [length] in Hf. cbn [flat_map writeEvent app].
    unfold TagRoot. cbn [readTokens]. rewrite readObject_ok by (auto; apply shaped_notHead; exact Sr). rewrite IH by (auto; lia). reflexivity.
Qed.

Lemma bytes_long : forall es, length es <= length (bytes es).
Proof.
  induction es as [|e es IH]; cbn; [lia|]. rewrite app_length. assert (1 <= length (writeEvent size name e)); [|unfold dumpBytes in IH; lia].
  destruct e; cbn; rewrite ?app_length; cbn; lia.
Qed.
End Bytes.
