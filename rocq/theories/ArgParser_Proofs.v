From Coq Require Import List Bool Arith String Ascii Lia.
From Verif Require Import Chain ArgParser_Model ArgParser_Spec.
Import ListNotations.

Lemma scan_none : forall os w i v b st, (forall o, In o os -> name o <> w) -> scan os i w v b st = (v, b, st).
Proof.
  induction os as [|o os IH]; intros w i v b st H; cbn; auto. destruct (String.eqb_spec (name o) w).
  destruct (H o); cbn; auto. apply IH. intros; apply H; cbn; auto.
Qed.
Lemma scan_some : forall os, NoDup (map name os) -> forall k o i v b st, nth_error os k = Some o ->
  scan os i (name o) v b st = if takes o then (v, true, Some (i + k)) else (upd v (i + k) (Some "true"%string), true, st).
Proof.
  induction os as [|p os IH]; intros N k o i v b st H. destruct k; discriminate.
  inversion N; subst. destruct k as [|k]; cbn in H.
  - injection H as ->. cbn. rewrite String.eqb_refl. rewrite Nat.add_0_r. destruct (takes o); apply scan_none; intros q Hq E; apply H2; rewrite <- E; apply in_map; auto.
  - cbn. destruct (String.eqb_spec (name p) (name o)). destruct H2. rewrite e. apply in_map. eapply nth_error_In; eauto.
    rewrite (IH H3 k o (S i) v b st H). replace (S i + k) with (i + S k) by lia. auto.
Qed.
(** Position of an option; with distinct names, the name determines it. *)
Lemma pos : forall (os : list opt) o, In o os -> exists k, nth_error os k = Some o.
Proof. intros. apply In_nth_error; auto. Qed.
Lemma same_pos : forall os, NoDup (map name os) -> forall k j o p, nth_error os k = Some o -> nth_error os j = Some p -> name o = name p -> k = j.
Proof.
  intros os N k j o p Hk Hj E. rewrite NoDup_nth_error in N. apply N. rewrite map_length. apply nth_error_Some. congruence.
  rewrite !nth_error_map, Hk, Hj. cbn. congruence.
Qed.
Lemma same_opt : forall os, NoDup (map name os) -> forall o p, In o os -> In p os -> name o = name p -> o = p.
Proof. intros os N o p Ho Hp E. destruct (pos os o Ho) as [k Hk], (pos os p Hp) as [j Hj]. assert (k = j) by (eapply same_pos; eauto). subst. congruence. Qed.

(** The value the items give to an option: the word after it, or "true" for a flag. *)
Fixpoint assigned (l : list (string * option string)) (x : string) : option string :=
  match l with
  | [] => None
  | (y, a) :: l => if String.eqb y x then Some (match a with Some v => v | None => "true"%string end) else assigned l x
  end.
Lemma assigned_in : forall l x, assigned l x <> None <-> given x l.
Proof.
  unfold given. induction l as [|[y a] l IH]; cbn; intros x. tauto. destruct (String.eqb_spec y x). split; auto; congruence. rewrite IH. intuition congruence.
Qed.
Lemma assigned_value : forall l x a, assigned l x = Some a -> In (x, Some a) l \/ (a = "true"%string /\ In (x, None) l).
Proof.
  induction l as [|[y b] l IH]; cbn; intros x a H. discriminate. destruct (String.eqb_spec y x).
  - subst. injection H as <-. destruct b; auto.
  - destruct (IH x a H) as [|[]]; auto.
Qed.

Section Os.
Variable os : list opt.
Hypothesis Hos : NoDup (map name os).

Lemma Line_kind : forall av l, Line os av l -> forall x a, In (x, a) l -> exists o, In o os /\ name o = x /\ takes o = match a with Some _ => true | None => false end.
Proof.
  induction 1; intros x b Hb; cbn in Hb. destruct Hb. all: destruct Hb as [E|Hb]; [inversion E; subst; eauto|eauto].
Qed.
(** [v'] is [v] with the items written into it. *)
Definition written (l : list (string * option string)) (v v' : values) : Prop :=
  forall k o, nth_error os k = Some o -> v' k = match assigned l (name o) with Some a => Some a | None => v k end.
Definition free (l : list (string * option string)) (v : values) : Prop :=
  forall k o a, nth_error os k = Some o -> In (name o, Some a) l -> v k = None.

Lemma dash : forall w, (("-" ++ w)%string) = String "-" w. Proof. auto. Qed.

Lemma words_line : forall av l, Line os av l -> forall v, once l -> free l v -> exists v', words os av v None = Some (v', None) /\ written l v v'.
Proof.
  induction 1 as [|o av l Ho Ht HL IH|o a av l Ho Ht HL IH]; intros v N F.
  - exists v. split; auto. intros k o _. auto.
  - rewrite dash. cbn [words]. rewrite Ascii.eqb_refl. destruct (pos os o Ho) as [k Hk]. rewrite (scan_some os Hos k o 0 v false None Hk), Ht.
    destruct (IH (upd v k (Some "true"%string))) as (v' & E & W).
    + unfold once in *. cbn in N. auto.
    + intros j p a Hj Ha. unfold upd. destruct (Nat.eqb_spec j k).
      * subst. assert (p = o) by congruence. subst. destruct (Line_kind _ _ HL _ _ Ha) as (q & Hq & E & T). assert (q = o) by (eapply same_opt; eauto). subst. congruence.
      * eapply F; eauto. cbn; eauto.
    + exists v'. split. exact E. intros j p Hj. rewrite (W j p Hj). cbn [assigned]. destruct (String.eqb_spec (name o) (name p)).
      * assert (j = k) by (eapply same_pos; eauto). subst. unfold upd. rewrite Nat.eqb_refl. destruct (assigned l (name p)) eqn:A; auto. f_equal.
        destruct (assigned_value _ _ _ A) as [Hin|[]]; auto. destruct (Line_kind _ _ HL _ _ Hin) as (q & Hq & E' & T). assert (q = o) by (eapply same_opt; eauto; congruence). congruence.
      * unfold upd. rewrite (proj2 (Nat.eqb_neq j k)). auto. intro; subst. congruence.
  - rewrite dash. cbn [words]. rewrite Ascii.eqb_refl. destruct (pos os o Ho) as [k Hk]. rewrite (scan_some os Hos k o 0 v false None Hk), Ht. cbn [plus words].
    rewrite (F k o a Hk) by (cbn; auto). unfold once in N. cbn in N. inversion N as [|? ? N1 N2]; subst.
    destruct (IH (upd v k (Some a))) as (v' & E & W); auto.
    + intros j p b Hj Hb. unfold upd. destruct (Nat.eqb_spec j k).
      * subst. exfalso. apply N1. assert (p = o) by congruence. subst. apply in_map_iff. exists (name o, Some b). split; auto. apply filter_In. auto.
      * eapply F; eauto. cbn; eauto.
    + exists v'. split. exact E. intros j p Hj. rewrite (W j p Hj). cbn [assigned]. destruct (String.eqb_spec (name o) (name p)).
      * assert (j = k) by (eapply same_pos; eauto). subst. unfold upd. rewrite Nat.eqb_refl. destruct (assigned l (name p)) eqn:A; auto. exfalso.
        destruct (assigned_value _ _ _ A) as [Hin|[_ Hin]].
        -- apply N1. apply in_map_iff. exists (name p, Some s). split; auto. apply filter_In. auto.
        -- destruct (Line_kind _ _ HL _ _ Hin) as (q & Hq & E' & T). assert (q = o) by (eapply same_opt; eauto; congruence). congruence.
      * unfold upd. rewrite (proj2 (Nat.eqb_neq j k)). auto. intro; subst. congruence.
Qed.
Lemma line_words : forall m av v v', List.length av <= m -> words os av v None = Some (v', None) -> exists l, Line os av l /\ once l /\ free l v.
Proof.
  induction m as [|m IH]; intros av v v' Hm E.
  - destruct av; [|cbn in Hm; lia]. exists []. split. constructor. split. constructor. intros k o a _ [].
  - destruct av as [|a av]. exists []. split. constructor. split. constructor. intros k o b _ []. cbn [words] in E. destruct a as [|c w]; [discriminate|].
    destruct (Ascii.eqb_spec c "-"%char); [|discriminate]. subst.
    destruct (in_dec string_dec w (map name os)) as [Hw|Hw].
    2:{ rewrite scan_none in E. discriminate. intros o Ho En. apply Hw. subst. apply in_map; auto. }
    apply in_map_iff in Hw. destruct Hw as (o & <- & Ho). destruct (pos os o Ho) as [k Hk]. rewrite (scan_some os Hos k o 0 v false None Hk) in E. cbn [plus] in E.
    destruct (takes o) eqn:Ht.
    + destruct av as [|b av]; cbn [words] in E. discriminate. destruct (v k) eqn:Vk; [discriminate|].
      destruct (IH av (upd v k (Some b)) v') as (l & HL & HO & HF); auto. cbn in Hm; lia.
      exists ((name o, Some b) :: l). split. apply (line_opt os o b av l); auto. split.
      * unfold once. cbn. constructor; auto. intro Hin. apply in_map_iff in Hin. destruct Hin as ([y c] & Ey & Hin). apply filter_In in Hin. destruct Hin as [Hin Hc].
        cbn in *. destruct c as [c|]; [|discriminate]. subst. specialize (HF k o c Hk Hin). unfold upd in HF. rewrite Nat.eqb_refl in HF. discriminate.
      * intros j p c Hj [Ec|Hin]. injection Ec as En _. assert (j = k) by (eapply same_pos; eauto). congruence.
        specialize (HF j p c Hj Hin). unfold upd in HF. destruct (Nat.eqb_spec j k); [discriminate|auto].
    + destruct (IH av (upd v k (Some "true"%string)) v') as (l & HL & HO & HF); auto. cbn in Hm; lia.
      exists ((name o, None) :: l). split. apply (line_flag os o av l); auto. split.
      * unfold once in *. cbn. auto.
      * intros j p c Hj [Ec|Hin]. discriminate. specialize (HF j p c Hj Hin). unfold upd in HF. destruct (Nat.eqb_spec j k); [discriminate|auto].
Qed.
End Os.

Lemma complete_ok : forall os i v, complete os i v = true <-> (forall k o, nth_error os k = Some o -> required o = true -> v (i + k) <> None).
Proof.
  induction os as [|p os IH]; intros i v; cbn.
  - split; auto. intros _ [|k] o H; discriminate.
  - split.
    + intros H [|k] o Hk Hr; cbn in Hk.
      * injection Hk as ->. rewrite Hr in H. cbn in H. rewrite Nat.add_0_r. destruct (v i); congruence.
      * destruct (_ && _); [discriminate|]. replace (i + S k) with (S i + k) by lia. apply (proj1 (IH (S i) v) H k o); auto.
    + intros H. assert (H0 := H 0 p eq_refl). rewrite Nat.add_0_r in H0. destruct (required p); cbn.
      * destruct (v i) eqn:E; [|destruct H0; auto]. apply IH. intros k o Hk Hr. replace (S i + k) with (i + S k) by lia. apply (H (S k) o); auto.
      * apply IH. intros k o Hk Hr. replace (S i + k) with (i + S k) by lia. apply (H (S k) o); auto.
Qed.
Theorem parse_line : forall os av, NoDup (map name os) -> forall l, wellFormed os av l ->
  exists v, parse os av = Some v /\ written os l (fun _ => None) v.
Proof.
  intros os av N l (HL & HO & HR). destruct (words_line os N _ _ HL (fun _ => None) HO) as (v & E & W). intros k o a _ _; auto.
  exists v. split; auto. unfold parse. rewrite E. rewrite (proj2 (complete_ok os 0 v)); auto. intros k o Hk Hr. cbn [plus]. rewrite (W k o Hk).
  assert (G := HR o (nth_error_In _ _ Hk) Hr). apply assigned_in in G. destruct (assigned l (name o)); congruence.
Qed.
Theorem line_parse : forall os av v, NoDup (map name os) -> parse os av = Some v -> exists l, wellFormed os av l.
Proof.
  intros os av v N E. unfold parse in E. destruct (words os (tl av) (fun _ => None) None) as [[v1 [|]]|] eqn:Ew; try discriminate.
  destruct (complete os 0 v1) eqn:Ec; [|discriminate]. injection E as <-. destruct (line_words os N _ _ _ _ (le_n _) Ew) as (l & HL & HO & HF).
  exists l. split; auto. split; auto. intros o Ho Hr. destruct (words_line os N _ _ HL _ HO HF) as (v2 & E2 & W). rewrite E2 in Ew. injection Ew as ->.
  destruct (pos os o Ho) as [k Hk]. pose proof (proj1 (complete_ok os 0 v1) Ec k o Hk Hr) as Hv. cbn [plus] in Hv. rewrite (W k o Hk) in Hv.
  apply assigned_in. destruct (assigned l (name o)); congruence.
Qed.
