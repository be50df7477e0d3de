From Coq Require Import NArith List Bool Lia.
From Verif Require Import JProps_Model JProps_Spec.
Import ListNotations.
Local Open Scope N_scope.

Ltac tests := repeat match goal with |- context [N.eqb ?a ?b] => destruct (N.eqb_spec a b); try lia; cbn [orb andb negb] end.

Lemma parse_cons : forall c r comment escaped p, parse (c :: r) comment escaped p =
      if comment then parse r (negb (c =? 10)) false p
      else if c =? 92 then
        if escaped then parse r false false (append p c) else parse r false true p
      else if (c =? 35) || (c =? 33) then
        match key p with None => parse r true false p | Some _ => parse r false false (append p c) end
      else if (c =? 32) || (c =? 13) || (c =? 9) then
        parse r false false (if escaped || inValue p then append p c else endKey p)
      else if (c =? 58) || (c =? 61) then
        parse r false false (if escaped || inValue p then append p c else separate p)
      else if c =? 10 then
        if escaped then parse r false false (append p c) else option_map (app (finishLine p)) (parse r false false fresh)
      else if c =? 110 then parse r false false (append p (if escaped then 10 else c))
      else if (c =? 117) && escaped then
        match r with
        | w :: x :: y :: z :: r' => match utf16 w x y z with Some u => parse r' false false (append p u) | None => None end
        | _ => None
        end
      else parse r false false (append p c).
Proof. reflexivity. Qed.

Lemma skip_comment : forall s r p, oneLine s -> parse (s ++ 10 :: r) true false p = parse r false false p.
Proof.
  induction s as [|c s IH]; intros r p H; cbn [app]; rewrite parse_cons.
  - reflexivity.
  - assert (c <> 10) by (intro; apply H; left; auto). destruct (N.eqb_spec c 10); [lia|]. cbn [negb]. apply IH. intro K. apply H. right. exact K.
Qed.
(** An ordinary character of a key is appended. *)
Lemma key_char : forall c r p, keyCharacter c -> (key p <> None \/ (c <> 35 /\ c <> 33)) -> parse (c :: r) false false p = parse r false false (append p c).
Proof.
  intros c r p (A & B & C & D & E & F & G) K. rewrite parse_cons. cbn [orb].
  destruct (N.eqb_spec c 92); [lia|]. destruct (N.eqb_spec c 35), (N.eqb_spec c 33); try lia; cbn [orb]; try (destruct (key p); [reflexivity|]; destruct K as [K|K]; [congruence|lia]).
  destruct (N.eqb_spec c 32); [lia|]. destruct (N.eqb_spec c 13); [lia|]. destruct (N.eqb_spec c 9); [lia|]. destruct (N.eqb_spec c 58); [lia|]. destruct (N.eqb_spec c 61); [lia|]. destruct (N.eqb_spec c 10); [lia|]. cbn [orb].
  destruct (N.eqb_spec c 110); [reflexivity|]. rewrite andb_false_r. reflexivity.
Qed.
Lemma key_chars : forall k r a, Forall keyCharacter k ->
  parse (k ++ r) false false {| key := Some a; value := None; current := AtKey |} = parse r false false {| key := Some (a ++ k); value := None; current := AtKey |}.
Proof.
  induction k as [|c k IH]; intros r a H; cbn [app]; [now rewrite app_nil_r|]. inversion H; subst.
  rewrite key_char; [|auto|left; discriminate]. unfold append, plus; cbn [current key value]. rewrite IH by auto. now rewrite <- app_assoc.
Qed.
Lemma whole_key : forall k r, plainKey k -> parse (k ++ 61 :: r) false false fresh = parse r false false {| key := Some k; value := None; current := Nowhere |}.
Proof.
  intros k r (A & B). destruct k as [|c k]; cbn [app]; [rewrite parse_cons; reflexivity|]. inversion A; subst.
  rewrite key_char; [|auto|right; eapply B; reflexivity]. unfold append, fresh; cbn [current key value]. rewrite key_chars by auto. cbn [app]. rewrite parse_cons. reflexivity.
Qed.
Lemma value_char : forall c r k v, c <> 92 /\ c <> 10 ->
  parse (c :: r) false false {| key := Some k; value := Some v; current := AtValue |} = parse r false false {| key := Some k; value := Some (v ++ [c]); current := AtValue |}.
Proof.
  intros c r k v (A & B). rewrite parse_cons. unfold inValue, append, plus; cbn [orb current key value].
  destruct (N.eqb_spec c 92); [lia|]. destruct ((c =? 35) || (c =? 33)); [reflexivity|]. destruct ((c =? 32) || (c =? 13) || (c =? 9)); [reflexivity|].
  destruct ((c =? 58) || (c =? 61)); [reflexivity|]. destruct (N.eqb_spec c 10); [lia|]. destruct (c =? 110); [reflexivity|]. rewrite andb_false_r. reflexivity.
Qed.
Lemma value_chars : forall w r k v, Forall (fun c => c <> 92 /\ c <> 10) w ->
  parse (w ++ r) false false {| key := Some k; value := Some v; current := AtValue |} = parse r false false {| key := Some k; value := Some (v ++ w); current := AtValue |}.
Proof.
  induction w as [|c w IH]; intros r k v H; cbn [app]; [now rewrite app_nil_r|]. inversion H; subst. rewrite value_char, IH by auto. now rewrite <- app_assoc.
Qed.
Lemma value_first : forall c r k, c <> 92 /\ c <> 10 -> ~ blank c /\ c <> 58 /\ c <> 61 ->
  parse (c :: r) false false {| key := Some k; value := None; current := Nowhere |} = parse r false false {| key := Some k; value := Some [c]; current := AtValue |}.
Proof.
  intros c r k (A & B) (C & D & E). unfold blank in C. rewrite parse_cons. unfold inValue, append, plus; cbn [orb current key value].
  destruct (N.eqb_spec c 92); [lia|]. destruct ((c =? 35) || (c =? 33)); [reflexivity|].
  destruct (N.eqb_spec c 32); [lia|]. destruct (N.eqb_spec c 13); [lia|]. destruct (N.eqb_spec c 9); [lia|]. destruct (N.eqb_spec c 58); [lia|]. destruct (N.eqb_spec c 61); [lia|]. destruct (N.eqb_spec c 10); [lia|]. cbn [orb].
  destruct (c =? 110); [reflexivity|]. rewrite andb_false_r. reflexivity.
Qed.
Lemma not_blank : forall c, ~ blank c -> isWhitespace c = false.
Proof. intros c H. unfold blank in H. unfold isWhitespace. destruct (N.eqb_spec c 32), (N.eqb_spec c 9), (N.eqb_spec c 10), (N.eqb_spec c 13); try lia; reflexivity. Qed.
Lemma trim_plain : forall v, plainValue v -> trim v = v.
Proof.
  intros v (A & B & C). unfold trim. assert (E : trimLeft v = v).
  { destruct v as [|c r]; [reflexivity|]. cbn. destruct (B c r eq_refl) as [H _]. now rewrite not_blank. }
  rewrite E. destruct (rev v) as [|c r] eqn:R.
  - cbn. rewrite <- (rev_involutive v), R. reflexivity.
  - assert (V : v = rev r ++ [c]) by (rewrite <- (rev_involutive v), R; reflexivity).
    cbn [trimLeft]. rewrite not_blank by (eapply C, V). rewrite <- R. apply rev_involutive.
Qed.
Lemma whole_value : forall v r k, plainValue v ->
  parse (v ++ 10 :: r) false false {| key := Some k; value := None; current := Nowhere |} = option_map (cons (k, v)) (parse r false false fresh).
Proof.
  intros v r k P. pose proof (trim_plain v P) as T. destruct P as (A & B & C). destruct v as [|c v]; cbn [app].
  - rewrite parse_cons. reflexivity.
  - inversion A; subst. rewrite value_first by (auto; eapply B; reflexivity). rewrite value_chars by auto. rewrite parse_cons. cbn [N.eqb Pos.eqb orb].
    unfold finishLine. cbn [key value]. cbn [app]. rewrite T. reflexivity.
Qed.
Lemma load_entries : forall m, Forall plainEntry m -> parse (flat_map storeEntry m) false false fresh = Some m.
Proof.
  induction m as [|[k v] m IH]; intro H; [reflexivity|]. inversion H as [|? ? (K & V) M]; subst. cbn [flat_map]. unfold storeEntry at 1. cbn [fst snd] in *.
  rewrite <- !app_assoc. cbn [app]. rewrite whole_key by exact K. rewrite whole_value by exact V. rewrite IH by exact M. reflexivity.
Qed.
Lemma load_store : forall comment m, oneLine comment -> Forall plainEntry m -> load (store comment m) = Some m.
Proof.
  intros comment m C H. unfold load, store. cbn [app]. rewrite parse_cons. cbn [N.eqb Pos.eqb orb fresh key]. rewrite parse_cons. cbn [N.eqb Pos.eqb negb].
  rewrite skip_comment by exact C. apply load_entries, H.
Qed.

(** Separators leave the key as it is. *)
Definition sepChar (c : N) : Prop := space c \/ c = 58 \/ c = 61.
Lemma sep_char : forall c r k pl, sepChar c -> pl <> AtValue ->
  parse (c :: r) false false {| key := Some k; value := None; current := pl |} = parse r false false {| key := Some k; value := None; current := Nowhere |}.
Proof.
  intros c r k pl H P. destruct pl; [| |congruence]; unfold sepChar, space in H; destruct H as [[->|[->| ->]]|[->| ->]]; rewrite parse_cons; reflexivity.
Qed.
Lemma sep_chars : forall l r k, Forall sepChar l ->
  parse (l ++ r) false false {| key := Some k; value := None; current := Nowhere |} = parse r false false {| key := Some k; value := None; current := Nowhere |}.
Proof. induction l as [|c l IH]; intros r k H; [reflexivity|]. inversion H; subst. cbn [app]. rewrite sep_char by (auto; discriminate). apply IH; auto. Qed.
Lemma separator_chars : forall l, separator l -> Forall sepChar l.
Proof.
  intros l (_ & b & m & a & -> & B & A & M). apply Forall_forall. intros c C. rewrite Forall_forall in B, A. rewrite !in_app_iff in C.
  destruct C as [C|[C|C]]; [left; auto| |left; auto]. destruct M as [->|[->| ->]]; [destruct C|right; left|right; right]; destruct C as [<-|[]]; reflexivity.
Qed.
Lemma load_line : forall k sep v, k <> [] -> plainKey k -> separator sep -> plainValue v -> load (k ++ sep ++ v ++ [10]) = Some [(k, v)].
Proof.
  intros k sep v K (A & B) S V. pose proof (separator_chars sep S) as F. destruct S as [S0 _]. destruct k as [|c k]; [congruence|]. destruct sep as [|d sep]; [congruence|].
  inversion A; subst. inversion F; subst. unfold load. cbn [app]. rewrite key_char; [|auto|right; eapply B; reflexivity]. unfold append, fresh; cbn [current key value].
  rewrite key_chars by auto. cbn [app]. rewrite sep_char by (auto; discriminate). rewrite sep_chars by auto. rewrite whole_value by exact V. reflexivity.
Qed.
