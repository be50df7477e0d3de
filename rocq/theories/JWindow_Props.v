From Coq Require Import ZArith List Bool Lia.
From Verif Require Import JWindow_Model.
Import ListNotations.
Local Open Scope Z_scope.

(** Specification: [n] bytes of [l] from [s] on, and whether they are all there. *)
Definition bytes (l : list Z) (s n : Z) : list Z := firstn (Z.to_nat n) (skipn (Z.to_nat s) l).
Definition within (l : list Z) (s n : Z) : Prop := 0 <= s /\ s + n <= Z.of_nat (List.length l).
(** What the reader of a zip file sees of one call: the bytes at the offset returned. *)
Definition seen (file : list Z) (n : Z) (s : Z) (w : window) (r : result) : Prop :=
  match r with
  | Offset o => within (data w) o n /\ bytes (data w) o n = bytes file s n /\ within file s n
  | IllegalArgument => Z.of_nat (List.length (data w)) < n \/ ~ within file s n
  | IOException => True
  end.
(** Calls one after another: start, length, and whether the disk fails. *)
Definition call : Type := Z * Z * bool.
Fixpoint allSeen (file : list Z) (cs : list call) (w : window) : Prop :=
  match cs with
  | [] => True
  | (s, n, fails) :: r => let '(w', o) := seek file fails s n w in seen file n s w' o /\ allSeen file r w'
  end.

Definition good (file : list Z) (w : window) : Prop :=
  0 <= start w /\ 0 <= length w /\ start w + length w <= Z.of_nat (List.length file) /\ length w <= Z.of_nat (List.length (data w)) /\
  firstn (Z.to_nat (length w)) (data w) = bytes file (start w) (length w).
Lemma inner : forall (l : list Z) a b n, (a + n <= b)%nat -> firstn n (skipn a (firstn b l)) = firstn n (skipn a l).
Proof.
  intros l a b n H. rewrite skipn_firstn_comm, firstn_firstn. f_equal. lia.
Qed.
Lemma skipn_plus : forall (l : list Z) a b, skipn a (skipn b l) = skipn (b + a) l.
Proof. intros l a b. revert l. induction b; intros l; [reflexivity|]. destruct l; cbn; [now rewrite !skipn_nil|apply IHb]. Qed.
Lemma good_inside : forall file w s n, good file w -> 0 <= n -> start w <= s -> s + n <= start w + length w ->
  within (data w) (s - start w) n /\ bytes (data w) (s - start w) n = bytes file s n /\ within file s n.
Proof.
  intros file w s n (A & B & C & D & E) N0 L R. unfold within. repeat split; try lia. unfold bytes in *.
  rewrite <- (inner (data w) _ (Z.to_nat (length w))) by lia. rewrite E. rewrite inner by lia. rewrite skipn_plus. do 2 f_equal. lia.
Qed.
Lemma place_ok : forall fl len s n, 0 <= n <= len -> len <= fl -> 0 <= s -> s + n <= fl ->
  0 <= place fl len s n /\ place fl len s n + len <= fl /\ place fl len s n <= s /\ s + n <= place fl len s n + len.
Proof.
  intros fl len s n A B C D. unfold place. pose proof (Z.quot_pos (len - n) 2 ltac:(lia) ltac:(lia)). pose proof (Z.mul_quot_le (len - n) 2 ltac:(lia) ltac:(lia)).
  set (q := Z.quot (len - n) 2) in *. destruct (Z.ltb_spec (s - q) 0); [lia|]. destruct (Z.ltb_spec fl (s - q + len)); lia.
Qed.
Lemma readFully_length : forall file st n d, 0 <= st -> 0 <= n -> st + n <= Z.of_nat (List.length file) -> n <= Z.of_nat (List.length d) ->
  List.length (readFully file st n d) = List.length d /\ firstn (Z.to_nat n) (readFully file st n d) = bytes file st n.
Proof.
  intros file st n d A B C D. unfold readFully, bytes. assert (L : List.length (firstn (Z.to_nat n) (skipn (Z.to_nat st) file)) = Z.to_nat n) by (rewrite firstn_length, skipn_length; lia).
  split; [rewrite app_length, L, skipn_length; lia|]. rewrite firstn_app, L, Nat.sub_diag, firstn_O, app_nil_r, firstn_firstn. f_equal. lia.
Qed.
Lemma seek_ok : forall file w s n, 0 <= n -> good file w -> let '(w', r) := seek file false s n w in
  good file w' /\ seen file n s w' r /\ r <> IOException /\ List.length (data w') = List.length (data w).
Proof.
  intros file w s n N0 G. unfold seek.
  destruct (Z.ltb_spec (Z.of_nat (List.length (data w))) n); [repeat split; try apply G; try discriminate; left; lia|].
  destruct (Z.ltb_spec s 0); [repeat split; try apply G; try discriminate; right; unfold within; lia|].
  destruct (Z.ltb_spec (Z.of_nat (List.length file)) (s + n)); [repeat split; try apply G; try discriminate; right; unfold within; lia|].
  destruct (Z.ltb_spec s (start w)) as [X|X]; [|destruct (Z.ltb_spec (start w + length w) (s + n)) as [Y|Y]]; cbn [orb].
  3: { pose proof (good_inside file w s n G N0 X Y). repeat split; try apply G; try discriminate; apply H2. }
  all: set (len := Z.min (Z.of_nat (List.length (data w))) (Z.of_nat (List.length file)));
    destruct (place_ok (Z.of_nat (List.length file)) len s n) as (P1 & P2 & P3 & P4); try (unfold len; lia);
    set (st := place (Z.of_nat (List.length file)) len s n) in *;
    destruct (readFully_length file st len (data w)) as [R1 R2]; try (unfold len in *; lia);
    assert (G' : good file {| data := readFully file st len (data w); start := st; length := len |})
      by (unfold good; cbn [data start length]; rewrite R1; repeat split; auto; unfold len in *; lia);
    pose proof (good_inside _ _ s n G' N0 P3 P4) as I0; cbn [data start length] in I0;
    split; [exact G'|]; split; [exact I0|]; split; [discriminate|exact R1].
Qed.
Lemma created_good : forall file size, good file (created size).
Proof. intros. unfold good, created, bytes. cbn. repeat split; lia. Qed.

(** * C178: the window of ZipFile shows the bytes of the file

    For every file, every buffer and every sequence of seeks with no failure of the disk, the
    bytes at the offset returned are those of the file, and a seek is refused only for a range
    outside the file or larger than the buffer. *)
Theorem C178_window_shows_the_file : forall file size cs,
  (forall s n fails, In (s, n, fails) cs -> 0 <= n /\ fails = false) -> allSeen file cs (created size).
Proof.
  intros file size cs. generalize (created_good file size). generalize (created size). induction cs as [|[[s n] fails] cs IH]; intros w G H; [exact Logic.I|].
  destruct (H s n fails (or_introl eq_refl)) as [N0 ->]. cbn [allSeen]. pose proof (seek_ok file w s n N0 G) as K. destruct (seek file false s n w) as [w' r].
  destruct K as (G' & S' & _). split; [exact S'|]. apply IH; [exact G'|]. intros. eapply H. right. eassumption.
Qed.
(** And with no failure no call throws IOException. *)
Theorem C178_no_failure_of_its_own : forall file w s n, 0 <= n -> snd (seek file false s n w) <> IOException.
Proof.
  intros file w s n _. unfold seek. repeat match goal with |- context [if ?b then _ else _] => destruct b end; cbn [snd]; discriminate.
Qed.
Definition tenBytes : list Z := [10; 11; 12; 13; 14; 15; 16; 17; 18; 19].
Example window_somewhere :
  let '(w1, r1) := seek tenBytes false 8 2 (created 4) in let '(w2, r2) := seek tenBytes false 3 2 w1 in let '(_, r3) := seek tenBytes false 5 1 w2 in
  (r1, data w1, r2, data w2, r3) = (Offset 2, [16; 17; 18; 19], Offset 1, [12; 13; 14; 15], Offset 3).
Proof. reflexivity. Qed.

(** * C179: the same with failures of the disk: false

    The window is moved before the file is read: when reading throws, the next seek in the same
    place succeeds and shows the bytes of another place. *)
Theorem C179_window_after_a_failure_refuted : exists file size cs, (forall s n fails, In (s, n, fails) cs -> 0 <= n) /\ ~ allSeen file cs (created size).
Proof.
  exists tenBytes, 4%nat, [(0, 2, false); (8, 2, true); (8, 2, false)]. split.
  - intros s n fails [E|[E|[E|[]]]]; inversion E; lia.
  - vm_compute. intros (_ & _ & (_ & E & _) & _). discriminate.
Qed.
Definition JWindow_theorems := (C178_window_shows_the_file, C178_no_failure_of_its_own, C179_window_after_a_failure_refuted).
Print Assumptions JWindow_theorems.
