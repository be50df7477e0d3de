(** C158-C161: streams of java.io. *)
From Coq Require Import NArith ZArith List Bool Arith Lia Floats.SpecFloat.
From Verif Require Import JIo_Model JIo_Spec JIo_Proofs.
Import ListNotations.
Local Open Scope nat_scope.

(** C158. A BufferedOutputStream of any size above 0, after any history of calls: no call has
    thrown, and a flush now leaves the stream underneath with exactly the bytes written, in
    their order; until then it has a prefix of them. *)
Theorem C158_buffered_output_delivers_in_order : forall size history, 0 < size ->
  exists s, bosRun history (newBos size) = Some s
  /\ (exists waiting, written history = sink s ++ waiting)
  /\ exists s', bosFlush s = Some s' /\ sink s' = written history.
Proof.
  intros size h H. destruct (bosRun_ok h size [] (newBos size) H) as (s & E & I).
  { unfold bosInv, newBos; cbn [obuf opos sink]. rewrite repeat_length. repeat split; lia. }
  exists s. split; [exact E|]. cbn [app] in I. split.
  - destruct I as (_ & _ & I). eexists. symmetry. exact I.
  - destruct (bosOp_ok size _ s Flush H I) as (s' & E' & _ & F). exists s'. split; [exact E'|]. apply F. reflexivity.
Qed.
(** Every toByteArray and size in any history of calls on a ByteArrayOutputStream sees exactly
    what was written since the last reset. *)
Theorem C158_byte_array_output_keeps_what_was_written : forall history,
  baosRun history newBaos = Some (expected [] history).
Proof. intros. apply baosRun_ok. repeat split; constructor. Qed.
Example C158_example_output :
  option_map sink (bosRun [W1 300; Wn [1; 2]; W1 5; Wn [7; 8; 9; 10; 11]; W1 6]%N (newBos 3)) = Some [44; 1; 2; 5; 7; 8; 9; 10; 11]%N.
Proof. reflexivity. Qed.
Example C158_example_array :
  baosRun [Bn [1; 2]; B1 259; Bn (repeat 7 31); Bn [8; 9]; Take; B1 4; GetSize; Reset; B1 5; Take]%N newBaos
  = Some [SawBytes ([1; 2; 3] ++ repeat 7 31 ++ [8; 9]); SawSize 37; SawBytes [5]]%N.
Proof. reflexivity. Qed.

(** C159. Reading. A buffered stream of any size above 0 over a stream that gives its bytes in
    pieces of any sizes, and whose available() answers in any way. *)
Inductive rcall := R1 | Rn (n : nat).
(** What the calls gave, one list for each call, with [None] for -1. *)
Definition bisStep (chunk avail : nat -> nat) (c : rcall) (b : buffered) : option (option (list N) * buffered) :=
  match c with
  | R1 => match bisRead1 chunk b with Some (o, b') => Some (option_map (fun c => [c]) o, b') | None => None end
  | Rn n => Some (bisRead chunk avail n b)
  end.
Fixpoint bisRun (chunk avail : nat -> nat) (l : list rcall) (b : buffered) : option (list (option (list N)) * buffered) :=
  match l with
  | [] => Some ([], b)
  | c :: l' => match bisStep chunk avail c b with
               | Some (o, b') => match bisRun chunk avail l' b' with Some (os, b2) => Some (o :: os, b2) | None => None end
               | None => None end
  end.
Fixpoint brdRun (chunk : nat -> nat) (l : list nat) (b : buffered) : list (option (list N)) * buffered :=
  match l with
  | [] => ([], b)
  | n :: l' => let (o, b') := brdRead chunk n b in let (os, b2) := brdRun chunk l' b' in (o :: os, b2)
  end.
(** The answers are right for a text: each call gives the next bytes, at least one and at most
    as many as asked for, and -1 only at the end. *)
Definition asked (c : rcall) : nat := match c with R1 => 1 | Rn n => n end.
Fixpoint answers (asks : list nat) (os : list (option (list N))) (text : list N) : Prop :=
  match asks, os with
  | [], [] => True
  | n :: asks', Some l :: os' => length l <= n /\ (0 < n -> 0 < length l) /\ exists rest, text = l ++ rest /\ answers asks' os' rest
  | _ :: asks', None :: os' => text = [] /\ answers asks' os' []
  | _, _ => False
  end.
Lemma new_in : forall size text, 0 < size -> inInv (newBuffered size text) /\ pending (newBuffered size text) = text.
Proof. intros. unfold inInv, pending, newBuffered; cbn [ibuf ipos limit src]. rewrite repeat_length. repeat split; lia. Qed.
Theorem C159_buffered_input_gives_the_bytes_in_order : forall chunk avail size text asks, 0 < size ->
  exists os b, bisRun chunk avail asks (newBuffered size text) = Some (os, b) /\ answers (map asked asks) os text.
Proof.
  intros chunk avail size text asks H. destruct (new_in size text H) as (I & P).
  revert I. generalize (newBuffered size text) P. clear H P. intros b P I. revert text b P I.
  induction asks as [|c asks IH]; intros text b P I; [exists [], b; cbn; auto|].
  cbn [bisRun map answers]. destruct c as [|n]; cbn [bisStep asked].
  - destruct (bisRead1_ok chunk b I) as (o & b' & E & I' & O). rewrite E. destruct (IH _ b' eq_refl I') as (os & b2 & E2 & A). rewrite E2.
    eexists _, _. split; [reflexivity|]. destruct o as [c|]; cbn [option_map ofPending] in *.
    + cbn [length]. split; [lia|]. split; [lia|]. exists (pending b'). rewrite <- P. split; [exact O|exact A].
    + destruct O as (O1 & O2). rewrite <- P. split; [exact O1|]. rewrite O2 in A. exact A.
  - pose proof (bisRead_ok chunk avail n b I) as E. destruct (bisRead chunk avail n b) as [o b']. destruct E as (I' & O).
    destruct (IH _ b' eq_refl I') as (os & b2 & E2 & A). rewrite E2.
    eexists _, _. split; [reflexivity|]. destruct o as [l|]; cbn [ofPendings] in *.
    + destruct O as (O1 & O2 & O3). split; [lia|]. split; [exact O3|]. exists (pending b'). rewrite <- P. split; [exact O1|exact A].
    + destruct O as (O1 & O2). rewrite <- P. split; [exact O1|]. rewrite O2 in A. exact A.
Qed.
Theorem C159_buffered_reader_gives_the_characters_in_order : forall chunk size text asks, 0 < size ->
  answers asks (fst (brdRun chunk asks (newBuffered size text))) text.
Proof.
  intros chunk size text asks H. destruct (new_in size text H) as (I & P).
  revert I. generalize (newBuffered size text) P. clear H P. intros b P I. revert text b P I.
  induction asks as [|n asks IH]; intros text b P I; [cbn; auto|].
  cbn [brdRun]. pose proof (brdRead_ok chunk n b I) as E. destruct (brdRead chunk n b) as [o b']. destruct E as (I' & O).
  specialize (IH _ b' eq_refl I'). destruct (brdRun chunk asks b') as [os b2]. cbn [fst answers] in *.
  destruct o as [l|]; cbn [ofPendings] in *.
  - destruct O as (O1 & O2 & O3). split; [lia|]. split; [exact O3|]. exists (pending b'). rewrite <- P. split; [exact O1|exact IH].
  - destruct O as (O1 & O2). rewrite <- P. split; [exact O1|]. rewrite O2 in IH. exact IH.
Qed.
(** readLine, called any number of times: the lines of any text without the pair \r\n. *)
Fixpoint lines (n : nat) (text : list N) : list (option (list N)) :=
  match n with
  | O => []
  | S n' => match firstLine text with Some (a, rest) => Some a :: lines n' rest | None => None :: lines n' [] end
  end.
Fixpoint readLines (chunk : nat -> nat) (fuel n : nat) (b : buffered) : option (list (option (list N))) :=
  match n with
  | O => Some []
  | S n' => match readLine chunk fuel b with
            | Some (r, b') => match readLines chunk fuel n' b' with Some rs => Some (r :: rs) | None => None end
            | None => None end
  end.
Lemma noCRLF_tail : forall a r, noCRLF (a ++ r) = true -> noCRLF r = true.
Proof.
  induction a as [|c a IH]; intros r H; [exact H|]. cbn [app] in H. apply IH. destruct (a ++ r) as [|d q]; [reflexivity|].
  cbn [noCRLF] in H. apply andb_true_iff in H. apply H.
Qed.
Lemma firstLine_rest : forall l a r, firstLine l = Some (a, r) -> exists p, l = p ++ r /\ (l = [] \/ p <> []).
Proof.
  induction l as [|c l IH]; intros a r H; [discriminate|]. cbn [firstLine] in H.
  destruct (c =? 10)%N; [injection H as <- <-; exists [c]; split; [reflexivity|right; discriminate]|].
  destruct (c =? 13)%N.
  - injection H as <- <-. destruct l as [|d l]; [exists [c]; split; [reflexivity|right; discriminate]|].
    destruct (d =? 10)%N; [exists [c; d]|exists [c]]; split; try reflexivity; right; discriminate.
  - destruct (firstLine l) as [[a' r']|] eqn:E.
    + injection H as <- <-. destruct (IH _ _ eq_refl) as (p & E2 & _). exists (c :: p). rewrite E2. split; [reflexivity|right; discriminate].
    + injection H as <- <-. apply firstLine_none in E as ->. exists [c]. split; [reflexivity|right; discriminate].
Qed.
Theorem C159_lines_are_the_lines_of_the_text : forall chunk size text n fuel, 0 < size -> noCRLF text = true -> length text < fuel ->
  readLines chunk fuel n (newBuffered size text) = Some (lines n text).
Proof.
  intros chunk size text n fuel H C F. destruct (new_in size text H) as (I & P).
  revert I. generalize (newBuffered size text) P. clear H P. intros b P I. revert text b P I C F.
  induction n as [|n IH]; intros text b P I C F; [reflexivity|]. cbn [readLines lines].
  destruct (readLineLoop_ok chunk fuel [] b I) as (r & b' & E & I' & L); [rewrite P; exact F|].
  unfold readLine. rewrite E. unfold lineOf in L. rewrite P in L. destruct (firstLine text) as [[a rest]|] eqn:FL.
  - destruct L as (-> & [L|(L & X)]).
    + destruct (firstLine_rest _ _ _ FL) as (p & Ep & _). rewrite (IH rest b' L I').
      * reflexivity.
      * apply (noCRLF_tail p). rewrite <- Ep. exact C.
      * rewrite Ep, app_length in F. lia.
    + rewrite X, noCRLF_no in C. discriminate.
  - destruct L as (-> & L). rewrite (IH [] b' L I'); [reflexivity|reflexivity|cbn; lia].
Qed.
(** For every text, \r\n included, the line given is the right one, and nothing is lost of what
    follows: at most the \n of a pair is left over. *)
Theorem C159_line_is_right_and_nothing_is_lost : forall chunk size text fuel, 0 < size -> length text < fuel ->
  exists r b', readLine chunk fuel (newBuffered size text) = Some (r, b') /\ inInv b' /\
  match firstLine text with
  | Some (a, rest) => r = Some a /\ (pending b' = rest \/ (pending b' = 10%N :: rest /\ text = a ++ 13%N :: 10%N :: rest))
  | None => r = None /\ pending b' = []
  end.
Proof.
  intros chunk size text fuel H F. destruct (new_in size text H) as (I & P).
  destruct (readLineLoop_ok chunk fuel [] _ I) as (r & b' & E & I' & L); [rewrite P; exact F|].
  exists r, b'. split; [exact E|]. split; [exact I'|]. rewrite P in L. exact L.
Qed.
Example C159_example_input :
  option_map fst (bisRun (fun k => k) (fun k => k) [R1; Rn 4; Rn 2; R1; R1] (newBuffered 3 [1; 2; 3; 4; 5; 6]%N))
  = Some [Some [1]; Some [2; 3; 4; 5]; Some [6]; None; None]%N.
Proof. vm_compute. reflexivity. Qed.
Example C159_example_lines :
  readLines (fun k => k) 20 5 (newBuffered 3 [65; 66; 67; 68; 10; 13; 69; 13; 70]%N)
  = Some [Some [65; 66; 67; 68]; Some []; Some [69]; Some [70]; None]%N.
Proof. vm_compute. reflexivity. Qed.

(** C160. Data streams: what DataOutput wrote, in any sequence of kinds, DataInput reads back,
    and is then exactly behind it. *)
Open Scope Z_scope.
Definition writeDatum (d : datum) : list Z :=
  match d with
  | DBoolean b => writeBoolean b | DByte z | DUByte z => writeByte z | DShort z | DUShort z => writeShort z
  | DChar z => writeChar z | DInt z => writeInt z | DLong z => writeLong z
  end.
Definition readAs (d : datum) : reader datum :=
  match d with
  | DBoolean _ => bindR readBoolean (fun b => retR (DBoolean b))
  | DByte _ => bindR readByte (fun b => retR (DByte b))
  | DShort _ => bindR readShort (fun b => retR (DShort b))
  | DChar _ => bindR readChar (fun b => retR (DChar b))
  | DInt _ => bindR readInt (fun b => retR (DInt b))
  | DLong _ => bindR readLong (fun b => retR (DLong b))
  | DUByte _ => bindR readUnsignedByte (fun b => retR (DUByte b))
  | DUShort _ => bindR readUnsignedShort (fun b => retR (DUShort b))
  end.
Fixpoint readAll (kinds : list datum) : reader (list datum) :=
  match kinds with [] => retR [] | d :: k => bindR (readAs d) (fun x => bindR (readAll k) (fun xs => retR (x :: xs))) end.
Lemma readAs_ok : forall d rest, inRange d -> readAs d (writeDatum d ++ rest) = Some (d, rest).
Proof.
  intros d rest R. destruct d as [b|z|z|z|z|z|z|z]; cbn [readAs writeDatum inRange] in *.
  - destruct b; reflexivity.
  - cbn. unfold bindR, retR, low. do 3 f_equal. apply (signed_id 8); lia.
  - unfold bindR at 1. destruct (readShort_ok z rest) as (v & E & V). rewrite E. unfold retR. rewrite V, (signed_id 16) by lia. reflexivity.
  - unfold bindR at 1, readChar, bindR. change (writeChar z) with (writeShort z).
    destruct (readShort_ok z rest) as (v & E & V). rewrite E. unfold retR. rewrite V, (signed_mod 16) by lia.
    rewrite Z.mod_mod, Z.mod_small by lia. reflexivity.
  - unfold bindR at 1. destruct (readInt_ok z rest) as (v & E & V). rewrite E. unfold retR. rewrite V, (signed_id 32) by lia. reflexivity.
  - unfold bindR at 1. destruct (readLong_ok z rest) as (v & E & V). rewrite E. unfold retR. rewrite V, (signed_id 64) by lia. reflexivity.
  - unfold writeByte. cbn [app]. unfold bindR, retR, readUnsignedByte, readByte, bindR, retR, read0, low.
    change 255 with (2 ^ 8 - 1). rewrite land_mask, (signed_mod 8) by lia. change (2 ^ 8) with 256 in *.
    rewrite Z.mod_mod, Z.mod_small by lia. reflexivity.
  - unfold bindR at 1, readUnsignedShort, bindR. destruct (readShort_ok z rest) as (v & E & V). rewrite E. unfold retR.
    change 65535 with (2 ^ 16 - 1). rewrite land_mask, V, (signed_mod 16) by lia. rewrite Z.mod_mod, Z.mod_small by lia. reflexivity.
Qed.
Theorem C160_data_streams_read_back_what_was_written : forall values rest, Forall inRange values ->
  readAll values (concat (map writeDatum values) ++ rest) = Some (values, rest).
Proof.
  induction values as [|d l IH]; intros rest F; [reflexivity|]. inversion F as [|x y F1 F2]; subst.
  cbn [map concat readAll]. rewrite <- app_assoc. unfold bindR at 1. rewrite (readAs_ok _ _ F1). unfold bindR. rewrite (IH _ F2). reflexivity.
Qed.
(** The order and number of bytes are those of the format: big-endian, of the size of the kind. *)
Theorem C160_bytes_are_big_endian : forall z,
  fold_left (fun a b => a * 256 + b) (writeInt z) 0 = z mod 2 ^ 32
  /\ fold_left (fun a b => a * 256 + b) (writeShort z) 0 = z mod 2 ^ 16
  /\ fold_left (fun a b => a * 256 + b) (writeLong z) 0 = z mod 2 ^ 64
  /\ Forall (fun b => 0 <= b < 256) (writeLong z)
  /\ length (writeInt z) = 4%nat /\ length (writeShort z) = 2%nat /\ length (writeLong z) = 8%nat.
Proof.
  assert (S2 : forall z, fold_left (fun a b => a * 256 + b) (writeShort z) 0 = z mod 2 ^ 16).
  { intros z. cbn [fold_left writeShort]. rewrite Z.mul_0_l, Z.add_0_l. apply two. }
  assert (S4 : forall z, fold_left (fun a b => a * 256 + b) (writeInt z) 0 = z mod 2 ^ 32).
  { intros z. cbn [fold_left writeInt]. unfold low. rewrite !Z.shiftr_div_pow2 by lia. 
    change (2 ^ 24) with 16777216. change (2 ^ 16) with 65536. change (2 ^ 8) with 256. change (2 ^ 32) with 4294967296.
    Z.to_euclidean_division_equations. lia. }
  intros z. split; [apply S4|]. split; [apply S2|]. split; [|split; [repeat (constructor; [apply low_range|]); constructor|repeat split]].
  rewrite writeLong_ints, fold_left_app.
  assert (G : forall a x, fold_left (fun a b => a * 256 + b) (writeInt x) a = a * 2 ^ 32 + x mod 2 ^ 32).
  { intros a x. rewrite <- S4. cbn [fold_left writeInt]. change (2 ^ 32) with 4294967296. lia. }
  rewrite !G, Z.shiftr_div_pow2 by lia.
  change (2 ^ 64) with (2 ^ 32 * 2 ^ 32). generalize (2 ^ 32) (eq_refl : 2 ^ 32 = 4294967296). intros m M.
  rewrite Z.rem_mul_r by lia. lia.
Qed.
Example C160_example :
  readAll [DInt 0; DBoolean true; DChar 0; DLong 0; DByte 0; DUByte 0]
    (concat (map writeDatum [DInt (-2); DBoolean true; DChar 65535; DLong (-9223372036854775808); DByte (-1); DUByte 255]) ++ [9])
  = Some ([DInt (-2); DBoolean true; DChar 65535; DLong (-9223372036854775808); DByte (-1); DUByte 255], [9]).
Proof. vm_compute. reflexivity. Qed.

(** C161. What fails. *)
(** The float 1.0 (mantissa 2^23, exponent -23) is not read back: 1316880384.0 is. *)
Definition one : spec_float := S754_finite false 8388608 (-23).
Theorem C161_floats_are_read_back_refuted :
  ~ (forall f, valid_binary 24 128 f = true -> readFloat (writeFloat f) = Some (f, [])).
Proof. intros H. specialize (H one eq_refl). vm_compute in H. discriminate. Qed.
Example C161_one_becomes : readFloat (writeFloat one) = Some (intToFloat 1316880384, []).
Proof. vm_compute. reflexivity. Qed.
(** The pair \r\n is one end of line, unless the \r is the last character of the buffer. *)
Theorem C161_lines_of_any_text_refuted :
  ~ (forall chunk size text n fuel, (0 < size)%nat -> (length text < fuel)%nat ->
     readLines chunk fuel n (newBuffered size text) = Some (lines n text)).
Proof.
  intros H. specialize (H (fun _ => 9%nat) 2%nat [65; 13; 10; 66]%N 3%nat 9%nat ltac:(lia) ltac:(cbn; lia)). vm_compute in H. discriminate.
Qed.
(** available() is never below 0. *)
Theorem C161_available_is_not_negative_refuted :
  ~ (forall chunk avail size text asks os b, (0 < size)%nat -> bisRun chunk avail asks (newBuffered size text) = Some (os, b) ->
     0 <= fst (bisAvailable avail b)).
Proof.
  intros H. specialize (H (fun _ => 0%nat) (fun _ => 0%nat) 1%nat [] [R1] _ _ ltac:(lia) eq_refl). vm_compute in H. apply H. reflexivity.
Qed.
(** A BufferedOutputStream of size 0 takes bytes. *)
Theorem C161_buffer_of_size_0_refuted : ~ (forall c, bosRun [W1 c] (newBos 0) <> None).
Proof. intros H. apply (H 1%N). reflexivity. Qed.

Definition JIo_theorems := (C158_buffered_output_delivers_in_order, C158_byte_array_output_keeps_what_was_written,
  C159_buffered_input_gives_the_bytes_in_order, C159_buffered_reader_gives_the_characters_in_order,
  C159_lines_are_the_lines_of_the_text, C159_line_is_right_and_nothing_is_lost,
  C160_data_streams_read_back_what_was_written, C160_bytes_are_big_endian,
  C161_floats_are_read_back_refuted, C161_lines_of_any_text_refuted, C161_available_is_not_negative_refuted, C161_buffer_of_size_0_refuted).
Print Assumptions JIo_theorems.
