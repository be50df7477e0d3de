(** Class path and jar lookup, as the user sees them. *)
From Coq Require Import List ZArith Bool.
From Verif Require Import Finder_Model.
Import ListNotations.
Local Open Scope Z_scope.

(** The text made of segments with the separator between them. *)
Fixpoint join (d : Z) (segs : list bytes) : bytes :=
  match segs with [] => [] | [g] => g | g :: segs => g ++ d :: join d segs end.
Definition segments (d : Z) (s : bytes) (segs : list bytes) : Prop := segs <> [] /\ s = join d segs /\ Forall (fun g => ~ In d g) segs.
Definition nonempty (g : bytes) : bool := match g with [] => false | _ => true end.

(** The last entry with a name, in the order of the central directory. *)
Definition isLast (es : list entry) (name : bytes) (r : option entry) : Prop :=
  match r with
  | Some e => exists l1 l2, es = l1 ++ e :: l2 /\ fileName e = name /\ Forall (fun e' => fileName e' <> name) l2
  | None => Forall (fun e' => fileName e' <> name) es
  end.
Definition isByte (c : Z) : Prop := 0 <= c < 256.
Definition ascii (s : bytes) : Prop := Forall (fun c => 0 < c < 128) s.

(** An archive: anything, then the central directory, then the end record, then a comment. *)
Definition le2 (n : Z) : bytes := [n mod 256; n / 256].
Definition le4 (n : Z) : bytes := le2 (n mod 65536) ++ le2 (n / 65536).
(** A central header for an entry; [x1], [x2] : the fields not used here; extra field and comment of any content. *)
Definition header (e : entry) (x1 x2 extra comment : bytes) : bytes :=
  le4 EntrySignature ++ x1 ++ le2 (Z.of_nat (length (fileName e))) ++ le2 (Z.of_nat (length extra)) ++ le2 (Z.of_nat (length comment)) ++ x2 ++ le4 (rest e)
  ++ fileName e ++ extra ++ comment.
Inductive Headers : bytes -> list entry -> Prop :=
| h_nil : Headers [] []
| h_cons : forall e x1 x2 extra comment b es, length x1 = 24%nat -> length x2 = 8%nat ->
    Z.of_nat (length (fileName e)) < 65536 -> Z.of_nat (length extra) < 65536 -> Z.of_nat (length comment) < 65536 -> 0 <= rest e < 2 ^ 32 ->
    Headers b es -> Headers (header e x1 x2 extra comment ++ b) (e :: es).
Definition endRecord (x : bytes) (off : Z) (y : bytes) : bytes := le4 CentralDirectorySignature ++ x ++ le4 off ++ y.
(** The comment is not mistaken for an end record: no position after the end record and 22 bytes before the end has its signature. *)
Definition archive (a : bytes) (es : list entry) : Prop := exists pre dir x y comment, a = pre ++ dir ++ endRecord x (Z.of_nat (length pre)) y ++ comment /\
  Headers dir es /\ length x = 12%nat /\ length y = 2%nat /\ Z.of_nat (length pre) < 2 ^ 32 /\
  forall p, Z.of_nat (length pre + length dir) < p <= Z.of_nat (length a) - 22 -> get4 a p <> Some CentralDirectorySignature.

(** Jars that name only jars of lower rank: no cycle in their manifests. *)
Definition acyclic (fs : bytes -> file) (rank : bytes -> nat) : Prop :=
  forall t cp u, fs t = Jar cp -> In u cp -> (rank u < rank t)%nat.
(** The elements a token stands for, depth first. *)
Inductive Expands (fs : bytes -> file) : list bytes -> list element -> Prop :=
| ex_nil : Expands fs [] []
| ex_builtin : forall t ts l, isBuiltin t = true -> Expands fs ts l -> Expands fs (t :: ts) (EBuiltin (removelast (tl t)) :: l)
| ex_missing : forall t ts l, isBuiltin t = false -> fs t = Missing -> Expands fs ts l -> Expands fs (t :: ts) l
| ex_dir : forall t ts l, isBuiltin t = false -> fs t = Directory -> Expands fs ts l -> Expands fs (t :: ts) (EDir t :: l)
| ex_jar : forall t cp ts l1 l2, isBuiltin t = false -> fs t = Jar cp -> Expands fs cp l1 -> Expands fs ts l2 -> Expands fs (t :: ts) (EJar t :: l1 ++ l2).

(** Manifest text: lines, each ended by a newline. *)
Definition isLine (l : bytes) : Prop := l <> [] /\ Forall (fun c => isEol c = false) l.
Definition text (ls : list bytes) : bytes := flat_map (fun l => l ++ [10]) ls.
Definition classPathOf (l : bytes) : list bytes := if (12 <? Z.of_nat (length l)) && beq (firstn 12 l) prefix then [skipn 12 l] else [].
