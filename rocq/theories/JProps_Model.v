(** java.util.Properties, store and load: classpath/java/util/Properties.java:19-40, 65-190. Text is a
    list of characters; simplified: the encoding between characters and bytes is left out (the
    same for ASCII), and the entries are in the order the table gives them. *)
From Coq Require Import NArith List Bool.
Import ListNotations.
Local Open Scope N_scope.

Definition entry : Type := list N * list N.
(** Properties.java:31-36; PrintStream.java:102-115 with "\n" as the line separator *)
Definition storeEntry (e : entry) : list N := fst e ++ [61] ++ snd e ++ [10].
(** Properties.java:28-38 *)
Definition store (comment : list N) (m : list entry) : list N := [35; 32] ++ comment ++ [10] ++ flat_map storeEntry m.

(** Properties.java:66-68: [current] is null, the key or the value *)
Inductive place := Nowhere | AtKey | AtValue.
Record parser := { key : option (list N); value : option (list N); current : place }.
(** Properties.java:66-68, 88 *)
Definition fresh : parser := {| key := None; value := None; current := Nowhere |}.
(** Properties.java:79, on a builder or null *)
Definition plus (s : option (list N)) (c : N) : option (list N) := Some (match s with Some l => l | None => [] end ++ [c]).
(** Properties.java:70-80 *)
Definition append (p : parser) (c : N) : parser :=
  match current p, key p with
  | AtKey, _ => {| key := plus (key p) c; value := value p; current := AtKey |}
  | AtValue, _ => {| key := key p; value := plus (value p) c; current := AtValue |}
  | Nowhere, None => {| key := Some [c]; value := value p; current := AtKey |}
  | Nowhere, Some _ => {| key := key p; value := Some [c]; current := AtValue |}
  end.
(** Character.java:157-159 *)
Definition isWhitespace (c : N) : bool := (c =? 32) || (c =? 9) || (c =? 10) || (c =? 13).
(** String.java:232-239 *)
Fixpoint trimLeft (l : list N) : list N := match l with [] => [] | c :: r => if isWhitespace c then trimLeft r else l end.
(** String.java:231-256 *)
Definition trim (l : list N) : list N := rev (trimLeft (rev (trimLeft l))).
(** Properties.java:82-86: what is put *)
Definition finishLine (p : parser) : list entry :=
  match key p with
  | Some k => [(k, match value p with Some v => trim v | None => [] end)]
  | None => []
  end.
(** Character.java:93-110 with radix 16 *)
Definition digit (c : N) : option N :=
  if (48 <=? c) && (c <=? 57) then Some (c - 48)
  else if (97 <=? c) && (c <=? 102) then Some (c - 87)
  else if (65 <=? c) && (c <=? 70) then Some (c - 55)
  else None.
(** Properties.java:93-102; [None] is IOException *)
Definition utf16 (a b c d : N) : option N :=
  match digit a, digit b, digit c, digit d with
  | Some a, Some b, Some c, Some d => Some (((a * 16 + b) * 16 + c) * 16 + d)
  | _, _, _, _ => None
  end.
(** Properties.java:131, 141 *)
Definition inValue (p : parser) : bool := match current p with AtValue => true | _ => false end.
(** Properties.java:133-135: key == current, also when both are null *)
Definition endKey (p : parser) : parser :=
  match current p with AtKey => {| key := key p; value := value p; current := Nowhere |} | _ => p end.
(** Properties.java:144-147 *)
Definition separate (p : parser) : parser :=
  {| key := Some (match key p with Some k => k | None => [] end); value := value p; current := Nowhere |}.
(** Properties.java:104-189. [comment] is the loop of line 123. The result is what is put, in
    order; [None] is IOException. *)
Fixpoint parse (l : list N) (comment escaped : bool) (p : parser) : option (list entry) :=
  match l with
  | [] => Some (finishLine p)
  | c :: r =>
      if comment then parse r (negb (c =? 10)) false p
      else if c =? 92 then
        if escaped then parse r false false (append p c) else parse r false true p
      else if (c =? 35) || (c =? 33) then
        match key p with None => parse r true false p | Some _ => parse r false false (append p c) end
      else if (c =? 32) || (c =? 13) || (c =? 9) then
        parse r false false (if escaped || inValue p then append p c else endKey p)
      else if (c =? 58) || (c =? 61) then
        parse r false false (if escaped || inValue p then append p c else separate p)
      else if c =? 10 then
        if escaped then parse r false false (append p c) else option_map (app (finishLine p)) (parse r false false fresh)
      else if c =? 110 then parse r false false (append p (if escaped then 10 else c))
      else if (c =? 117) && escaped then
        match r with
        | w :: x :: y :: z :: r' => match utf16 w x y z with Some u => parse r' false false (append p u) | None => None end
        | _ => None
        end
      else parse r false false (append p c)
  end.
(** Properties.java:20-26: what load puts into the table, in order *)
Definition load (l : list N) : option (list entry) := parse l false false fresh.
