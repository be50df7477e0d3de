(** Model of java.util.concurrent.ConcurrentHashMap (classpath/java/util/concurrent/ConcurrentHashMap.java): an
    immutable red-black tree of hash codes with lists of entries, replaced by compare-and-swap.  Keys and
    values are any types with equals; null keys and values are left out. *)
From Coq Require Import ZArith Bool List.
Import ListNotations.
From Verif Require Import JNum_Model PSet_Model.

Section CMap.
Context {K V : Type}.
Variable keq : K -> K -> bool.
Variable veq : V -> V -> bool.
Variable hash : K -> Z.

(** Node, 359-370, with its list of cells, 339-357 *)
Definition node : Type := Z * list (K * V).
Definition cmpNode (a b : node) : Z := wrap32 (fst a - fst b).
(** Content, 327-337 *)
Record content := { cset : pset node; csize : Z }.
Definition Empty : content := {| cset := empty; csize := 0 |}.

Inductive op := Get (k : K) | ContainsKey (k : K) | Size | Entries | Clear
  | Put (k : K) (v : V) | PutIfAbsent (k : K) (v : V) | Replace (k : K) (v : V) | ReplaceIf (k : K) (old v : V)
  | Remove (k : K) | RemoveIf (k : K) (v : V).
Inductive answer := Value (v : option V) | Yes (b : bool) | Number (n : Z) | All (l : list (K * V)) | Done | Fails.

(** The path of a hash code; the node looked for, if new, gets its cells later (198, 215). *)
Definition pathOf (c : content) (k : K) (cells : list (K * V)) : path node := find cmpNode (hash k, cells) (cset c).
Definition cellsOf (c : content) (k : K) : list (K * V) :=
  let p := pathOf c k [] in match pathValue p with Some n => snd n | None => [] end.
(** The cell of a key, 86-99. *)
Definition cellOf (c : content) (k : K) : option (K * V) := List.find (fun e => keq k (fst e)) (cellsOf c k).

(** The cells with the value of the first cell for the key replaced, 176-198; clones keep their next. *)
Fixpoint updated (k : K) (v : V) (l : list (K * V)) : list (K * V) :=
  match l with
  | [] => []
  | e :: l' => if keq k (fst e) then (fst e, v) :: l' else e :: updated k v l'
  end.
(** The cells without the first cell for the key, 250-271. *)
Fixpoint dropped (k : K) (l : list (K * V)) : list (K * V) :=
  match l with
  | [] => []
  | e :: l' => if keq k (fst e) then l' else e :: dropped k l'
  end.

Definition with_ (o : option (pset node)) (n : Z) : option content :=
  match o with Some s => Some {| cset := s; csize := n |} | None => None end.

(** What a call wants to do, given the content: nothing (the call returns), or to replace the content.  [Stuck]: an exception. *)
Inductive wish := Keep | Swap (c : content) | Stuck.
Definition swap (o : option content) : wish := match o with Some c => Swap c | None => Stuck end.

(** put, 160-224: the cell is the one found. *)
Definition putWish (c : content) (k : K) (v : V) (ifAbsent : bool) (ifPresent : V -> bool) : wish * option V :=
  match cellOf c k with
  | Some e =>
      if ifPresent (snd e) then
        let l := updated k v (cellsOf c k) in
        (swap (with_ (replaceWith cmpNode (pathOf c k l) (hash k, l)) (csize c)), Some (snd e))
      else (Keep, Some (snd e))
  | None =>
      if ifAbsent then
        let l := [(k, v)] in
        let p := pathOf c k l in
        (swap (with_ (if fresh p then addPath p else replaceWith cmpNode p (hash k, l)) (csize c + 1)), None)
      else (Keep, None)
  end.
(** remove, 232-286 *)
Definition removeWish (c : content) (k : K) (cond : V -> bool) : wish * option V :=
  match cellOf c k with
  | Some e =>
      if cond (snd e) then
        let l := dropped k (cellsOf c k) in
        let p := pathOf c k l in
        (swap (with_ (match l with [] => remove p | _ => replaceWith cmpNode p (hash k, l) end) (csize c - 1)), Some (snd e))
      else (Keep, Some (snd e))
  | None => (Keep, None)
  end.
Definition equals (o : option V) (v : V) : bool := match o with Some w => veq w v | None => false end.

(** The public calls, 60-129, 288-290 and an iteration over entrySet(), 292-294, 397-435, on the content read when it began. *)
Definition attempt (o : op) (c : content) : wish * answer :=
  match o with
  | Get k => (Keep, Value (option_map snd (cellOf c k)))
  | ContainsKey k => (Keep, Yes (match cellOf c k with Some _ => true | None => false end))
  | Size => (Keep, Number (csize c))
  | Entries => (Keep, All (flat_map snd (iterate (size (cset c)) successor (first (cset c)))))
  | Clear => (Swap Empty, Done)
  | Put k v => let '(w, r) := putWish c k v true (fun _ => true) in (w, Value r)
  | PutIfAbsent k v => let '(w, r) := putWish c k v true (fun _ => false) in (w, Value r)
  | Replace k v => let '(w, r) := putWish c k v false (fun _ => true) in (w, Value r)
  | ReplaceIf k old v => let '(w, r) := putWish c k v false (fun x => veq x old) in (w, Yes (equals r old))
  | Remove k => let '(w, r) := removeWish c k (fun _ => true) in (w, Value r)
  | RemoveIf k v => let '(w, r) := removeWish c k (fun x => veq x v) in (w, Yes (equals r v))
  end.

(** Calls of threads.  A content object has an identity; that of [Empty] is 0.  [Idle]: not yet called;
    [Trying]: about to read the field; [Swapping]: about to compare and swap, having read the content named;
    [seen] is a ghost: how many calls had acted when it was read. *)
Inductive place := Idle | Trying | Swapping (id seen : nat) (c' : content) (a : answer) | Returned (a : answer).
Record state := { current : nat * content; fresh_ : nat; calls : list (op * place); log : list (nat * op * answer) }.
Definition setPlace (l : list (op * place)) (i : nat) (p : place) : list (op * place) :=
  match nth_error l i with
  | Some (o, _) => firstn i l ++ (o, p) :: skipn (S i) l
  | None => l
  end.
(** The next step of call i; one access to the field each. *)
Definition step (i : nat) (s : state) : state :=
  let at_ p := {| current := current s; fresh_ := fresh_ s; calls := setPlace (calls s) i p; log := log s |} in
  match nth_error (calls s) i with
  | Some (o, Idle) => at_ Trying
  | Some (o, Trying) =>
      match o with
      | Clear => {| current := (0, Empty); fresh_ := fresh_ s; calls := setPlace (calls s) i (Returned Done); log := log s ++ [(i, o, Done)] |}
      | _ =>
          match attempt o (snd (current s)) with
          | (Keep, a) => {| current := current s; fresh_ := fresh_ s; calls := setPlace (calls s) i (Returned a); log := log s ++ [(i, o, a)] |}
          | (Swap c', a) => at_ (Swapping (fst (current s)) (length (log s)) c' a)
          | (Stuck, _) => {| current := current s; fresh_ := fresh_ s; calls := setPlace (calls s) i (Returned Fails); log := log s ++ [(i, o, Fails)] |}
          end
      end
  | Some (o, Swapping id _ c' a) =>
      if Nat.eqb id (fst (current s)) then
        {| current := (fresh_ s, c'); fresh_ := S (fresh_ s); calls := setPlace (calls s) i (Returned a); log := log s ++ [(i, o, a)] |}
      else at_ Trying
  | _ => s
  end.
Definition start (os : list op) : state := {| current := (0, Empty); fresh_ := 1; calls := map (fun o => (o, Idle)) os; log := [] |}.
Fixpoint run (is : list nat) (s : state) : state := match is with [] => s | i :: is' => run is' (step i s) end.

(** keySet().contains and keySet().remove, avian/Data.java 156-158, 164-166 upon MyEntryMap, 309-316, whose MyEntry reads the
    fields of the cell, 376-379.  None: NullPointerException. *)
Definition keySetContains (c : content) (k : K) : option bool := match cellOf c k with Some _ => Some true | None => None end.
Definition keySetRemove (c : content) (k : K) : option (wish * bool) :=
  match removeWish c k (fun _ => true) with
  | (w, Some _) => Some (w, true)
  | (_, None) => None
  end.
End CMap.
Arguments op : clear implicits.
Arguments answer : clear implicits.
Arguments node : clear implicits.
Arguments content : clear implicits.
Arguments state : clear implicits.
