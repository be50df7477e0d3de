(** Java monitors: src/avian/machine.h:2776-3070 (monitorAtomicAppendAcquire, monitorAtomicPollAcquire,
    monitorTryAcquire, monitorAcquire, monitorRelease, monitorAppendWait, monitorRemoveWait,
    monitorFindWait, monitorWait, monitorPollWait, monitorNotify, monitorNotifyAll), as a transition
    system for one monitor and any number of threads.

    Simplifications: memory is sequentially consistent (the code has barriers between the accesses);
    every access to the acquire queue and to [owner] is a step of its own, accesses to fields that only
    the owner uses (depth, the wait list) are grouped; Thread::lock is a native monitor (C27): held
    by its own thread over long stretches ([ownLock]) and by others only to notify, which is one step;
    its wait may return at any time (timeout, spurious); nodes are never reused (the collector keeps
    every node that is still referenced, so there is no ABA problem), allocation does not fail;
    acquireSystem returns true, because the caller is not joined. A failed expect, the call of
    abort at 2963 and a null dereference are the place [Bad]; monitorRelease, monitorWait and
    monitorNotify by a thread that is not the owner have no step (expect at 2898, 2982, 3046). *)
From Coq Require Import List Bool Arith.
From Verif Require Import Chain.
Import ListNotations.

(** why the monitor is acquired: monitorAcquire from outside, or the end of monitorWait (3009) with
    the depth to restore and whether the wait was interrupted *)
Inductive akind := AEnter | AWait (d : nat) (i : bool).
(** why it is released: from outside, or by monitorWait (3002) *)
Inductive rkind := RExit | RWait (d : nat).
(** who polls the queue: monitorTryAcquire 2850, the loop of monitorAcquire 2878, its end 2888
    (remove = true), monitorRelease 2905 *)
Inductive pk := KTry (a : akind) | KLoop (a : akind) | KRem (a : akind) | KRel (r : rkind).

Inductive pc :=
| Out
| AQ (a : akind)                                  (* 2849: owner == t *)
| P0 (k : pk)                                     (* 2816: read acquireHead *)
| P1 (k : pk) (h : nat)                           (* 2820: read acquireTail *)
| P2 (k : pk) (h tl : nat)                        (* 2824: read head->next *)
| P3 (k : pk) (h tl : nat) (n : option nat)       (* 2828: head == acquireHead *)
| P4 (k : pk) (h tl n : nat)                      (* 2831: help the tail *)
| P5 (k : pk) (h n : nat)                         (* 2838: CAS the head *)
| T1 (a : akind)                                  (* 2851: CAS the owner *)
| T9 (a : akind)                                  (* 2855: ++depth *)
| L0 (a : akind)                                  (* 2870: lock t->lock; make the node *)
| Q0 (a : akind) (nd : nat)                       (* 2791: read acquireTail *)
| Q1 (a : akind) (nd tl : nat)                    (* 2795: read tail->next *)
| Q2 (a : akind) (nd tl : nat) (n : option nat)   (* 2799: tail == acquireTail *)
| QH (a : akind) (nd tl n : nat)                  (* 2801: help the tail *)
| Q3 (a : akind) (nd tl : nat)                    (* 2802: CAS tail->next *)
| Q4 (a : akind) (nd tl : nat)                    (* 2804: CAS the tail *)
| L1 (a : akind)                                  (* 2879: CAS the owner *)
| S0 (a : akind)                                  (* 2885: about to sleep *)
| SL (a : akind) (sig : bool)                     (* asleep in 2885; sig: was notified *)
| L9 (a : akind)                                  (* 2890: ++depth *)
| WA (d : nat) (i : bool)                         (* 3011: depth = saved *)
| WB (i : bool)                                   (* 3013: WaitingFlag *)
| RW (i : bool) (previous current : option nat)   (* 3014: monitorRemoveWait, loop test 2940 *)
| FW (i : bool) (current : option nat)            (* 3016: monitorFindWait, loop test 2970 *)
| R1 (r : rkind)                                  (* 2901: owner = 0 *)
| N1 (r : rkind) (u : nat)                        (* 2907-2912: notify u->lock *)
| W1 | W2 | W3                                    (* 2995 lock, 2997 append, 2999 depth *)
| W4 (d : nat)                                    (* 3002: monitorRelease, --depth 2900 *)
| WS (d : nat)                                    (* 3006: about to sleep *)
| WL (d : nat) (sig : bool)                       (* asleep in 3006 *)
| WK (d : nat)                                    (* awake *)
| N2 (all : bool) (u : nat)                       (* 3051-3053: notify u->lock *)
| NL                                              (* 3065: loop of monitorNotifyAll *)
| Bad.

Record glob := G {
  at_ : nat -> pc;
  owner : option nat;
  depth : nat;
  ahead : nat; atail : nat;         (* acquireHead, acquireTail: nodes *)
  nxt : nat -> option nat;          (* MonitorNode::next *)
  val : nat -> nat;                 (* MonitorNode::value *)
  fresh : nat;                      (* the next node to be allocated *)
  whead : option nat; wtail : option nat;
  wnext : nat -> option nat;        (* Thread::waitNext *)
  wflag : nat -> bool;              (* Thread::WaitingFlag *)
  intr : nat -> bool;
  (* for the specification only: *)
  held : nat -> nat;                (* acquisitions minus releases *)
  ret : nat -> option bool;         (* what the last wait returned: interrupted *)
  aq : list nat;                    (* nodes queued after acquireHead *)
  old : list nat;                   (* nodes that were acquireHead before *)
  wq : list nat                     (* the wait set, oldest first *)
}.

Definition go g t p := G (upd (at_ g) t p) (owner g) (depth g) (ahead g) (atail g) (nxt g) (val g) (fresh g) (whead g) (wtail g) (wnext g) (wflag g) (intr g) (held g) (ret g) (aq g) (old g) (wq g).
Definition setOwner g o := G (at_ g) o (depth g) (ahead g) (atail g) (nxt g) (val g) (fresh g) (whead g) (wtail g) (wnext g) (wflag g) (intr g) (held g) (ret g) (aq g) (old g) (wq g).
Definition setDepth g d := G (at_ g) (owner g) d (ahead g) (atail g) (nxt g) (val g) (fresh g) (whead g) (wtail g) (wnext g) (wflag g) (intr g) (held g) (ret g) (aq g) (old g) (wq g).
Definition setHead g h l o := G (at_ g) (owner g) (depth g) h (atail g) (nxt g) (val g) (fresh g) (whead g) (wtail g) (wnext g) (wflag g) (intr g) (held g) (ret g) l o (wq g).
Definition setTail g x := G (at_ g) (owner g) (depth g) (ahead g) x (nxt g) (val g) (fresh g) (whead g) (wtail g) (wnext g) (wflag g) (intr g) (held g) (ret g) (aq g) (old g) (wq g).
Definition setNxt g f l := G (at_ g) (owner g) (depth g) (ahead g) (atail g) f (val g) (fresh g) (whead g) (wtail g) (wnext g) (wflag g) (intr g) (held g) (ret g) l (old g) (wq g).
Definition newNode g t := G (at_ g) (owner g) (depth g) (ahead g) (atail g) (upd (nxt g) (fresh g) None) (upd (val g) (fresh g) t) (S (fresh g)) (whead g) (wtail g) (wnext g) (wflag g) (intr g) (held g) (ret g) (aq g) (old g) (wq g).
Definition setWait g a b f l := G (at_ g) (owner g) (depth g) (ahead g) (atail g) (nxt g) (val g) (fresh g) a b f (wflag g) (intr g) (held g) (ret g) (aq g) (old g) l.
Definition setFlag g t b := G (at_ g) (owner g) (depth g) (ahead g) (atail g) (nxt g) (val g) (fresh g) (whead g) (wtail g) (wnext g) (upd (wflag g) t b) (intr g) (held g) (ret g) (aq g) (old g) (wq g).
Definition setIntr g t b := G (at_ g) (owner g) (depth g) (ahead g) (atail g) (nxt g) (val g) (fresh g) (whead g) (wtail g) (wnext g) (wflag g) (upd (intr g) t b) (held g) (ret g) (aq g) (old g) (wq g).
Definition setHeld g t n := G (at_ g) (owner g) (depth g) (ahead g) (atail g) (nxt g) (val g) (fresh g) (whead g) (wtail g) (wnext g) (wflag g) (intr g) (upd (held g) t n) (ret g) (aq g) (old g) (wq g).
Definition setRet g t r := G (at_ g) (owner g) (depth g) (ahead g) (atail g) (nxt g) (val g) (fresh g) (whead g) (wtail g) (wnext g) (wflag g) (intr g) (held g) (upd (ret g) t (Some r)) (aq g) (old g) (wq g).

(** notify on u->lock (2910, 3053): u may sleep in monitorAcquire or in monitorWait *)
Definition wakeUp (p : pc) : pc := match p with SL a _ => SL a true | WL d _ => WL d true | p => p end.
Definition signal g u := go g u (wakeUp (at_ g u)).

(** t->lock is held by t itself: 2870-2891 and 2995-3007 *)
Definition kLock (k : pk) : bool := match k with KLoop _ | KRem _ | KRel (RWait _) => true | _ => false end.
Definition ownLock (p : pc) : bool :=
  match p with
  | P0 k | P1 k _ | P2 k _ _ | P3 k _ _ _ | P4 k _ _ _ | P5 k _ _ => kLock k
  | Q0 _ _ | Q1 _ _ _ | Q2 _ _ _ _ | QH _ _ _ _ | Q3 _ _ _ | Q4 _ _ _ | L1 _ | S0 _ | L9 _ => true
  | R1 (RWait _) | N1 (RWait _) _ | W2 | W3 | W4 _ | WS _ => true
  | _ => false
  end.

(** where a finished release continues: return, or sleep in monitorWait *)
Definition finR (r : rkind) : pc := match r with RExit => Out | RWait d => WS d end.
(** what each caller does with the polled thread, without removal: 2850, 2878, 2905-2907 *)
Definition polled (t : nat) (k : pk) (v : option nat) : pc :=
  match k with
  | KTry a => match v with None => T1 a | Some _ => L0 a end
  | KLoop a => if eqo v (Some t) then L1 a else S0 a
  | KRem a => if eqo v (Some t) then L9 a else Bad
  | KRel r => match v with None => finR r | Some u => N1 r u end
  end.
Definition removes (k : pk) : bool := match k with KRem _ => true | _ => false end.
(** after ++depth: monitorAcquire returns, to the caller or into monitorWait *)
Definition acquired g t (a : akind) : glob :=
  match a with
  | AEnter => setHeld (setDepth (go g t Out) (S (depth g))) t (S (held g t))
  | AWait d i => setDepth (go g t (WA d i)) (S (depth g))
  end.
(** 2921-2932 *)
Definition appendWait g t :=
  setFlag (setWait g (match wtail g with Some _ => whead g | None => Some t end) (Some t)
    (match wtail g with Some l => upd (wnext g) l (Some t) | None => wnext g end) (wq g ++ [t])) t true.
(** 2943-2957, when current = t *)
Definition unlinkWait g t (previous : option nat) :=
  let n := wnext g t in
  setFlag (setWait g (if eqo (whead g) (Some t) then n else whead g)
    (if eqo (wtail g) (Some t) then previous else wtail g)
    (upd (if eqo (whead g) (Some t) then wnext g
          else match previous with Some p => upd (wnext g) p n | None => wnext g end) t None)
    (remove Nat.eq_dec t (wq g))) t false.
(** 3028-3041, when waitHead = u *)
Definition pollWait g u :=
  setFlag (setWait g (wnext g u) (if eqo (wtail g) (Some u) then None else wtail g) (upd (wnext g) u None) (tl (wq g))) u false.

Inductive step (g : glob) (t : nat) : glob -> Prop :=
(* monitorAcquire; monitorTryAcquire alone is the same up to L0, where it returns false *)
| s_enter : at_ g t = Out -> step g t (go g t (AQ AEnter))
| s_AQ : forall a, at_ g t = AQ a -> owner g <> Some t -> step g t (go g t (P0 (KTry a)))
| s_AQo : forall a, at_ g t = AQ a -> owner g = Some t -> step g t (go g t (T9 a))
| s_T1 : forall a, at_ g t = T1 a -> owner g = None -> step g t (setOwner (go g t (T9 a)) (Some t))
| s_T1f : forall a, at_ g t = T1 a -> owner g <> None -> step g t (go g t (L0 a))
| s_T9 : forall a, at_ g t = T9 a -> step g t (acquired g t a)
| s_L0try : at_ g t = L0 AEnter -> step g t (go g t Out)
| s_L0 : forall a, at_ g t = L0 a -> step g t (newNode (go g t (Q0 a (fresh g))) t)
(* monitorAtomicAppendAcquire *)
| s_Q0 : forall a nd, at_ g t = Q0 a nd -> step g t (go g t (Q1 a nd (atail g)))
| s_Q1 : forall a nd x, at_ g t = Q1 a nd x -> step g t (go g t (Q2 a nd x (nxt g x)))
| s_Q2 : forall a nd x n, at_ g t = Q2 a nd x n -> atail g <> x -> step g t (go g t (Q0 a nd))
| s_Q2h : forall a nd x n, at_ g t = Q2 a nd x (Some n) -> atail g = x -> step g t (go g t (QH a nd x n))
| s_Q2n : forall a nd x, at_ g t = Q2 a nd x None -> atail g = x -> step g t (go g t (Q3 a nd x))
| s_QH : forall a nd x n, at_ g t = QH a nd x n -> atail g = x -> step g t (setTail (go g t (Q0 a nd)) n)
| s_QHf : forall a nd x n, at_ g t = QH a nd x n -> atail g <> x -> step g t (go g t (Q0 a nd))
| s_Q3 : forall a nd x, at_ g t = Q3 a nd x -> nxt g x = None -> step g t (setNxt (go g t (Q4 a nd x)) (upd (nxt g) x (Some nd)) (aq g ++ [nd]))
| s_Q3f : forall a nd x, at_ g t = Q3 a nd x -> nxt g x <> None -> step g t (go g t (Q0 a nd))
| s_Q4 : forall a nd x, at_ g t = Q4 a nd x -> atail g = x -> step g t (setTail (go g t (P0 (KLoop a))) nd)
| s_Q4f : forall a nd x, at_ g t = Q4 a nd x -> atail g <> x -> step g t (go g t (P0 (KLoop a)))
(* monitorAtomicPollAcquire *)
| s_P0 : forall k, at_ g t = P0 k -> step g t (go g t (P1 k (ahead g)))
| s_P1 : forall k h, at_ g t = P1 k h -> step g t (go g t (P2 k h (atail g)))
| s_P2 : forall k h x, at_ g t = P2 k h x -> step g t (go g t (P3 k h x (nxt g h)))
| s_P3 : forall k h x n, at_ g t = P3 k h x n -> ahead g <> h -> step g t (go g t (P0 k))
| s_P3h : forall k h n, at_ g t = P3 k h h (Some n) -> ahead g = h -> step g t (go g t (P4 k h h n))
| s_P3e : forall k h, at_ g t = P3 k h h None -> ahead g = h -> step g t (go g t (polled t k None))
| s_P3bad : forall k h x, at_ g t = P3 k h x None -> ahead g = h -> h <> x -> step g t (go g t Bad)
| s_P3v : forall k h x n, at_ g t = P3 k h x (Some n) -> ahead g = h -> h <> x -> removes k = false ->
    step g t (go g t (polled t k (Some (val g n))))
| s_P3r : forall k h x n, at_ g t = P3 k h x (Some n) -> ahead g = h -> h <> x -> removes k = true -> step g t (go g t (P5 k h n))
| s_P4 : forall k h x n, at_ g t = P4 k h x n -> atail g = x -> step g t (setTail (go g t (P0 k)) n)
| s_P4f : forall k h x n, at_ g t = P4 k h x n -> atail g <> x -> step g t (go g t (P0 k))
| s_P5 : forall k h n, at_ g t = P5 k h n -> ahead g = h ->
    step g t (setHead (go g t (polled t k (Some (val g n)))) n (tl (aq g)) (old g ++ [h]))
| s_P5f : forall k h n, at_ g t = P5 k h n -> ahead g <> h -> step g t (go g t (P0 k))
(* monitorAcquire, the loop *)
| s_L1 : forall a, at_ g t = L1 a -> owner g = None -> step g t (setOwner (go g t (P0 (KRem a))) (Some t))
| s_L1f : forall a, at_ g t = L1 a -> owner g <> None -> step g t (go g t (S0 a))
| s_S0 : forall a, at_ g t = S0 a -> step g t (go g t (SL a false))
| s_SL : forall a b, at_ g t = SL a b -> step g t (go g t (P0 (KLoop a)))
| s_L9 : forall a, at_ g t = L9 a -> step g t (acquired g t a)
(* monitorRelease *)
| s_rel : at_ g t = Out -> owner g = Some t -> depth g <> 1 -> step g t (setHeld (setDepth g (pred (depth g))) t (pred (held g t)))
| s_rel' : at_ g t = Out -> owner g = Some t -> depth g = 1 -> step g t (setHeld (setDepth (go g t (R1 RExit)) 0) t (pred (held g t)))
| s_R1 : forall r, at_ g t = R1 r -> step g t (setOwner (go g t (P0 (KRel r))) None)
| s_N1 : forall r u, at_ g t = N1 r u -> (ownLock (at_ g u) = false \/ u = t) -> step g t (go (signal g u) t (finR r))
(* monitorWait *)
| s_wait : at_ g t = Out -> owner g = Some t -> step g t (go g t W1)
| s_W1 : at_ g t = W1 -> step g t (go g t W2)
| s_W2bad : at_ g t = W2 -> wflag g t = true \/ wnext g t <> None -> step g t (go g t Bad)
| s_W2 : at_ g t = W2 -> wflag g t = false -> wnext g t = None -> step g t (appendWait (go g t W3) t)
| s_W3 : at_ g t = W3 -> step g t (setDepth (go g t (W4 (depth g))) 1)
| s_W4 : forall d, at_ g t = W4 d -> step g t (setDepth (go g t (R1 (RWait d))) (pred (depth g)))
| s_WS : forall d, at_ g t = WS d -> intr g t = false -> step g t (go g t (WL d false))
| s_WSi : forall d, at_ g t = WS d -> intr g t = true -> step g t (go g t (WK d))
| s_WL : forall d b, at_ g t = WL d b -> step g t (go g t (WK d))
| s_WK : forall d, at_ g t = WK d -> step g t (setIntr (go g t (AQ (AWait d (intr g t)))) t false)
| s_WA : forall d i, at_ g t = WA d i -> step g t (setDepth (go g t (WB i)) d)
| s_WB : forall i, at_ g t = WB i -> wflag g t = true -> step g t (go g t (RW i None (whead g)))
| s_WBn : forall i, at_ g t = WB i -> wflag g t = false -> step g t (go g t (FW i (whead g)))
| s_RWbad : forall i p, at_ g t = RW i p None -> step g t (go g t Bad)
| s_RWnull : forall i, at_ g t = RW i None (Some t) -> whead g <> Some t -> step g t (go g t Bad)
| s_RWnext : forall i p c, at_ g t = RW i p (Some c) -> c <> t -> step g t (go g t (RW i (Some c) (wnext g c)))
| s_RW : forall i p, at_ g t = RW i p (Some t) -> whead g = Some t \/ p <> None -> step g t (setRet (unlinkWait (go g t Out) t p) t i)
| s_FWbad : forall i, at_ g t = FW i (Some t) -> step g t (go g t Bad)
| s_FWnext : forall i c, at_ g t = FW i (Some c) -> c <> t -> step g t (go g t (FW i (wnext g c)))
| s_FW : forall i, at_ g t = FW i None -> step g t (setRet (go g t Out) t i)
(* monitorNotify, monitorNotifyAll *)
| s_notify : forall u, at_ g t = Out -> owner g = Some t -> whead g = Some u -> step g t (pollWait (go g t (N2 false u)) u)
| s_notify0 : at_ g t = Out -> owner g = Some t -> whead g = None -> step g t g
| s_notifyAll : at_ g t = Out -> owner g = Some t -> step g t (go g t NL)
| s_NL : forall u, at_ g t = NL -> whead g = Some u -> step g t (pollWait (go g t (N2 true u)) u)
| s_NL0 : at_ g t = NL -> whead g = None -> step g t (go g t Out)
| s_N2 : forall b u, at_ g t = N2 b u -> (ownLock (at_ g u) = false \/ u = t) -> step g t (go (signal g u) t (if b then NL else Out))
(* Thread.interrupt and Thread.interrupted, at any time *)
| s_interrupt : forall u, at_ g t = Out -> step g t (signal (setIntr g u true) u)
| s_clear : at_ g t = Out -> step g t (setIntr g t false).

(** a new monitor (src/machine.cpp:5472): one dummy node, here 0 *)
Definition start : glob :=
  G (fun _ => Out) None 0 0 0 (fun _ => None) (fun _ => 0) 1 None None (fun _ => None) (fun _ => false) (fun _ => false)
    (fun _ => 0) (fun _ => None) [] [] [].
Inductive reachable : glob -> Prop :=
| r_start : reachable start
| r_step : forall g t g', reachable g -> step g t g' -> reachable g'.

(** ** The entry points that take an object: release (src/avian/machine.h:3105-3119), wait (3121-3155),
    notify (3157-3181), notifyAll (3183-3200). The argument is the owner of the object's monitor;
    None for an object whose monitor was never created (objectMonitor(t, o, false) returns null). *)
Inductive called := Proceeds | ThrowsIllegalMonitorState | Aborts | NullDereference.
Definition isOwner (t : nat) (owner : option nat) : bool := eqo owner (Some t).
Definition objRelease (t : nat) (m : option (option nat)) : called :=
  match m with
  | None => NullDereference                                       (* monitor->owner() at 2898 *)
  | Some o => if isOwner t o then Proceeds else Aborts            (* expect at 2898 *)
  end.
Definition objWait (t : nat) (m : option (option nat)) : called :=
  match m with
  | None => ThrowsIllegalMonitorState
  | Some o => if isOwner t o then Proceeds else ThrowsIllegalMonitorState
  end.
Definition objNotify (t : nat) (m : option (option nat)) : called :=
  match m with
  | None => ThrowsIllegalMonitorState
  | Some o => if isOwner t o then Proceeds else ThrowsIllegalMonitorState
  end.
Definition objNotifyAll (t : nat) (m : option (option nat)) : called :=
  match m with
  | None => ThrowsIllegalMonitorState
  | Some o => if isOwner t o then Proceeds else ThrowsIllegalMonitorState
  end.
