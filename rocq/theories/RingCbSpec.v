(* What a free function may do to the ring while gutil_ring_drop, gutil_ring_drop_last or
   gutil_ring_set_max_size calls it for the elements being dropped (C21) *)
From Verif Require Import Base RingModel RingSpec.

(* What the free function does at one of its calls: a sequence of API calls, each of which may
   depend on what the previous ones returned *)
Inductive prog : Type :=
| Done
| Do (o : op) (k : out -> prog).

(* doing so to the ring (the calls made here release nothing) *)
Fixpoint perform (L : Z) (d : dialect) (p : prog) (r : ring) : res ring :=
  match p with
  | Done => Ok r
  | Do o k => do (x, r) <- step L d [] r o; perform L d (k x) r
  end.

(* the same, done to a sequence of elements *)
Inductive performs : deque -> prog -> deque -> Prop :=
| performs_done q : performs q Done q
| performs_do q o k x ev q1 q2 : call q o x ev q1 -> performs q1 (k x) q2 -> performs q (Do o k) q2.

(* the calls which remove nothing and leave the function itself alone *)
Definition calm (o : op) : Prop :=
  match o with
  | Put _ | PutFront _ | Compact | MaxSize | Size | Ref => True
  | Reserve n | DataAt n => in_s32 n
  | CanPut n => -2^31 <= n < 2^30
  | _ => False
  end.
Inductive calm_prog (ok : op -> Prop) : prog -> Prop :=
| calm_done : calm_prog ok Done
| calm_do o k : calm o -> ok o -> (forall x, calm_prog ok (k x)) -> calm_prog ok (Do o k).

Definition first_of (ps : list prog) : prog := match ps with [] => Done | p :: _ => p end.

(* Dropping n elements at the end, where the free function does ps at its successive calls:
   at each of them the element which is released has already left the ring.
   [fr] are the released elements in the order of the calls. *)
Inductive drops_last : nat -> deque -> list prog -> list Z -> deque -> Prop :=
| dl_done q ps : drops_last 0 q ps [] q
| dl_next n q l x ps q1 fr q2 :
    items q = l ++ [x] -> performs (with_items q l) (first_of ps) q1 ->
    drops_last n q1 (tl ps) fr q2 -> drops_last (S n) q ps (x :: fr) q2.

(* Dropping n elements at the front: during each call the released element is still in the ring *)
Inductive drops_first : nat -> deque -> list prog -> list Z -> deque -> Prop :=
| df_done q ps : drops_first 0 q ps [] q
| df_next n q x l ps q1 l1 fr q2 :
    items q = x :: l -> performs q (first_of ps) q1 -> items q1 = x :: l1 ->
    drops_first n (with_items q1 l1) (tl ps) fr q2 -> drops_first (S n) q ps (x :: fr) q2.

(* from now on, the ring behaves like q *)
Definition behaves (L : Z) (d : dialect) (r : ring) (q : deque) : Prop :=
  shows d r (items q) /\
  forall ops, Forall fair ops -> owned (refs q) ops -> tame false ops ->
    run L d r ops = Fail AllocAbort \/
    exists outs r' evs q', run L d r ops = Ok (outs, r') /\ calls q ops outs evs q' /\
      freed r' = freed r ++ frees evs.
