(* What an idle queue is for, told in terms of the events alone. Uses only the types of the model. *)
From Verif Require Import Base IdleQueueModel.

(* The items waiting in the queue, in the order of addition *)
Fixpoint pending (tr : list event) : list entry :=
  match tr with
  | [] => []
  | EAdd e :: t => pending t ++ [e]
  | ETake i :: t | ECancel i :: t => filter (fun e => negb (Nat.eqb (e_id e) i)) (pending t)
  | _ :: t => pending t
  end.

(* The sources of the main loop *)
Fixpoint sources (tr : list event) : list nat :=
  match tr with
  | [] => []
  | ESource i :: t => sources t ++ [i]
  | EUnsource i :: t | EPassEnd i false :: t => filter (fun j => negb (Nat.eqb j i)) (sources t)
  | _ :: t => sources t
  end.

(* What is in progress, the innermost first: an idle pass and what was pending at its begin, gutil_idle_queue_cancel_all and
   what was pending at its begin, gutil_idle_queue_cancel_tag and whether it has found something *)
Inductive activity : Type :=
| OPass (sid : nat) (before : list entry)
| OAll (before : list entry)
| OTag (tag : Z) (found : bool).
Fixpoint active (tr : list event) : list activity :=
  match tr with
  | [] => []
  | EPass sid :: t => OPass sid (pending t) :: active t
  | EAll :: t => OAll (pending t) :: active t
  | ETag tag :: t => OTag tag false :: active t
  | ECancel _ :: t => match active t with OTag tag _ :: o => OTag tag true :: o | o => o end
  | EPassEnd _ _ :: t | EAllEnd :: t | ETagEnd _ _ :: t => tl (active t)
  | _ :: t => active t
  end.

(* The number of callbacks in progress *)
Fixpoint depth (tr : list event) : Z :=
  match tr with
  | [] => 0
  | ERun _ _ :: t | EDestroy _ _ :: t | ENullDestroy _ :: t => depth t + 1
  | EReturn :: t => depth t - 1
  | _ :: t => depth t
  end.

(* The references of the client *)
Fixpoint owned (tr : list event) : Z :=
  match tr with
  | [] => 1
  | ERef :: t => owned t + 1
  | EUnref :: t | EFree :: t => owned t - 1
  | _ :: t => owned t
  end.

Definition has_run (i : nat) (tr : list event) : Prop := exists d, In (ERun i d) tr.
Definition has_destroyed (i : nat) (tr : list event) : Prop := exists d, In (EDestroy i d) tr.
Definition was_added (e : entry) (tr : list event) : Prop := In (EAdd e) tr.

(* An item has been dealt with: run and then destroyed, or cancelled, i.e. destroyed and not run *)
Definition ran (e : entry) (tr : list event) : Prop :=
  In (ETake (e_id e)) tr /\ ~ In (ECancel (e_id e)) tr /\
  (if e_run e then In (ERun (e_id e) (e_data e)) tr else ~ has_run (e_id e) tr) /\
  (if e_destroy e then In (EDestroy (e_id e) (e_data e)) tr else ~ has_destroyed (e_id e) tr).
Definition cancelled (e : entry) (tr : list event) : Prop :=
  In (ECancel (e_id e)) tr /\ ~ In (ETake (e_id e)) tr /\ ~ has_run (e_id e) tr /\
  (if e_destroy e then In (EDestroy (e_id e) (e_data e)) tr else ~ has_destroyed (e_id e) tr).
Definition untouched (e : entry) (tr : list event) : Prop :=
  ~ In (ETake (e_id e)) tr /\ ~ In (ECancel (e_id e)) tr /\ ~ has_run (e_id e) tr /\ ~ has_destroyed (e_id e) tr.

(* The client is running: it has not called anything which has not returned, or it has been called back *)
Definition callable (s : state) : Prop := match s_stack s with FRunLoop _ _ :: _ | FAllLoop _ :: _ => False | _ => True end.

(* ---------------- clients ---------------- *)
(* A client uses the queue while it or a function it has called has a reference, and drops only its own references *)
Definition drops (a : action) : bool := match a with ACall CUnref | ACall CFree => true | _ => false end.
Definition fair (s : state) (a : action) : Prop :=
  match a with
  | ACall _ => (exists q, s_queue s = Some q /\ 0 < q_refs q) /\ (drops a = true -> 1 <= owned (s_trace s))
  | _ => True
  end.
(* More restrictive: it always has a reference of its own *)
Definition owner (s : state) (a : action) : Prop := match a with ACall _ => 1 <= owned (s_trace s) | _ => True end.
(* The last reference is not dropped while a callback is in progress *)
Definition calm (tr : list event) : Prop := forall post pre, tr = post ++ EZero :: pre -> depth pre = 0.

Definition calmly (s : state) (a : action) : Prop := match step s a with Ok s => calm (s_trace s) | Fail _ => True end.
(* A rule which is easy to follow: call the queue with a reference of your own, and in a callback do not give up the last one *)
Definition careful (s : state) (a : action) : Prop :=
  match a with
  | ACall _ => 1 <= owned (s_trace s) /\ (drops a = true -> 2 <= owned (s_trace s) \/ depth (s_trace s) = 0)
  | _ => True
  end.

(* All actions are allowed *)
Fixpoint all_along (P : state -> action -> Prop) (s : state) (l : list action) : Prop :=
  match l with
  | [] => True
  | a :: l => P s a /\ match step s a with Ok s => all_along P s l | Fail _ => True end
  end.

(* Actions which are not up to the client, given that its callbacks return at once *)
Definition passive (a : action) : bool := match a with AStep | AReturn => true | _ => false end.

(* What a pass over the given items does, the first event first *)
Definition pass_events (e : entry) : list event :=
  [ETake (e_id e)] ++ (if e_run e then [ERun (e_id e) (e_data e); EReturn] else []) ++
  (if e_destroy e then [EDestroy (e_id e) (e_data e); EReturn] else []).
