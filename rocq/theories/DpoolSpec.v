(* What the default pools of threads are for, told in terms of the events. Uses the model for its types, the step and the start only. *)
From Verif Require Import Base DpoolModel.

(* The references of the client to a pool *)
Fixpoint owned (p : nat) (tr : list event) : Z :=
  match tr with
  | [] => 0
  | ERef x :: tr => (if Nat.eqb x p then 1 else 0) + owned p tr
  | EUnref x :: tr => owned p tr - (if Nat.eqb x p then 1 else 0)
  | _ :: tr => owned p tr
  end.

Definition added (i : nat) (tr : list event) : Prop := exists t p d, In (EAdd t p i d) tr.
Definition destroyed (i : nat) (tr : list event) : Prop := exists t p d, In (EDestroy t p i d) tr.
(* How often an item has been destroyed *)
Fixpoint destructions (i : nat) (tr : list event) : nat :=
  match tr with
  | [] => 0
  | EDestroy _ _ j _ :: tr => (if Nat.eqb j i then 1 else 0) + destructions i tr
  | _ :: tr => destructions i tr
  end.
(* The items of a pool which nobody has begun to destroy, in the order of addition *)
Fixpoint waiting (p : nat) (tr : list event) : list nat :=
  match tr with
  | [] => []
  | EAdd _ x i _ :: tr => if Nat.eqb x p then waiting p tr ++ [i] else waiting p tr
  | EBatch _ x :: tr => if Nat.eqb x p then [] else waiting p tr
  | _ :: tr => waiting p tr
  end.
(* The sources of a pool which a main loop is going to call *)
Definition is_pair (c id : nat) (y : nat * nat) : bool := Nat.eqb (fst y) c && Nat.eqb (snd y) id.
Fixpoint scheduled (p : nat) (tr : list event) : list (nat * nat) :=
  match tr with
  | [] => []
  | ESource c id (Some x) :: tr => if Nat.eqb x p then scheduled p tr ++ [(c, id)] else scheduled p tr
  | EUnsource _ _ id c _ :: tr | EIdle _ c id _ :: tr | EClosed c id _ :: tr => filter (fun y => negb (is_pair c id y)) (scheduled p tr)
  | _ :: tr => scheduled p tr
  end.

(* The client drops only references it has. POSIX guarantees four rounds of destructors. *)
Definition fair (s : state) (x : nat * action) : Prop :=
  match x with
  | (_, ACall (CUnref p)) => 1 <= owned p (s_trace s)
  | (_, AExit _ n) => (4 <= n)%nat
  | _ => True
  end.
(* No thread has a context of its own *)
Definition plain (s : state) (x : nat * action) : Prop := match x with (_, APush c) => c = 0%nat | _ => True end.
(* The default context is run by the first thread, others by the threads whose default context they are *)
Definition home (s : state) (x : nat * action) : Prop :=
  match x with
  | (t, ADispatch c _) => match c with O => t = 0%nat | S _ => exists th, nth_error (s_threads s) t = Some th /\ t_ctx th = c end
  | _ => True
  end.
(* A source of a pool is called on the thread of the pool; contexts are freed when they have no sources *)
Definition own (s : state) (x : nat * action) : Prop :=
  match x with
  | (t, ADispatch c id) => forall p, In (c, id) (scheduled p (s_trace s)) -> In (ENew t p) (s_trace s)
  | (_, AClose c) => forall p id, ~ In (c, id) (scheduled p (s_trace s))
  | _ => True
  end.

Fixpoint all_along (P : state -> nat * action -> Prop) (s : state) (l : list (nat * action)) : Prop :=
  match l with
  | [] => True
  | a :: l => P s a /\ match step s a with Ok s => all_along P s l | Fail _ => True end
  end.

(* A drain of a pool has removed a source of somebody else, or tried to remove one which does not exist *)
Definition stranger (e : event) : Prop := match e with EUnsource _ p _ _ o => o <> Some p | EBad _ _ _ => True | _ => False end.

(* No function of the library is in progress *)
Definition calm (s : state) : Prop := Forall (fun th => t_stack th = []) (s_threads s).
(* The thread exists and the client is running there *)
Definition callable (s : state) (t : nat) : Prop :=
  exists th, nth_error (s_threads s) t = Some th /\ match t_stack th with [] => t_life th = Alive | FCb _ _ _ :: _ => True | _ => False end.
(* The value of thread_pool in a thread is a pool *)
Definition kept (s : state) (p : nat) : Prop := exists th, In th (s_threads s) /\ t_slot th = Some p.
