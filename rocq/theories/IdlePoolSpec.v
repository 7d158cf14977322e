(* What an idle pool is for, told in terms of the events alone. Uses only the types of the model. *)
From Verif Require Import Base IdlePoolModel.

(* The items waiting in the pool, in the order of addition *)
Fixpoint waiting (tr : list event) : list nat :=
  match tr with
  | [] => []
  | EAdd i _ _ :: tr => waiting tr ++ [i]
  | EBatch _ :: tr => []
  | _ :: tr => waiting tr
  end.

(* The items which a thread has taken out of the pool in order to destroy them, the last ones taken first *)
Fixpoint batches (t : nat) (tr : list event) : list (list nat) :=
  match tr with
  | [] => []
  | EBatch u :: tr => if Nat.eqb u t then waiting tr :: batches t tr else batches t tr
  | EDestroy u _ _ _ :: tr =>
      if Nat.eqb u t then match batches t tr with (_ :: b) :: o => b :: o | o => o end else batches t tr
  | EBatchEnd u :: tr => if Nat.eqb u t then tl (batches t tr) else batches t tr
  | _ :: tr => batches t tr
  end.

Definition destroyed (i : nat) (tr : list event) : Prop := exists t d k, In (EDestroy t i d k) tr.
Definition added (i : nat) (tr : list event) : Prop := exists d k, In (EAdd i d k) tr.
(* How often an item has been destroyed *)
Fixpoint destructions (i : nat) (tr : list event) : nat :=
  match tr with
  | [] => 0
  | EDestroy _ j _ _ :: tr => (if Nat.eqb i j then 1 else 0) + destructions i tr
  | _ :: tr => destructions i tr
  end.

(* One item is in the list in front of another one *)
Definition before (i j : nat) (l : list nat) : Prop := exists a b c, l = a ++ i :: b ++ j :: c.

(* The sources which some main loop is going to call *)
Fixpoint scheduled (tr : list event) : list nat :=
  match tr with
  | [] => []
  | ESource i :: tr => scheduled tr ++ [i]
  | EUnsource i :: tr | EIdle _ i :: tr => filter (fun j => negb (Nat.eqb j i)) (scheduled tr)
  | _ :: tr => scheduled tr
  end.

(* The references of the client *)
Fixpoint owned (tr : list event) : Z :=
  match tr with
  | [] => 0
  | ENew :: tr | ERef :: tr => owned tr + 1
  | EUnref :: tr | EKill :: tr => owned tr - 1
  | _ :: tr => owned tr
  end.
(* The calls of gutil_idle_pool_drain the client has made and which have not returned *)
Fixpoint draining (tr : list event) : Z :=
  match tr with
  | [] => 0
  | EDrain _ :: tr => draining tr + 1
  | EDrained _ WClient :: tr => draining tr - 1
  | _ :: tr => draining tr
  end.

(* No function of the pool is in progress *)
Definition calm (s : state) : Prop := Forall (fun k => k = []) (s_stacks s).
(* The thread of the pool is running the client or is waiting for an event *)
Definition callable (s : state) : Prop :=
  match nth_error (s_stacks s) 0 with Some [] | Some (FCb _ _ _ :: _) => True | _ => False end.

(* ---------------- clients ---------------- *)
(* The client uses the pool while it has a reference or while the shared variable points to it. It drops only its own references,
   and uses other threads only to take and to drop references. *)
Definition usable (s : state) : Prop := 1 <= owned (s_trace s) \/ s_var s = VThis.
Definition fair (s : state) (x : nat * action) : Prop :=
  match x with
  | (t, ACall (CAdd _)) | (t, ACall CDrain) => t = 0%nat /\ usable s
  | (t, ACall CRef) => usable s
  | (t, ACall CUnref) => 1 <= owned (s_trace s)
  | (t, ACall CDestroy) => t = 0%nat /\ 1 <= owned (s_trace s)
  | _ => True
  end.
(* And it has a reference of its own while it drains the pool *)
Definition careful (s : state) (x : nat * action) : Prop :=
  fair s x /\
  match x with
  | (_, ACall CDrain) => 1 <= owned (s_trace s)
  | (_, ACall CUnref) | (_, ACall CDestroy) => 2 <= owned (s_trace s) \/ draining (s_trace s) = 0
  | _ => True
  end.
(* The main loop which calls the sources is that of the thread of the pool *)
Definition home (s : state) (x : nat * action) : Prop := match x with (t, ADispatch _) => t = 0%nat | _ => True end.

(* All actions are allowed *)
Fixpoint all_along (P : state -> nat * action -> Prop) (s : state) (l : list (nat * action)) : Prop :=
  match l with
  | [] => True
  | a :: l => P s a /\ match step s a with Ok s => all_along P s l | Fail _ => True end
  end.

Definition starts (s : state) : Prop := exists n, s = start_new n \/ start_shared n = Ok s.

(* Callbacks return at once and nothing else happens on the thread of the pool *)
Definition passive (x : nat * action) : bool := match x with (O, AStep) | (O, AReturn) => true | _ => false end.
