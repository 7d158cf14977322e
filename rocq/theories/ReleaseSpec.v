(* Specification of removing identifiers. Uses only the types and the steps of the model. *)
From Verif Require Import Base ReleaseModel.

(* P holds of each action when it is taken *)
Fixpoint along (P : state -> action -> Prop) (s : state) (l : list action) : Prop :=
  match l with [] => True | a :: l => P s a /\ match step s a with Ok s => along P s l | Fail _ => True end end.

(* The client is running *)
Definition running (s : state) : Prop := match s_stack s with FLoop _ _ :: _ => False | _ => True end.
(* The destroy notification of what was in cell j is running, or it has called functions which are running *)
Definition busy (s : state) (j : nat) : Prop := exists e, In (FNotify j e) (s_stack s).

(* The client passes only its array, overwrites only zeros, and frees the array only when no call is in progress *)
Definition careful (s : state) (a : action) : Prop :=
  running s ->
  match a with
  | ACall k m => exists c, s_cells s = Some c /\ (k + m <= length c)%nat
  | AStore k => exists c, s_cells s = Some c /\ nth_error c k = Some 0%nat
  | AFree => s_cells s <> None /\ s_stack s = []
  | _ => True
  end.
(* It does not ask for what is being removed already *)
Definition apart (s : state) (a : action) : Prop :=
  running s -> match a with ACall k m => forall j, busy s j -> ~ (k <= j < k + m)%nat | _ => True end.

Definition stored (tr : list event) (id : nat) : Prop := exists k, In (EStore k id) tr.
Fixpoint releases (id : nat) (tr : list event) : nat :=
  match tr with [] => 0 | ERelease x :: tr => (if Nat.eqb x id then 1 else 0) + releases id tr | _ :: tr => releases id tr end.

(* From s to s', in the last state of which the stack is again what it was in front of the call *)
Fixpoint until (n : nat) (s : state) (l : list action) (s' : state) : Prop :=
  match l with
  | [] => s = s' /\ length (s_stack s) = n
  | a :: l => (n < length (s_stack s))%nat /\ match step s a with Ok t => until n t l s' | Fail _ => False end
  end.
