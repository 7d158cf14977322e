(* Specification of object arrays with finalizers. Uses only the types and the steps of the model. *)
From Verif Require Import Base FinalModel.

Fixpoint along (P : state -> action -> Prop) (s : state) (l : list action) : Prop :=
  match l with [] => True | a :: l => P s a /\ match step s a with Ok s => along P s l | Fail _ => True end end.

Definition running (s : state) : Prop := match s_stack s with FRun _ :: _ => False | _ => True end.
Definition var_of (k : cont) : option nat :=
  match k with KDone => None | KMove v _ _ _ _ _ _ _ => Some v | KFind v _ _ _ _ _ => Some v | KFree v _ _ => Some v end.
Definition cont_of (f : frame) : cont := match f with FRun k => k | FNotify k => k end.
(* A function which changes the array in variable v has not returned *)
Definition busy (s : state) (v : nat) : Prop := exists f, In f (s_stack s) /\ var_of (cont_of f) = Some v.

(* What calls do to lists *)
Fixpoint remove_first (x : nat) (c : list nat) : list nat := match c with [] => [] | y :: t => if Nat.eqb y x then t else y :: remove_first x t end.
Definition changed (c : list nat) (p : change) : list nat :=
  match p with
  | PAdd x => c ++ [x]
  | PRemove x true => filter (fun y => negb (Nat.eqb y x)) c
  | PRemove x false => remove_first x c
  | PRemoveAt p => firstn p c ++ skipn (S p) c
  | PFree => []
  end.
Fixpoint value (tr : list event) (v : nat) : list nat :=
  match tr with
  | [] => []
  | ECall w p :: tr => if Nat.eqb w v then changed (value tr v) p else value tr v
  | ECopy u w :: tr => if Nat.eqb w v then value tr u else value tr v
  | EFinal _ :: tr => value tr v
  end.

Definition owns (s : state) (x : nat) : Prop := (0 < nth x (s_own s) 0)%nat.
Definition variable (s : state) (v : nat) : Prop := (v < length (s_vars s))%nat.
(* What the client may do in any case: it gives away and adds what it has, copies to unused variables, uses what should be in an array *)
Definition careful (s : state) (a : action) : Prop :=
  running s ->
  match a with
  | ARef x | AUnref x => owns s x
  | AAdd v x _ => owns s x /\ variable s v
  | ARemove v _ _ | ARemoveAt v _ | AFree v => variable s v
  | ACopy v w => variable s v /\ nth_error (s_vars s) w = Some None
  | AUse v i => variable s v /\ (i < length (value (s_trace s) v))%nat
  | _ => True
  end.
(* It leaves arrays alone which are being changed *)
Definition apart (s : state) (a : action) : Prop :=
  running s ->
  match a with
  | AAdd v _ _ | ARemove v _ _ | ARemoveAt v _ | AFree v | AUse v _ => ~ busy s v
  | ACopy v w => ~ busy s v /\ ~ busy s w
  | _ => True
  end.

Fixpoint occ (x : nat) (c : list nat) : nat := match c with [] => 0 | y :: t => (if Nat.eqb y x then 1 else 0) + occ x t end.
Fixpoint finals (x : nat) (tr : list event) : nat :=
  match tr with [] => 0 | EFinal y :: tr => (if Nat.eqb y x then 1 else 0) + finals x tr | _ :: tr => finals x tr end.
(* The references to x in the first n variables *)
Fixpoint held (tr : list event) (n : nat) (x : nat) : nat := match n with O => 0 | S n => held tr n x + occ x (value tr n) end.
(* What is in the variable *)
Definition contents (s : state) (v : nat) : option (list nat) :=
  match nth_error (s_vars s) v with
  | Some (Some a) => match nth_error (s_heap s) a with Some (Some c) => Some c | _ => None end
  | Some None => Some []
  | None => None
  end.
(* The client does nothing any more but let functions go on *)
Definition goes_on (m : list action) : Prop := forall a, In a m -> a = AReturn \/ a = AStep true.
