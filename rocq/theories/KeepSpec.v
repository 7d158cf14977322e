(* What it means to give an object to a pool, told in terms of what happens to the objects. Uses the types of the model and its steps. *)
From Verif Require Import Base IdlePoolModel IdlePoolSpec KeepModel.

(* The references of the client to an object: one for the object created and those taken, without those dropped and those it has
   handed over to the pool *)
Fixpoint own (o : nat) (l : list kevent) : Z :=
  match l with
  | [] => 0
  | KNew i _ :: l | KTake i :: l => own o l + (if Nat.eqb i o then 1 else 0)
  | KDrop i :: l | KGive i false :: l => own o l - (if Nat.eqb i o then 1 else 0)
  | _ :: l => own o l
  end.
(* How often it has been given to the pool; how often the pool has released it *)
Fixpoint given (o : nat) (l : list kevent) : Z :=
  match l with
  | [] => 0
  | KGive i _ :: l => given o l + (if Nat.eqb i o then 1 else 0)
  | _ :: l => given o l
  end.
Fixpoint released (o : nat) (l : list kevent) : Z :=
  match l with
  | [] => 0
  | KRelease _ i :: l => released o l + (if Nat.eqb i o then 1 else 0)
  | _ :: l => released o l
  end.
Definition living (k : keep) (o : nat) : Prop := exists b, nth_error (k_objs k) o = Some (Some b).

(* The client uses an object only as long as it has a reference or the pool has one, drops and hands over only its own references, and
   does not confuse types. It uses the pool as in IdlePoolSpec. *)
Definition sensible (k : keep) (x : deed) : Prop :=
  match x with
  | DPool t a => careful (k_pool k) (t, a)
  | DNew _ => True
  | DTake y o => 1 <= own o (k_log k) + given o (k_log k) - released o (k_log k) /\ In (KNew o y) (k_log k)
  | DDrop y o => 1 <= own o (k_log k) /\ In (KNew o y) (k_log k)
  | DAdd t y p => match p with None => True | Some o => careful (k_pool k) (t, ACall (CAdd 0)) /\ 1 <= own o (k_log k) /\ In (KNew o y) (k_log k) end
  | DAddRef t y p =>
      match p with
      | None => True
      | Some o => careful (k_pool k) (t, ACall (CAdd 0)) /\ 1 <= own o (k_log k) + given o (k_log k) - released o (k_log k) /\ In (KNew o y) (k_log k)
      end
  end.
(* The main loop which calls the sources is that of the thread of the pool *)
Definition khome (k : keep) (x : deed) : Prop := match x with DPool t (ADispatch _) => t = 0%nat | _ => True end.
Fixpoint kall (P : keep -> deed -> Prop) (k : keep) (l : list deed) : Prop :=
  match l with [] => True | x :: l => P k x /\ match kstep k x with Ok k => kall P k l | Fail _ => True end end.
