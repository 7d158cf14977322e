(* What weak references are, in terms of what has happened. Uses the model for its types, and the step
   function where executions are quantified over. *)
From Verif Require Import Base WeakModel.

(* The references of clients to an object, and to a weak reference *)
Fixpoint strong (o : nat) (l : list event) : Z :=
  match l with
  | [] => 0
  | EObj p :: l | ERef p :: l | EGot _ (Some p) :: l => (if Nat.eqb p o then 1 else 0) + strong o l
  | EUnref p :: l => strong o l - (if Nat.eqb p o then 1 else 0)
  | _ :: l => strong o l
  end.
Fixpoint held (w : nat) (l : list event) : Z :=
  match l with
  | [] => 0
  | EWeak v _ :: l | EWRef v :: l => (if Nat.eqb v w then 1 else 0) + held w l
  | EWUnref v :: l => held w l - (if Nat.eqb v w then 1 else 0)
  | _ :: l => held w l
  end.

(* What a weak reference has been set to last, unless that has lost its last reference since *)
Fixpoint aim (w : nat) (l : list event) : option nat :=
  match l with
  | [] => None
  | EWeak v p :: l | ESet v p :: l => if Nat.eqb v w then p else aim w l
  | EDying o :: l => match aim w l with Some p => if Nat.eqb p o then None else Some p | None => None end
  | _ :: l => aim w l
  end.

(* Whether dispose of the object is running *)
Definition dying (o : nat) (s : state) : Prop := exists x, nth_error (s_objs s) o = Some x /\ g_life x = Disposing.
Definition settable (s : state) (p : option nat) : Prop := match p with Some o => strong o (s_trace s) > 0 /\ ~ dying o s | None => True end.
Definition has (s : state) (w : option nat) : Prop := match w with Some w => held w (s_trace s) > 0 | None => True end.

(* gutil_weakref_unref has decremented the count to zero, and goes on *)
Definition released (w : nat) (s : state) : Prop := exists x, nth_error (s_weak s) w = Some x /\ w_count x = 0 /\ w_live x = true.

(* Clients use references they have; dispose may use its object *)
Definition fair (s : state) (a : action) : Prop :=
  match a with
  | ANew => True
  | ARef o => strong o (s_trace s) > 0 \/ dying o s
  | AUnref o => strong o (s_trace s) > 0
  | ADisposed o => dying o s
  | AWeak p => settable s p
  | AWRef w | AWUnref w | AGet w => has s w
  | AWEnd w => released w s
  | ASet w p => has s w /\ settable s p
  end.

Fixpoint all_along (P : state -> action -> Prop) (s : state) (l : list action) : Prop :=
  match l with
  | [] => True
  | a :: l => P s a /\ match step s a with Ok s => all_along P s l | Fail _ => True end
  end.
