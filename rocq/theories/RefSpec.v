(* What reference counting is for. Uses the model for its types, and the step function where
   executions are quantified over. *)
From Verif Require Import Base RefModel.

Fixpoint times (o : nat) (l : list nat) : Z := match l with [] => 0 | x :: l => (if Nat.eqb x o then 1 else 0) + times o l end.
(* an unref which has begun has a reference until it decrements the count *)
Definition pending (o : nat) (i : code) : Z := match i with CDec p _ => if Nat.eqb p o then 1 else 0 | _ => 0 end.
Fixpoint total {A} (f : A -> Z) (l : list A) : Z := match l with [] => 0 | x :: l => f x + total f l end.
(* The references to o which are there: of threads, in calls of unref, of other objects *)
Definition refs (s : state) (o : nat) : Z :=
  total (fun x => times o (t_own x) + total (pending o) (t_code x)) (s_thr s) + total (fun x => times o (o_held x)) (s_objs s).

Definition owns (s : state) (t o : nat) : Prop := exists x, nth_error (s_thr s) t = Some x /\ In o (t_own x).
Definition container (c : class) : bool := match c with Ring | Pool | Queue => true | _ => false end.

(* Threads use only references they have *)
Definition disciplined (s : state) (a : action) : Prop :=
  match a with
  | ANew _ _ | AStep _ => True
  | ARef t o | AUnref t o | AUse t o | AGive t _ o => owns s t o
  | AFrom t o | AUnrefData t o => owns s t o /\ exists x, nth_error (s_objs s) o = Some x /\ o_class x = Ints
  | AHold t p o => owns s t p /\ owns s t o /\ exists x, nth_error (s_objs s) p = Some x /\ container (o_class x) = true
  end.
(* There are less than 2^31 references to an object at any time *)
Definition few (s : state) (a : action) : Prop :=
  match a with
  | AStep t => match nth_error (s_thr s) t with Some (Thread _ (CInc o :: _)) => refs s o + 1 < 2^31 | _ => True end
  | _ => True
  end.
(* gutil_ints_unref_to_data is not called with the only reference of the thread *)
Definition spare (s : state) (a : action) : Prop :=
  match a with
  | AUnrefData t o => exists x, nth_error (s_thr s) t = Some x /\ 2 <= times o (t_own x)
  | _ => True
  end.
Definition fair (s : state) (a : action) : Prop := disciplined s a /\ few s a /\ spare s a.

Fixpoint all_along (P : state -> action -> Prop) (s : state) (l : list action) : Prop :=
  match l with
  | [] => True
  | a :: l => P s a /\ match step s a with Ok s => all_along P s l | Fail _ => True end
  end.

Definition idle (s : state) : Prop := forall x, In x (s_thr s) -> t_code x = [].
Definition busy (s : state) (t : nat) : Prop := exists own i k, nth_error (s_thr s) t = Some (Thread own (i :: k)).
