(* What a callback is for. Uses the types and the steps of the model. *)
From Verif Require Import Base InotifyModel InotifySpec CbModel.

(* The callbacks of a watch which have not been freed *)
Fixpoint users (l : list (option cb)) (w : nat) : Z :=
  match l with
  | [] => 0
  | Some x :: l => (if Nat.eqb (c_watch x) w then 1 else 0) + users l w
  | None :: l => users l w
  end.
Definition there (b : bstate) (c : nat) (x : cb) : Prop := nth_error (b_cbs b) c = Some (Some x).

(* The client frees only callbacks it has. It knows the watch of a callback only as an argument of a function which has been called:
   it drops only references which it has taken itself and does not know the identifier of the handler. *)
Definition careful (b : bstate) (x : baction) : Prop :=
  match x with
  | BDo a =>
      fair (b_base b) a /\
      match a with
      | ACall (CUnref w) | ACall (CDestroy w) => users (b_cbs b) w + 1 <= owned (s_trace (b_base b)) w
      | ACall (CDisconnect w id) => forall c x, there b c x -> id <> c_id x
      | _ => True
      end
  | BFree (Some c) => exists x, there b c x
  | _ => True
  end.
Fixpoint ball (P : bstate -> baction -> Prop) (b : bstate) (l : list baction) : Prop :=
  match l with [] => True | x :: l => P b x /\ match bstep b x with Ok b => ball P b l | Fail _ => True end end.

(* The client has no other watch for an object when it creates one *)
Definition bdistinct (b : bstate) (x : baction) : Prop :=
  match x with BDo a => distinct (b_base b) a | BNew n => distinct (b_base b) (ACall (CNew n)) | _ => True end.
(* The client uses callbacks only, except that it may connect and disconnect other handlers *)
Definition alone (x : baction) : Prop :=
  match x with
  | BDo (ACall (CNew _)) | BDo (ACall (CRef _)) | BDo (ACall (CUnref _)) | BDo (ACall (CDestroy _)) => False
  | _ => True
  end.
