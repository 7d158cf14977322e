(* Specification of data blocks. Uses the model only for the types. *)
From Verif Require Import Base DataModel.

(* the structure describes readable memory with these bytes; an empty one may have a NULL pointer *)
Definition holds (x : gdata) (c : list Z) : Prop :=
  Forall is_byte c /\ size x = len c /\
  match bytes x with Some m => exists rest, m = c ++ rest | None => c = [] end.

(* a pointer to readable memory starting with these bytes *)
Definition points_to (p : ptr) (c : list Z) : Prop := exists rest, p = Some (c ++ rest).

(* the two pointers are the same or point to different structures *)
Definition coherent (p q : dptr) : Prop :=
  match p, q with Some (a, x), Some (b, y) => a = b -> x = y | _, _ => True end.

Definition no_null (x : gdata) : Prop := bytes x <> None.

Definition prefix_of (p c : list Z) : Prop := exists r, c = p ++ r.
Definition suffix_of (p c : list Z) : Prop := exists r, c = r ++ p.

(* bytewise exclusive or, as long as both have bytes *)
Fixpoint xor_spec (a b : list Z) : list Z :=
  match a, b with
  | x :: a, y :: b => Z.lxor x y :: xor_spec a b
  | _, _ => []
  end.

(* those with something in them *)
Definition nonempty {A} (l : list (list A)) : list (list A) := filter (fun c => negb (len c =? 0)) l.
