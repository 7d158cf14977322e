(* NULL terminated arrays of pointers *)
From Verif Require Import Base PtrvModel.

(* the array has these elements: a NULL follows, and possibly unused memory. NULL is an empty array. *)
Definition holds (v : vec) (l : list nat) : Prop :=
  match v with
  | None => l = []
  | Some b => exists junk, b = map CPtr l ++ CNull :: junk
  end.

(* exactly the objects fs have been freed *)
Definition frees {A} (h : objects A) (fs : list nat) (h' : objects A) : Prop :=
  length h' = length h /\
  forall i, (In i fs -> nth_error h' i = Some None) /\ (~ In i fs -> nth_error h' i = nth_error h i).

Definition is_live {A} (h : objects A) (i : nat) : Prop := exists a, nth_error h i = Some (Some a).
