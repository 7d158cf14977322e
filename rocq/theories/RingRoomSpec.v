(* Specification of the capacity of the ring: which additions and reservations succeed. Uses the
   model only for the types of API calls (op) and their results (out). *)
From Verif Require Import Base RingModel.

(* How many elements are in the ring, how many fit without allocation, the limit (-1 if none) *)
Record room := Rm { inside : Z; cap : Z; most : Z }.

(* The capacity after room for k elements has been requested, None if the request is refused *)
Definition grown (s : room) (k : Z) : option Z :=
  if k <=? cap s then Some (cap s)
  else if (0 <=? most s) && (most s <=? cap s) then None
  else let c := Z.max k (2 * cap s) in Some (if 0 <=? most s then Z.min c (most s) else c).

(* the room requested by a call *)
Definition request (s : room) (o : op) : option Z :=
  match o with
  | Put _ | PutFront _ => Some (inside s + 1)
  | Reserve k => Some k
  | _ => None
  end.

(* the boolean returned by a call, if it returns one *)
Definition reply (s : room) (o : op) : option bool :=
  match o with
  | CanPut k => Some ((most s <? 0) || (inside s + k <=? most s))
  | _ => match request s o with
         | Some k => Some (match grown s k with Some _ => true | None => false end)
         | None => None
         end
  end.

Definition next (s : room) (o : op) : room :=
  match o with
  | Put _ | PutFront _ =>
      match grown s (inside s + 1) with Some c => Rm (inside s + 1) c (most s) | None => s end
  | Reserve k => match grown s k with Some c => Rm (inside s) c (most s) | None => s end
  | Get | GetLast => Rm (Z.max 0 (inside s - 1)) (cap s) (most s)
  | Drop k | DropLast k => Rm (inside s - Z.min (Z.max k 0) (inside s)) (cap s) (most s)
  | Clear => Rm 0 (cap s) (most s)
  | Compact => Rm (inside s) (inside s) (most s)
  | SetMaxSize m =>
      if m <? 0 then Rm (inside s) (cap s) (-1)
      else Rm (if m =? most s then inside s else Z.min (inside s) m) (cap s) m
  | _ => s
  end.

(* the allocator can deliver what the call needs *)
Definition fits (L : Z) (s : room) (o : op) : Prop :=
  match request s o with
  | Some k => match grown s k with Some c => c <= L | None => True end
  | None => True
  end.

Fixpoint replies (s : room) (ops : list op) : list (option bool) :=
  match ops with
  | [] => []
  | o :: t => reply s o :: replies (next s o) t
  end.

Fixpoint final (s : room) (ops : list op) : room :=
  match ops with
  | [] => s
  | o :: t => final (next s o) t
  end.

Fixpoint all_fit (L : Z) (s : room) (ops : list op) : Prop :=
  match ops with
  | [] => True
  | o :: t => fits L s o /\ all_fit L (next s o) t
  end.

(* a new ring *)
Definition new_room (reserved max : Z) : room := Rm 0 reserved (if max <? 0 then -1 else max).

(* what the results say *)
Definition said (x : out) : option bool := match x with OBool b => Some b | _ => None end.

(* all limits set by ops are real limits of at most m *)
Definition limits (m : Z) (ops : list op) : Prop := forall k, In (SetMaxSize k) ops -> 0 <= k <= m.

(* nothing is put to the front or taken from it: the ring is used as a stack, or filled once and read *)
Definition stacked (o : op) : Prop :=
  match o with
  | PutFront _ | Get | Drop _ => False
  | SetMaxSize m => m < 0
  | _ => True
  end.
