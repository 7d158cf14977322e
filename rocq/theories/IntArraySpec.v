(* What int arrays are for: lists of ints. Uses only the types of the model. *)
From Verif Require Import Base IntArrayModel.
From Coq Require Import Permutation Sorted.

(* what the caller sees through array->data and array->count: l; None is an unspecified value *)
Definition shows (a : garray) (l : list (option Z)) : Prop :=
  count a = len l /\ exists spare, blk a = l ++ spare.

(* i is the index of the first v in l, -1 if there is none *)
Definition first_index (v : Z) (l : list (option Z)) (i : Z) : Prop :=
  (exists x y, l = x ++ Some v :: y /\ ~ In (Some v) x /\ i = len x) \/ (~ In (Some v) l /\ i = -1).

Definition is_val (v : Z) (c : option Z) : bool := match c with Some x => x =? v | None => false end.

(* the effect of a call on the list, and its result *)
Definition does (l : list (option Z)) (o : op) (r : result) (l' : list (option Z)) : Prop :=
  match o with
  | OAppend v => r = RNone /\ l' = l ++ map Some v
  | OPrepend v => r = RNone /\ l' = map Some v ++ l
  | OInsert p v =>
      r = RNone /\
      (p <= len l -> exists x y, l = x ++ y /\ len x = p /\ l' = x ++ map Some v ++ y) /\
      (len l < p -> v = [] -> l' = l) /\
      (len l < p -> v <> [] -> exists gap, len gap = p - len l /\ l' = l ++ gap ++ map Some v)
  | OSetCount n =>
      r = RNone /\
      (n <= len l -> exists y, l = l' ++ y /\ len l' = n) /\
      (len l <= n -> exists gap, len gap = n - len l /\ l' = l ++ gap)
  | ORemoveIndex p =>
      r = RNone /\
      (p < len l -> exists x c y, l = x ++ c :: y /\ len x = p /\ l' = x ++ y) /\ (len l <= p -> l' = l)
  | ORemoveIndexFast p =>
      r = RNone /\
      (p < len l -> exists x c y, l = x ++ c :: y /\ len x = p /\
        ((y = [] /\ l' = x) \/ exists y' z, y = y' ++ [z] /\ l' = x ++ z :: y')) /\
      (len l <= p -> l' = l)
  | ORemoveRange p n =>
      r = RNone /\
      exists x m y, l = x ++ m ++ y /\ len x = Z.min p (len l) /\ len m = Z.min n (len l - len x) /\ l' = x ++ y
  | OFind v => l' = l /\ exists i, r = RInt i /\ first_index v l i
  | OContains v => l' = l /\ exists b, r = RBool b /\ (b = true <-> In (Some v) l)
  | ORemove v =>
      (exists x y, l = x ++ Some v :: y /\ ~ In (Some v) x /\ l' = x ++ y /\ r = RBool true) \/
      (~ In (Some v) l /\ l' = l /\ r = RBool false)
  | ORemoveFast v =>
      (exists x y, l = x ++ Some v :: y /\ ~ In (Some v) x /\ r = RBool true /\ Permutation l' (x ++ y) /\ exists y', l' = x ++ y') \/
      (~ In (Some v) l /\ l' = l /\ r = RBool false)
  | ORemoveAll v =>
      l' = filter (fun c => negb (is_val v c)) l /\ r = RInt (len (filter (is_val v) l))
  | ORemoveAllFast v =>
      Permutation l' (filter (fun c => negb (is_val v c)) l) /\ r = RInt (len (filter (is_val v) l))
  | OAscending => r = RNone /\ exists vs ws, l = map Some vs /\ l' = map Some ws /\ Permutation vs ws /\ Sorted Z.le ws
  | ODescending => r = RNone /\ exists vs ws, l = map Some vs /\ l' = map Some ws /\ Permutation vs ws /\ Sorted Z.ge ws
  end.

Definition known (l : list (option Z)) : Prop := Forall (fun c => c <> None) l.

(* the differences of the values fit an int *)
Definition close (l : list (option Z)) : Prop :=
  forall x y, In (Some x) l -> In (Some y) l -> in_s32 (x - y).

(* calls for which that is true: positions are guints, the array has less than 2^32 elements (else
   GLib aborts the program), only known values are looked at and ... *)
Definition admissible (l : list (option Z)) (o : op) : Prop :=
  match o with
  | OAppend v | OPrepend v => len l + len v < 2^32
  | OInsert p v => 0 <= p < 2^32 /\ Z.max p (len l) + len v < 2^32
  | OSetCount n => 0 <= n < 2^32
  | ORemoveIndex p | ORemoveIndexFast p => 0 <= p < 2^32
  (* ... pos + count does not overflow, *)
  | ORemoveRange p n => 0 <= p < 2^32 /\ 0 <= n < 2^32 /\ (len l <= p \/ p + n < 2^32)
  (* ... indices fit an int, *)
  | OFind v | OContains v | ORemove v | ORemoveFast v | ORemoveAll v | ORemoveAllFast v =>
      known l /\ len l <= 2^31
  (* ... values to be sorted are not too far apart *)
  | OAscending | ODescending => known l /\ close l
  end.

(* sequences of calls *)
Inductive runs : list (option Z) -> list op -> list result -> list (option Z) -> Prop :=
| runs_nil l : runs l [] [] l
| runs_cons l o r l1 os rs l2 : does l o r l1 -> runs l1 os rs l2 -> runs l (o :: os) (r :: rs) l2.

Fixpoint all_admissible (l : list (option Z)) (os : list op) : Prop :=
  match os with
  | [] => True
  | o :: t => admissible l o /\ forall r l', does l o r l' -> all_admissible l' t
  end.

(* a call which makes GLib complain *)
Definition complains (l : list (option Z)) (o : op) : Z :=
  match o with ORemoveIndexFast p => if p <? len l then 0 else 1 | _ => 0 end.
