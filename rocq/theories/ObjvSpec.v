(* What object arrays are for. Uses only the types of the model. *)
From Verif Require Import Base PtrvModel PtrvSpec ObjvModel.

(* The number of occurrences of an object in an array *)
Definition occ (x : nat) (l : list nat) : Z := Z.of_nat (count_occ Nat.eq_dec l x).

(* The references of all objects are known. An object without references is freed; there are no others. *)
Definition counts (h : objs) (r : nat -> Z) : Prop :=
  forall x, 0 <= r x /\
    ((x < length h)%nat -> nth_error h x = Some (if r x =? 0 then None else Some (r x))) /\
    ((length h <= x)%nat -> r x = 0).

(* An array that fits in memory *)
Definition fits (l : list nat) : Prop := len l < 2^60.

(* Insertion in front of position n, or at the end *)
Definition inserted (x : nat) (n : nat) (l : list nat) : list nat := firstn n l ++ x :: skipn n l.
Fixpoint without1 (x : nat) (l : list nat) : list nat :=
  match l with [] => [] | y :: t => if Nat.eq_dec y x then t else y :: without1 x t end.
Fixpoint without_all (x : nat) (l : list nat) : list nat :=
  match l with [] => [] | y :: t => if Nat.eq_dec y x then without_all x t else y :: without_all x t end.
Definition without_nth (n : nat) (l : list nat) : list nat := firstn n l ++ skipn (S n) l.

(* ---------------- programs ---------------- *)
(* All arrays as lists, None if freed, and the program's own references *)
Definition world := (list (option (list nat)) * (nat -> Z))%type.
Definition elems (ls : list (option (list nat))) (i : nat) : list nat := match nth_error ls i with Some (Some l) => l | _ => [] end.
Definition live (ls : list (option (list nat))) (i : nat) : Prop := exists l, nth_error ls i = Some (Some l).
(* occurrences in all arrays *)
Definition total (ls : list (option (list nat))) (x : nat) : Z :=
  fold_right (fun l n => match l with Some l => occ x l + n | None => n end) 0 ls.
Definition add1 (o : nat -> Z) (x : nat) (d : Z) : nat -> Z := fun y => if Nat.eq_dec x y then o y + d else o y.

(* the arrays and the own references after a command *)
Definition after (w : world) (c : cmd) : world :=
  let (ls, o) := w in
  match c with
  | ONew args => (ls ++ [Some args], o)
  | OCopy i => (ls ++ [Some (elems ls i)], o)
  | OAdd i x => (upd ls i (Some (elems ls i ++ [x])), o)
  | OInsert i x pos => (upd ls i (Some (inserted x (Z.to_nat pos) (elems ls i))), o)
  | OAppend i j => (upd ls i (Some (elems ls i ++ elems ls j)), o)
  | ORemove i x all => (upd ls i (Some (if all then without_all x (elems ls i) else without1 x (elems ls i))), o)
  | ORemoveAt i pos => (upd ls i (Some (without_nth (Z.to_nat pos) (elems ls i))), o)
  | OFree i => (upd ls i None, o)
  | ORef x => (ls, add1 o x 1)
  | OUnref x => (ls, add1 o x (-1))
  end.

(* A program may use arrays it has not freed and objects which are referenced, and releases what is its own *)
Definition correct (w : world) (c : cmd) : Prop :=
  let (ls, o) := w in
  let known x := 0 < total ls x + o x in
  match c with
  | ONew args => Forall known args
  | OCopy i | OFree i => live ls i
  | OAdd i x => live ls i /\ known x
  | OInsert i x pos => live ls i /\ known x /\ 0 <= pos < 2^64
  | OAppend i j => live ls i /\ live ls j /\ i <> j
  | ORemove i x _ => live ls i
  | ORemoveAt i pos => live ls i /\ 0 <= pos < 2^64
  | ORef x => known x
  | OUnref x => 0 < o x
  end /\ Forall (fun l => match l with Some l => fits l | None => True end) (fst (after w c)).

(* the arrays hold what they should and the references are right *)
Definition agrees (s : state) (w : world) : Prop :=
  counts (fst s) (fun x => total (fst w) x + snd w x) /\
  (forall x, 0 <= snd w x) /\
  Forall2 (fun v l => match v, l with Some v, Some l => holds v l /\ fits l | None, None => True | _, _ => False end) (snd s) (fst w).

Fixpoint run (s : state) (p : list cmd) : res state := match p with [] => Ok s | c :: p => do s <- run1 s c; run s p end.
Fixpoint result (w : world) (p : list cmd) : world := match p with [] => w | c :: p => result (after w c) p end.
Fixpoint all_correct (w : world) (p : list cmd) : Prop := match p with [] => True | c :: p => correct w c /\ all_correct (after w c) p end.
