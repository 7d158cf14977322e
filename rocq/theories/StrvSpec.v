(* What string arrays are for. Uses only the types of the model. *)
From Verif Require Import Base PtrvModel PtrvSpec StrvModel.
From Verif Require Export Lex.
From Coq Require Export Permutation Sorted.

Definition good_str (s : str) : Prop := Forall (fun c => 0 < c < 256) s.

(* An array of strings: pointers and what they point to. Each string belongs to one element. *)
Definition array (h : strs) (v : vec) (ps : list (nat * str)) : Prop :=
  holds v (map fst ps) /\ NoDup (map fst ps) /\
  (forall i s, In (i, s) ps -> nth_error h i = Some (Some s) /\ good_str s) /\ len ps < 2^31.

(* the same without a limit for the number of strings *)
Definition strings (h : strs) (v : vec) (ps : list (nat * str)) : Prop :=
  holds v (map fst ps) /\ NoDup (map fst ps) /\ (forall i s, In (i, s) ps -> nth_error h i = Some (Some s) /\ good_str s).

(* an argument of a function *)
Definition arg (h : strs) (i : nat) (s : str) : Prop := nth_error h i = Some (Some s) /\ good_str s.

(* what is known about strcmp *)
Definition good_strcmp (scmp : strcmp_fun) : Prop :=
  forall a b, good_str a -> good_str b -> Z.sgn (scmp a b) = sign_of (lexc a b) /\ -2^31 < scmp a b < 2^31.

Definition str_eqb (a b : str) : bool := if list_eq_dec Z.eq_dec a b then true else false.
Definition is_str (t : str) (p : nat * str) : bool := str_eqb (snd p) t.

(* removal of the first occurrence: the rest and what was removed *)
Fixpoint without_first (t : str) (ps : list (nat * str)) : list (nat * str) * list (nat * str) :=
  match ps with
  | [] => ([], [])
  | p :: r => if is_str t p then (r, [p]) else let (k, d) := without_first t r in (p :: k, d)
  end.
(* removal of all *)
Definition without (t : str) (ps : list (nat * str)) : list (nat * str) * list (nat * str) :=
  (filter (fun p => negb (is_str t p)) ps, filter (is_str t) ps).
(* f is the position of the first t *)
Definition first_at (t : str) (l : list str) (f : nat) : Prop := nth_error l f = Some t /\ forall j, (j < f)%nat -> nth_error l j <> Some t.
(* the string at position i is the last one in the array and occurs once, or is right behind the first one which is equal to it *)
Definition alias_ok (l : list str) (i : nat) : Prop :=
  exists t f, nth_error l i = Some t /\ first_at t l f /\ ((i = f /\ S i = length l) \/ i = S f).
(* removal of everything that came before: what is kept and what is removed *)
Fixpoint uniq (seen : list str) (ps : list (nat * str)) : list (nat * str) * list (nat * str) :=
  match ps with
  | [] => ([], [])
  | p :: r =>
      if existsb (str_eqb (snd p)) seen then let (k, d) := uniq seen r in (k, p :: d)
      else let (k, d) := uniq (snd p :: seen) r in (p :: k, d)
  end.

(* ISO C: what qsort does with a comparison that makes sense *)
Definition consistent (cmp : nat -> nat -> Z) (l : list nat) : Prop :=
  forall x y z, In x l -> In y l -> In z l -> (cmp x y < 0 <-> 0 < cmp y x) /\ (cmp x y <= 0 -> cmp y z <= 0 -> cmp x z <= 0).
Definition good_qsort (qsort : qsort_fun) : Prop :=
  forall cmp l, consistent cmp l -> Permutation l (qsort cmp l) /\ StronglySorted (fun x y => cmp x y <= 0) (qsort cmp l).

Definition in_order (ascending : bool) (a b : str) : Prop := if ascending then lexc a b <> Gt else lexc a b <> Lt.

(* white space: space, tab, line feed, form feed, carriage return *)
Definition white (c : Z) : Prop := c = 32 \/ c = 9 \/ c = 10 \/ c = 12 \/ c = 13.
Definition stripped (s r : str) : Prop :=
  exists pre post, s = pre ++ r ++ post /\ Forall white pre /\ Forall white post /\
    (forall c t, r = c :: t -> ~ white c) /\ (forall c t, r = t ++ [c] -> ~ white c).
