(* What programs with string arrays compute: variables are lists of strings. Uses of the model only the types and the operations of programs. *)
From Verif Require Import Base PtrvModel PtrvSpec StrvModel StrvSpec WordsModel.

Record world := Wd { w_vars : list (list str); w_own : list (option str); w_out : list Z }.
Definition empty (n : nat) : world := Wd (repeat [] n) [] [].

Definition list_of (w : world) (v : nat) : list str := nth v (w_vars w) [].
Definition text (w : world) (a : argument) : option str :=
  match a with
  | AOwn j => nth j (w_own w) None
  | AElem v i => nth_error (list_of w v) (Z.to_nat i)
  end.
Fixpoint texts (w : world) (l : list argument) : list str :=
  match l with [] => [] | a :: l => match text w a with Some t => t :: texts w l | None => [] end end.

Definition eqs (a b : str) : bool := if list_eq_dec Z.eq_dec a b then true else false.
Fixpoint index (t : str) (l : list str) : option nat :=
  match l with [] => None | x :: r => if eqs x t then Some O else option_map S (index t r) end.
Definition first_index (t : str) (l : list str) : Z := match index t l with Some i => Z.of_nat i | None => -1 end.
Definition last_index (t : str) (l : list str) : Z := match index t (rev l) with Some i => len l - 1 - Z.of_nat i | None => -1 end.
Fixpoint remove1 (t : str) (l : list str) : list str := match l with [] => [] | x :: r => if eqs x t then r else x :: remove1 t r end.
Definition remove_all (t : str) (l : list str) : list str := filter (fun x => negb (eqs x t)) l.
(* Everything that came before is left out *)
Fixpoint once (seen l : list str) : list str :=
  match l with [] => [] | x :: r => if existsb (eqs x) seen then once seen r else x :: once (x :: seen) r end.
Fixpoint insert (asc : bool) (x : str) (l : list str) : list str :=
  match l with
  | [] => [x]
  | y :: r => if match lexc x y with Gt => negb asc | Lt => asc | Eq => true end then x :: l else y :: insert asc x r
  end.
Definition sorted (asc : bool) (l : list str) : list str := fold_right (insert asc) [] l.
Definition whiteb (c : Z) : bool := (c =? 32) || (c =? 9) || (c =? 10) || (c =? 12) || (c =? 13).
Fixpoint cut (s : str) : str := match s with [] => [] | c :: t => if whiteb c then cut t else s end.
Definition trim (s : str) : str := rev (cut (rev (cut s))).
Definition truth (b : bool) : Z := if b then 1 else 0.

Definition put (w : world) (v : nat) (l : list str) : world := Wd (upd (w_vars w) v l) (w_own w) (w_out w).
Definition say (w : world) (z : Z) : world := Wd (w_vars w) (w_own w) (z :: w_out w).
Definition with_text (w : world) (a : argument) (d : world) (f : str -> world) : world := match text w a with Some t => f t | None => d end.
Definition after (w : world) (o : op) : world :=
  match o with
  | ONew t => Wd (w_vars w) (w_own w ++ [Some t]) (w_out w)
  | OFree j => Wd (w_vars w) (upd (w_own w) j None) (w_out w)
  | OAdd v a => with_text w a w (fun t => put w v (list_of w v ++ [t]))
  | OAddv v l => put w v (list_of w v ++ texts w l)
  | ORemoveAt v pos free =>
      if pos <? 0 then w
      else match nth_error (list_of w v) (Z.to_nat pos) with
      | None => w
      | Some t =>
          let r := put w v (firstn (Z.to_nat pos) (list_of w v) ++ skipn (S (Z.to_nat pos)) (list_of w v)) in
          if free then r else Wd (w_vars r) (w_own r ++ [Some t]) (w_out r)
      end
  | ORemove v a all => with_text w a w (fun t => put w v (if all then remove_all t (list_of w v) else remove1 t (list_of w v)))
  | ODups v => put w v (once [] (list_of w v))
  | OSort v asc => put w v (sorted asc (list_of w v))
  | OStrip v => put w v (map trim (list_of w v))
  | OClear v => put w v []
  | OLength v => say w (len (list_of w v))
  | OFind v a => with_text w a (say w (-1)) (fun t => say w (first_index t (list_of w v)))
  | OFindLast v a => with_text w a (say w (-1)) (fun t => say w (last_index t (list_of w v)))
  | OContains v a => with_text w a (say w 0) (fun t => say w (truth (existsb (eqs t) (list_of w v))))
  | OSearch v a _ => with_text w a (say w 0) (fun t => say w (truth (existsb (eqs t) (list_of w v))))
  | OEqual v u => say w (truth (if list_eq_dec (list_eq_dec Z.eq_dec) (list_of w v) (list_of w u) then true else false))
  end.
Definition outcome (w : world) (l : list op) : world := fold_left after l w.

(* Which operations are allowed. Strings have characters 1..255, arrays less than 2^31 strings, positions are numbers of their types. *)
Definition room (w : world) (v : nat) : Prop := (v < length (w_vars w))%nat.
Definition known (w : world) (a : argument) : Prop := match a with AOwn _ => True | AElem v i => room w v /\ 0 <= i < 2^32 end.
(* All strings equal to an element of the array itself are removed: only if there is no such element, or as in StrvSpec *)
Definition harmless (w : world) (v : nat) (a : argument) : Prop :=
  match a with AOwn _ => True | AElem u i => u = v -> text w a = None \/ alias_ok (list_of w v) (Z.to_nat i) end.
Definition allowed (w : world) (o : op) : Prop :=
  match o with
  | ONew t => good_str t
  | OFree _ => True
  | OAdd v a => room w v /\ known w a /\ len (list_of w v) + 1 < 2^31
  | OAddv v l => room w v /\ Forall (known w) l /\ len (list_of w v) + len l < 2^31
  | ORemoveAt v pos _ => room w v /\ -2^31 <= pos < 2^31
  | ORemove v a all => room w v /\ known w a /\ (all = true -> harmless w v a)
  | ODups v | OSort v _ | OStrip v | OClear v | OLength v => room w v
  | OFind v a | OFindLast v a | OContains v a => room w v /\ known w a
  | OSearch v a asc => room w v /\ known w a /\ StronglySorted (in_order asc) (list_of w v)
  | OEqual v u => room w v /\ room w u
  end.
Fixpoint legal (w : world) (l : list op) : Prop := match l with [] => True | o :: l => allowed w o /\ legal (after w o) l end.

(* What is in memory *)
Definition reads (h : strs) (x : vec) (l : list str) : Prop :=
  exists ps, holds x (map fst ps) /\ map snd ps = l /\ forall i t, In (i, t) ps -> nth_error h i = Some (Some t).
Definition reads1 (h : strs) (x : option nat) (t : option str) : Prop :=
  match x, t with Some i, Some t => nth_error h i = Some (Some t) | None, None => True | _, _ => False end.
Fixpoint alive (h : strs) : nat := match h with [] => 0 | Some _ :: h => S (alive h) | None :: h => alive h end.
Fixpoint strings_of (w : list (list str)) : nat := match w with [] => 0 | l :: w => length l + strings_of w end.
Fixpoint own_of (l : list (option str)) : nat := match l with [] => 0 | Some _ :: l => S (own_of l) | None :: l => own_of l end.
