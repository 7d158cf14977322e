(* Programs which use the string arrays of /repo/src/gutil_strv.c: any number of arrays and of strings of their own. The functions are those of StrvModel
   and PtrvModel; here is only what the program around them does. *)
From Verif Require Import Base PtrvModel StrvModel.

(* Strings in memory, variables with arrays, strings which belong to the program (None: a NULL pointer), results of queries (newest first) *)
Record state := St { s_heap : strs; s_vars : list vec; s_own : list (option nat); s_out : list Z }.
Definition start (n : nat) : state := St [] (repeat None n) [] [].

(* An argument: a string of the program, or element i of an array *)
Inductive argument : Set := AOwn (j : nat) | AElem (v : nat) (i : Z).
Inductive op : Set :=
| ONew (t : list Z)                            (* the program makes a string *)
| OFree (j : nat)                              (* g_free of its string number j, which is NULL then *)
| OAdd (v : nat) (a : argument)                (* v = gutil_strv_add(v, a) *)
| OAddv (v : nat) (l : list argument)          (* v = gutil_strv_addv(v, ..., NULL) *)
| ORemoveAt (v : nat) (pos : Z) (free : bool)  (* v = gutil_strv_remove_at(v, pos, free); a string which is not freed is the program's *)
| ORemove (v : nat) (a : argument) (all : bool)
| ODups (v : nat) | OSort (v : nat) (asc : bool) | OStrip (v : nat)
| OClear (v : nat)                             (* g_strfreev(v); v = NULL; as gutil_ptrv_free *)
| OLength (v : nat) | OFind (v : nat) (a : argument) | OFindLast (v : nat) (a : argument) | OContains (v : nat) (a : argument)
| OSearch (v : nat) (a : argument) (asc : bool) (* gutil_strv_bsearch(v, a, asc) >= 0 *)
| OEqual (v w : nat).

(* A local variable of the program, a GStrV*: gutil_strv.h *)
Definition var (s : state) (v : nat) : res vec := match nth_error (s_vars s) v with Some x => Ok x | None => Fail OobRead end.
(* An element is what gutil_strv_at returns, gutil_strv.c:54-68 *)
Definition value (s : state) (a : argument) : res sarg :=
  match a with
  | AOwn j => match nth_error (s_own s) j with Some x => Ok x | None => Ok None end
  | AElem v i => do x <- var s v; strv_at x i
  end.
(* The arguments in front of the first NULL, gutil_strv.c:169-197 *)
Fixpoint values (s : state) (l : list argument) : res (list nat) :=
  match l with
  | [] => Ok []
  | a :: l => do x <- value s a; do r <- values s l; Ok (match x with Some x => x :: r | None => [] end)
  end.
(* The array which was returned replaces the one in the variable *)
Definition store (s : state) (v : nat) (r : strs * vec) : state := St (fst r) (upd (s_vars s) v (snd r)) (s_own s) (s_out s).
(* The program keeps the answer *)
Definition answer (s : state) (z : Z) : state := St (s_heap s) (s_vars s) (s_own s) (z :: s_out s).
(* Arrays in different variables are different blocks *)
Definition address (v : nat) (x : vec) : Z := match x with None => 0 | Some _ => Z.of_nat v + 1 end.
(* gboolean *)
Definition bit (b : bool) : Z := if b then 1 else 0.

(* One statement of the program with one call: gutil_strv_add 154-167, _addv 169-197, _remove_at 214-230, _remove 236-262, _remove_dups 267-288,
   _equal, _sort, _bsearch, _strip, _length, _find, _find_last, _contains of gutil_strv.c (see StrvModel) *)
Definition step (qsort : qsort_fun) (scmp : strcmp_fun) (s : state) (o : op) : res state :=
  match o with
  | ONew t => Ok (St (s_heap s ++ [Some t]) (s_vars s) (s_own s ++ [Some (length (s_heap s))]) (s_out s))
  | OFree j =>
      match nth_error (s_own s) j with
      | Some (Some x) => do h <- free_obj (s_heap s) x; Ok (St h (s_vars s) (upd (s_own s) j None) (s_out s))
      | _ => Ok s
      end
  | OAdd v a => do x <- var s v; do y <- value s a; do r <- strv_add (s_heap s) x y; Ok (store s v r)
  | OAddv v l => do x <- var s v; do y <- values s l; do r <- strv_addv (s_heap s) x y; Ok (store s v r)
  | ORemoveAt v pos free =>
      do x <- var s v;
      do e <- (if pos >=? 0 then strv_at x pos else Ok None);
      do r <- strv_remove_at (s_heap s) x pos free;
      let s := store s v r in
      Ok (match e with Some e => if free then s else St (s_heap s) (s_vars s) (s_own s ++ [Some e]) (s_out s) | None => s end)
  | ORemove v a all => do x <- var s v; do y <- value s a; do r <- strv_remove scmp (s_heap s) x y all; Ok (store s v r)
  | ODups v => do x <- var s v; do r <- strv_remove_dups scmp (s_heap s) x; Ok (store s v r)
  | OSort v asc => do x <- var s v; do y <- strv_sort qsort scmp (s_heap s) x asc; Ok (store s v (s_heap s, y))
  | OStrip v => do x <- var s v; do h <- strv_strip (s_heap s) x; Ok (store s v (h, x))
  | OClear v => do x <- var s v; do h <- ptrv_free (s_heap s) x; Ok (store s v (h, None))
  | OLength v => do x <- var s v; do n <- strv_length x; Ok (answer s n)
  | OFind v a => do x <- var s v; do y <- value s a; do n <- strv_find scmp (s_heap s) x y; Ok (answer s n)
  | OFindLast v a => do x <- var s v; do y <- value s a; do n <- strv_find_last scmp (s_heap s) x y; Ok (answer s n)
  | OContains v a => do x <- var s v; do y <- value s a; do b <- strv_contains scmp (s_heap s) x y; Ok (answer s (bit b))
  | OSearch v a asc => do x <- var s v; do y <- value s a; do n <- strv_bsearch scmp (s_heap s) x y asc; Ok (answer s (bit (n >=? 0)))
  | OEqual v w =>
      do x <- var s v; do y <- var s w; do b <- strv_equal scmp (s_heap s) (address v x) x (address w y) y; Ok (answer s (bit b))
  end.
(* The program: its statements one after the other, whatever its control flow was *)
Fixpoint run (qsort : qsort_fun) (scmp : strcmp_fun) (s : state) (l : list op) : res state :=
  match l with [] => Ok s | o :: l => do s <- step qsort scmp s o; run qsort scmp s l end.
