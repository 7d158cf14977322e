(* Model of the object arrays of /repo/src/gutil_objv.c when objects are finalized inside: g_object_unref of the last reference calls the client
   (dispose, finalize, weak references), who may use arrays there. The cells of arrays, sizes and terminating NULLs are those of ObjvModel; here a block
   is the list of its objects. *)
From Verif Require Import Base.

(* What a function does when g_object_unref has returned, or when it begins.
   KDone: nothing, the client's own g_object_unref.
   KMove v a base p len x all l: gutil_objv_remove_impl (lines 184-194) behind g_object_unref(objv[p]): moves the rest of block a, which had len objects, and
     reallocates it. Then it is over, or (all) the last occurrence of x among the l objects at base is next. The result goes to variable v.
   KFind v a base len x l: lines 214-218 of gutil_objv_remove.
   KFree v a i: line 83 of gutil_objv_free at objv[i]. *)
Inductive cont : Set := KDone | KMove (v a base p len x : nat) (all : bool) (l : nat) | KFind (v a base len x l : nat) | KFree (v a i : nat).
(* A function which goes on, or an object being finalized inside of one (the client runs) *)
Inductive frame : Set := FRun (k : cont) | FNotify (k : cont).

(* What happens: calls which change an array (with what they are to do), copies, finalized objects *)
Inductive change : Set := PAdd (x : nat) | PRemove (x : nat) (all : bool) | PRemoveAt (p : nat) | PFree.
Inductive event : Set := ECall (v : nat) (c : change) | ECopy (v w : nat) | EFinal (x : nat).

(* The client's variables (None is NULL), memory blocks (None: freed), objects with the number of references (None: finalized), how many of these
   the client has (not something the program can see), calls in progress (innermost first), what has happened (newest first) *)
Record state := St { s_vars : list (option nat); s_heap : list (option (list nat)); s_objs : list (option nat); s_own : list nat;
  s_stack : list frame; s_trace : list event }.
Definition start (n : nat) : state := St (repeat None n) [] [] [] [] [].

Inductive action : Set :=
| ANew                              (* creates an object *)
| ARef (x : nat) | AUnref (x : nat)
| AAdd (v x : nat) (moved : bool)   (* v = gutil_objv_add(v, x); the block is moved by g_renew or not *)
| ARemove (v x : nat) (all : bool)  (* v = gutil_objv_remove(v, x, all) *)
| ARemoveAt (v p : nat)             (* v = gutil_objv_remove_at(v, p) *)
| AFree (v : nat)                   (* gutil_objv_free(v); v = NULL *)
| ACopy (v w : nat)                 (* w = gutil_objv_copy(v) *)
| AUse (v i : nat)                  (* does something with v[i] *)
| AStep (moved : bool)              (* a function goes on; a block is moved by g_realloc or not *)
| AReturn.                          (* the object is gone *)

Definition setv (s : state) (v : nat) (a : option nat) : state := St (upd (s_vars s) v a) (s_heap s) (s_objs s) (s_own s) (s_stack s) (s_trace s).
Definition seth (s : state) (h : list (option (list nat))) : state := St (s_vars s) h (s_objs s) (s_own s) (s_stack s) (s_trace s).
Definition sets (s : state) (st : list frame) : state := St (s_vars s) (s_heap s) (s_objs s) (s_own s) st (s_trace s).
Definition seto (s : state) (o : list (option nat)) : state := St (s_vars s) (s_heap s) o (s_own s) (s_stack s) (s_trace s).
Definition log (s : state) (e : event) : state := St (s_vars s) (s_heap s) (s_objs s) (s_own s) (s_stack s) (e :: s_trace s).

Definition block (s : state) (a : nat) : res (list nat) := match nth_error (s_heap s) a with Some (Some c) => Ok c | _ => Fail UseAfterFree end.
(* g_realloc (g_renew) and g_malloc *)
Definition realloc (h : list (option (list nat))) (a : nat) (c : list nat) (moved : bool) : list (option (list nat)) * nat :=
  if moved then (upd h a None ++ [Some c], length h) else (upd h a (Some c), a).
Definition alloc (h : list (option (list nat))) (c : list nat) : list (option (list nat)) * nat := (h ++ [Some c], length h).

(* g_object_ref, g_object_unref *)
Definition ref (s : state) (x : nat) : res state :=
  match nth_error (s_objs s) x with Some (Some n) => Ok (seto s (upd (s_objs s) x (Some (S n)))) | _ => Fail UseAfterFree end.
Definition unref (s : state) (x : nat) (k : cont) : res state :=
  match nth_error (s_objs s) x with
  | Some (Some (S (S n))) => Ok (sets (seto s (upd (s_objs s) x (Some (S n)))) (FRun k :: s_stack s))
  | Some (Some _) => Ok (sets (log (seto s (upd (s_objs s) x None)) (EFinal x)) (FNotify k :: s_stack s))
  | _ => Fail UseAfterFree
  end.

Fixpoint remove_nth (p : nat) (c : list nat) : list nat :=
  match c, p with [], _ => [] | _ :: t, O => t | y :: t, S p => y :: remove_nth p t end.
(* gutil_objv_find, lines 297-312 *)
Fixpoint find (x : nat) (c : list nat) : option nat :=
  match c with [] => None | y :: t => if Nat.eqb y x then Some O else option_map S (find x t) end.
(* gutil_objv_find_last_impl, lines 169-182 *)
Fixpoint find_last (x : nat) (c : list nat) : option nat :=
  match c with
  | [] => None
  | y :: t => match find_last x t with Some i => Some (S i) | None => if Nat.eqb y x then Some O else None end
  end.

(* A function goes on. Simplification: if the block does not have the objects the function has counted, it moves too many or too few of them,
   which is called OobRead here. *)
Definition resume (s : state) (k : cont) (st : list frame) (moved : bool) : res state :=
  match k with
  | KDone => Ok (sets s st)
  | KMove v a base p len x all l =>
      do c <- block s a;
      if Nat.eqb (length c) len then
        let (h, b) := realloc (s_heap s) a (remove_nth p c) moved in
        if all then Ok (sets (seth s h) (FRun (KFind v b base (len - 1) x l) :: st)) else Ok (sets (setv (seth s h) v (Some b)) st)
      else Fail OobRead
  | KFind v a base len x l =>
      do c <- block s a;
      match find_last x (firstn l (skipn base c)) with
      | None => Ok (sets (setv s v (Some a)) st)
      | Some i => unref (sets s st) x (KMove v a base (base + i) len x true i)
      end
  | KFree v a i =>
      do c <- block s a;
      match nth_error c i with
      | Some y => unref (sets s st) y (KFree v a (S i))
      | None => Ok (sets (setv (seth s (upd (s_heap s) a None)) v None) st)
      end
  end.

Fixpoint refs (s : state) (c : list nat) : res state := match c with [] => Ok s | x :: c => do s <- ref s x; refs s c end.
Definition array (s : state) (v : nat) : res (option (nat * list nat)) :=
  match nth_error (s_vars s) v with Some (Some a) => do c <- block s a; Ok (Some (a, c)) | Some None => Ok None | None => Fail OobRead end.

Definition client (s : state) (a : action) : res state :=
  match a with
  | ANew => Ok (St (s_vars s) (s_heap s) (s_objs s ++ [Some 1%nat]) (s_own s ++ [1%nat]) (s_stack s) (s_trace s))
  | ARef x => do s <- ref s x; Ok (St (s_vars s) (s_heap s) (s_objs s) (upd (s_own s) x (S (nth x (s_own s) 0%nat))) (s_stack s) (s_trace s))
  | AUnref x => unref (St (s_vars s) (s_heap s) (s_objs s) (upd (s_own s) x (nth x (s_own s) 0%nat - 1)%nat) (s_stack s) (s_trace s)) x KDone
  (* gutil_objv_add, lines 107-120 *)
  | AAdd v x moved =>
      do r <- array s v;
      do s <- ref s x;
      let (h, b) := match r with Some (a, c) => realloc (s_heap s) a (c ++ [x]) moved | None => alloc (s_heap s) [x] end in
      Ok (log (setv (seth s h) v (Some b)) (ECall v (PAdd x)))
  (* gutil_objv_remove, lines 196-223 *)
  | ARemove v x all =>
      do r <- array s v;
      let s := log s (ECall v (PRemove x all)) in
      match r with
      | None => Ok s
      | Some (a, c) =>
          match find x c with
          | None => Ok s
          | Some p => unref s x (KMove v a p p (length c) x all (length c - 1 - p))
          end
      end
  (* gutil_objv_remove_at, lines 225-238 *)
  | ARemoveAt v p =>
      do r <- array s v;
      let s := log s (ECall v (PRemoveAt p)) in
      match r with
      | None => Ok s
      | Some (a, c) => match nth_error c p with None => Ok s | Some y => unref s y (KMove v a p p (length c) y false 0) end
      end
  (* gutil_objv_free, lines 76-86 *)
  | AFree v =>
      do r <- array s v;
      let s := log s (ECall v PFree) in
      match r with None => Ok s | Some (a, c) => Ok (sets s (FRun (KFree v a 0) :: s_stack s)) end
  (* gutil_objv_copy, lines 88-105 *)
  | ACopy v w =>
      do r <- array s v;
      match r with
      | None => Ok (log (setv s w None) (ECopy v w))
      | Some (a, c) => do s <- refs s c; let (h, b) := alloc (s_heap s) c in Ok (log (setv (seth s h) w (Some b)) (ECopy v w))
      end
  | AUse v i =>
      do r <- array s v;
      match r with
      | None => Fail NullDeref
      | Some (_, c) =>
          match nth_error c i with
          | None => Fail OobRead
          | Some x => match nth_error (s_objs s) x with Some (Some _) => Ok s | _ => Fail UseAfterFree end
          end
      end
  | AStep _ => Ok s
  | AReturn => match s_stack s with FNotify k :: st => Ok (sets s (FRun k :: st)) | _ => Ok s end
  end.

Definition step (s : state) (a : action) : res state :=
  match s_stack s with
  | FRun k :: st => match a with AStep moved => resume s k st moved | _ => Ok s end
  | _ => client s a
  end.
Fixpoint run (s : state) (l : list action) : res state := match l with [] => Ok s | a :: l => do s <- step s a; run s l end.
