(* Model of /repo/src/gutil_weakref.c and of the parts of GObject it is made of (weak locations). Every
   action is one atomic operation or one call to GLib, which is atomic because of the locks there (see
   DESIGN.md): the actions of any number of threads may come in any order. *)
From Verif Require Import Base.

(* An object is being disposed from its last g_object_unref on, until dispose returns *)
Inductive life : Type := Alive | Disposing | Final.
(* GObject: reference count, the weak references pointing to it (quark_weak_locations) *)
Record gobj : Type := GObj { g_life : life; g_refs : Z; g_locs : list nat }.
(* struct gutil_weakref, gutil_weakref.c:56-59. w_live: the memory is allocated. *)
Record wref : Type := WRef { w_count : Z; w_ptr : option nat; w_live : bool }.

Inductive event : Type :=
| EObj (o : nat) | ERef (o : nat) | EUnref (o : nat) | EDying (o : nat) | EFinal (o : nat)
| EWeak (w : nat) (p : option nat) | ESet (w : nat) (p : option nat) | EGot (w : nat) (p : option nat) | EWRef (w : nat) | EWUnref (w : nat) | EFree (w : nat)
| ENull (p : option nat). (* result of get for a NULL weak reference *)

(* The last event first *)
Record state : Type := State { s_objs : list gobj; s_weak : list wref; s_trace : list event }.
Definition start : state := State [] [] [].

Definition obj (s : state) (o : nat) : res gobj :=
  match nth_error (s_objs s) o with Some x => match g_life x with Final => Fail UseAfterFree | _ => Ok x end | None => Fail OobRead end.
Definition weak (s : state) (w : nat) : res wref :=
  match nth_error (s_weak s) w with Some x => if w_live x then Ok x else Fail UseAfterFree | None => Fail OobRead end.
Definition set_obj (s : state) (o : nat) (x : gobj) : state := State (upd (s_objs s) o x) (s_weak s) (s_trace s).
Definition set_weak (s : state) (w : nat) (x : wref) : state := State (s_objs s) (upd (s_weak s) w x) (s_trace s).
Definition emit (s : state) (e : event) : state := State (s_objs s) (s_weak s) (e :: s_trace s).

(* g_object_ref *)
Definition object_ref (s : state) (o : nat) : res state :=
  do x <- obj s o; Ok (set_obj s o (GObj (g_life x) (g_refs x + 1) (g_locs x))).

(* without all occurrences *)
Definition without (w : nat) (l : list nat) : list nat := filter (fun v => negb (Nat.eqb v w)) l.

(* g_weak_ref_set *)
Definition weak_ref_set (s : state) (w : nat) (p : option nat) : res state :=
  do x <- weak s w;
  if match w_ptr x, p with None, None => true | Some a, Some b => Nat.eqb a b | _, _ => false end then Ok s else
  let s1 := set_weak s w (WRef (w_count x) p true) in
  do s2 <- match w_ptr x with
           | Some a => do y <- obj s1 a; Ok (set_obj s1 a (GObj (g_life y) (g_refs y) (without w (g_locs y))))
           | None => Ok s1
           end;
  match p with
  | Some b => do y <- obj s2 b; Ok (set_obj s2 b (GObj (g_life y) (g_refs y) (w :: g_locs y)))
  | None => Ok s2
  end.

(* g_weak_ref_get *)
Definition weak_ref_get (s : state) (w : nat) : res (state * option nat) :=
  do x <- weak s w;
  match w_ptr x with
  | Some o => do s1 <- object_ref s o; Ok (s1, Some o)
  | None => Ok (s, None)
  end.

(* The first part of the last g_object_unref: weak references become NULL *)
Fixpoint clear_locs (s : state) (l : list nat) : res state :=
  match l with
  | [] => Ok s
  | w :: l => do x <- weak s w; clear_locs (set_weak s w (WRef (w_count x) None true)) l
  end.

(* g_object_unref, until dispose is called if this is the last reference *)
Definition object_unref (s : state) (o : nat) : res state :=
  do x <- obj s o;
  if (g_refs x =? 1) && match g_life x with Alive => true | _ => false end then
    do s1 <- clear_locs (emit s (EUnref o)) (g_locs x);
    Ok (emit (set_obj s1 o (GObj Disposing 1 [])) (EDying o))
  else Ok (emit (set_obj s o (GObj (g_life x) (g_refs x - 1) (g_locs x))) (EUnref o)).

(* The rest of the last g_object_unref: the object may have got references in dispose *)
Definition object_disposed (s : state) (o : nat) : res state :=
  do x <- obj s o;
  match g_life x with
  | Disposing => if g_refs x =? 1 then Ok (emit (set_obj s o (GObj Final 0 [])) (EFinal o)) else Ok (set_obj s o (GObj Alive (g_refs x - 1) (g_locs x)))
  | _ => Ok s
  end.

(* gutil_weakref_new, gutil_weakref.c:61-70 *)
Definition weakref_new (s : state) (p : option nat) : res state :=
  let w := length (s_weak s) in
  weak_ref_set (State (s_objs s) (s_weak s ++ [WRef 1 None true]) (EWeak w p :: s_trace s)) w p.
(* gutil_weakref_ref, gutil_weakref.c:72-81. GASSERT is left out, see RefModel.v. *)
Definition weakref_ref (s : state) (self : option nat) : res state :=
  match self with
  | Some w => do x <- weak s w; Ok (emit (set_weak s w (WRef (w_count x + 1) (w_ptr x) true)) (EWRef w))
  | None => Ok s
  end.
(* gutil_weakref_unref, gutil_weakref.c:83-94, is two steps: the count is decremented (line 89) and, if
   it has got to zero, the weak reference is cleared and freed (lines 90-91); g_weak_ref_clear is
   g_weak_ref_set with NULL *)
Definition weakref_unref (s : state) (self : option nat) : res state :=
  match self with
  | Some w => do x <- weak s w; Ok (emit (set_weak s w (WRef (w_count x - 1) (w_ptr x) true)) (EWUnref w))
  | None => Ok s
  end.
Definition weakref_end (s : state) (w : nat) : res state :=
  do x <- weak s w;
  if w_count x =? 0 then
    do s1 <- weak_ref_set s w None;
    do y <- weak s1 w;
    Ok (emit (set_weak s1 w (WRef (w_count y) (w_ptr y) false)) (EFree w))
  else Ok s.
(* gutil_weakref_get, gutil_weakref.c:96-101 *)
Definition weakref_get (s : state) (self : option nat) : res state :=
  match self with
  | Some w => do r <- weak_ref_get s w; let (s1, p) := (r : state * option nat) in Ok (emit s1 (EGot w p))
  | None => Ok (emit s (ENull None))
  end.
(* gutil_weakref_set, gutil_weakref.c:103-111 *)
Definition weakref_set (s : state) (self : option nat) (p : option nat) : res state :=
  match self with
  | Some w => do s1 <- weak_ref_set s w p; Ok (emit s1 (ESet w p))
  | None => Ok s
  end.

Inductive action : Type :=
| ANew | ARef (o : nat) | AUnref (o : nat) | ADisposed (o : nat)
| AWeak (p : option nat) | AWRef (w : option nat) | AWUnref (w : option nat) | AWEnd (w : nat) | AGet (w : option nat) | ASet (w : option nat) (p : option nat).

Definition step (s : state) (a : action) : res state :=
  match a with
  | ANew => Ok (State (s_objs s ++ [GObj Alive 1 []]) (s_weak s) (EObj (length (s_objs s)) :: s_trace s))
  | ARef o => do s1 <- object_ref s o; Ok (emit s1 (ERef o))
  | AUnref o => object_unref s o
  | ADisposed o => object_disposed s o
  | AWeak p => weakref_new s p
  | AWRef w => weakref_ref s w
  | AWUnref w => weakref_unref s w
  | AWEnd w => weakref_end s w
  | AGet w => weakref_get s w
  | ASet w p => weakref_set s w p
  end.

Fixpoint run (s : state) (l : list action) : res state := match l with [] => Ok s | a :: l => do s <- step s a; run s l end.
