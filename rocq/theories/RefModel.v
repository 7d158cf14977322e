(* Model of the reference counting of /repo/src/gutil_ring.c, gutil_ints.c, gutil_history.c,
   gutil_idlepool.c, gutil_idlequeue.c and gutil_weakref.c for any number of threads. The atomic
   operations and the accesses to an object are separate steps which may be interleaved in any way
   (sequentially consistent memory, see DESIGN.md). *)
From Verif Require Import Base.

Inductive class : Type := Ring | Ints | History | Pool | Queue | WeakR.

(* ref_count is a gint; o_held are the objects of which this one has a reference it is going to drop
   (elements of a ring with a free function, items of a pool or queue with a destroy function, the
   parent of integers), in the order of dropping *)
Record obj : Type := Obj { o_class : class; o_count : Z; o_held : list nat; o_live : bool }.

(* What a thread has to do *)
Inductive code : Type :=
| CCheck (o : nat)              (* GASSERT(ref_count > 0) *)
| CRead (o : nat)               (* access to other fields *)
| CInc (o : nat)                (* g_atomic_int_inc *)
| CDec (o : nat) (data : bool)  (* g_atomic_int_dec_and_test, with the rest of the function *)
| CMake (o : nat)               (* creates integers which have a reference to o *)
| CFree (o : nat).              (* gutil_slice_free or g_free *)

(* The references a thread has, and what it is doing *)
Record thread : Type := Thread { t_own : list nat; t_code : list code }.
Inductive event : Type := ENew (o : nat) | ELast (t o : nat) | EFree (t o : nat).
(* debug: whether GASSERT is compiled in, /repo/include/gutil_log.h:251 and 263. The last event first. *)
Record state : Type := State { s_debug : bool; s_objs : list obj; s_thr : list thread; s_trace : list event }.
Definition start (debug : bool) (n : nat) : state := State debug [] (repeat (Thread [] []) n) [].

(* gutil_ints.c has no assertions (lines 125-148) *)
Definition checks (c : class) : bool := match c with Ints => false | _ => true end.
Definition class_of (s : state) (o : nat) : class := match nth_error (s_objs s) o with Some x => o_class x | None => History end.
Definition check (s : state) (o : nat) : list code := if s_debug s && checks (class_of s o) then [CCheck o] else [].

(* gutil_ring_ref (gutil_ring.c:84-93), gutil_ints_ref (gutil_ints.c:125-134), gutil_int_history_ref
   (gutil_history.c:89-98), gutil_idle_pool_ref (gutil_idlepool.c:121-130), gutil_idle_queue_ref
   (gutil_idlequeue.c:142-151), gutil_weakref_ref (gutil_weakref.c:72-81) *)
Definition ref_code (s : state) (o : nat) : list code := check s o ++ [CInc o].
(* gutil_ring_unref (gutil_ring.c:95-114), gutil_ints_unref (gutil_ints.c:136-148),
   gutil_int_history_unref (gutil_history.c:100-110), gutil_idle_pool_unref (gutil_idlepool.c:132-145),
   gutil_idle_queue_unref (gutil_idlequeue.c:153-164), gutil_weakref_unref (gutil_weakref.c:83-94) *)
Definition unref_code (s : state) (o : nat) : list code := check s o ++ [CDec o false].
(* gutil_ints_unref_to_data, gutil_ints.c:150-180 *)
Definition unref_data_code (o : nat) : list code := [CRead o; CDec o true].
(* What is done when the count gets to zero: gutil_ring.c:102-111, gutil_ints.c:142-145 (the same as
   162-169 for the purposes of this model), gutil_history.c:107, gutil_idlepool.c:139-142 with
   gutil_idle_pool_drain (157-181), gutil_idlequeue.c:160-161 with gutil_idle_queue_cancel_all
   (296-312), gutil_weakref.c:90-91. Simplified: items are dropped in the order of the list, and the
   object is read before each of them. *)
Definition last_code (s : state) (c : class) (o : nat) (held : list nat) : list code :=
  match c with
  | History => flat_map (unref_code s) held ++ [CFree o]
  | Ints | WeakR => CRead o :: flat_map (unref_code s) held ++ [CFree o]
  | Ring | Pool | Queue => flat_map (fun h => CRead o :: unref_code s h) held ++ [CRead o; CFree o]
  end.

(* gutil_ints_new_from_ints, gutil_ints.c:107-123 *)
Definition from_code (o : nat) : list code := [CRead o; CInc o; CMake o].

Definition get (s : state) (o : nat) : res obj :=
  match nth_error (s_objs s) o with Some x => if o_live x then Ok x else Fail UseAfterFree | None => Fail OobRead end.
Definition set_obj (s : state) (o : nat) (x : obj) : state := State (s_debug s) (upd (s_objs s) o x) (s_thr s) (s_trace s).
Definition new_obj (s : state) (x : obj) : state := State (s_debug s) (s_objs s ++ [x]) (s_thr s) (ENew (length (s_objs s)) :: s_trace s).
Definition set_thr (s : state) (t : nat) (x : thread) : state := State (s_debug s) (s_objs s) (upd (s_thr s) t x) (s_trace s).
Definition emit (s : state) (e : event) : state := State (s_debug s) (s_objs s) (s_thr s) (e :: s_trace s).

(* without one occurrence *)
Fixpoint drop (o : nat) (l : list nat) : list nat := match l with [] => [] | x :: l => if Nat.eqb x o then l else x :: drop o l end.

(* One step of the thread t, which has i to do and then k *)
Definition exec (s : state) (t : nat) (own : list nat) (i : code) (k : list code) : res state :=
  match i with
  | CCheck o => do x <- get s o; if o_count x <=? 0 then Fail AssertFail else Ok (set_thr s t (Thread own k))
  | CRead o => do x <- get s o; Ok (set_thr s t (Thread own k))
  | CInc o =>
      do x <- get s o;
      Ok (set_thr (set_obj s o (Obj (o_class x) (s32 (o_count x + 1)) (o_held x) true)) t (Thread (o :: own) k))
  | CDec o data =>
      do x <- get s o;
      let c := s32 (o_count x - 1) in
      if c =? 0 then Ok (emit (set_thr (set_obj s o (Obj (o_class x) c [] true)) t (Thread own (last_code s (o_class x) o (o_held x) ++ k))) (ELast t o))
      else Ok (set_thr (set_obj s o (Obj (o_class x) c (o_held x) true)) t (Thread own ((if data then [CRead o] else []) ++ k)))
  | CMake o => Ok (set_thr (new_obj s (Obj Ints 1 [o] true)) t (Thread (length (s_objs s) :: drop o own) k))
  | CFree o => do x <- get s o; Ok (emit (set_thr (set_obj s o (Obj (o_class x) (o_count x) [] false)) t (Thread own k)) (EFree t o))
  end.

(* What may happen: a thread which is not in a function of the library creates an object, calls ref,
   unref or another function, puts a reference it has into a container (synchronized by the client),
   gives a reference to another thread; a thread makes one step inside of the library *)
Inductive action : Type :=
| ANew (t : nat) (c : class) | ARef (t o : nat) | AUnref (t o : nat) | AUnrefData (t o : nat) | AFrom (t o : nat) | AUse (t o : nat)
| AHold (t p o : nat) | AGive (t u o : nat) | AStep (t : nat).

Definition step (s : state) (a : action) : res state :=
  let idle t (f : list nat -> res state) := match nth_error (s_thr s) t with Some (Thread own []) => f own | _ => Ok s end in
  match a with
  | ANew t c => idle t (fun own => Ok (set_thr (new_obj s (Obj c 1 [] true)) t (Thread (length (s_objs s) :: own) [])))
  | ARef t o => idle t (fun own => Ok (set_thr s t (Thread own (ref_code s o))))
  | AUnref t o => idle t (fun own => Ok (set_thr s t (Thread (drop o own) (unref_code s o))))
  | AUnrefData t o => idle t (fun own => Ok (set_thr s t (Thread (drop o own) (unref_data_code o))))
  | AFrom t o => idle t (fun own => Ok (set_thr s t (Thread own (from_code o))))
  | AUse t o => idle t (fun own => Ok (set_thr s t (Thread own [CRead o])))
  | AHold t p o => idle t (fun own => do x <- get s p;
      Ok (set_thr (set_obj s p (Obj (o_class x) (o_count x) (o_held x ++ [o]) true)) t (Thread (drop o own) [])))
  | AGive t u o => idle t (fun own =>
      match nth_error (s_thr s) u with
      | Some (Thread l k) => if Nat.eqb t u then Ok s else Ok (set_thr (set_thr s t (Thread (drop o own) [])) u (Thread (o :: l) k))
      | None => Ok s
      end)
  | AStep t => match nth_error (s_thr s) t with Some (Thread own (i :: k)) => exec s t own i k | _ => Ok s end
  end.

Fixpoint run (s : state) (l : list action) : res state := match l with [] => Ok s | a :: l => do s <- step s a; run s l end.
