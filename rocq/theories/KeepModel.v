(* Functions which give an object to an idle pool (gutil_idlepool.c, lines 258-382), on top of the model of the pool itself. *)
From Verif Require Import Base IdlePoolModel.

(* The types for which there are such functions: char**, GObject, GVariant, GPtrArray, GBytes *)
Inductive type : Set := TStrv | TObject | TVariant | TArray | TBytes.
(* The functions passed to gutil_idle_pool_add: g_object_unref and the static functions at lines 258-263, 286-291, 304-309, 322-327 *)
Inductive func : Set := FStrfree | FObjectUnref | FVariantUnref | FArrayUnref | FBytesUnref.
(* The type which a function expects, i.e. the type of g_strfreev, g_object_unref, g_variant_unref, g_ptr_array_unref and
   g_bytes_unref called at lines 262, 282, 290, 308, 326 *)
Definition expects (f : func) : type :=
  match f with FStrfree => TStrv | FObjectUnref => TObject | FVariantUnref => TVariant | FArrayUnref => TArray | FBytesUnref => TBytes end.
Definition type_eqb (a b : type) : bool :=
  match a, b with TStrv, TStrv | TObject, TObject | TVariant, TVariant | TArray, TArray | TBytes, TBytes => true | _, _ => false end.

(* An object of GLib. An array of strings has exactly one reference. *)
Record obj : Set := Obj { o_type : type; o_refs : Z }.

(* What happens to objects *)
Inductive kevent : Set :=
| KNew (o : nat) (y : type)       (* the client has created an object and has one reference to it *)
| KTake (o : nat) | KDrop (o : nat)      (* the client takes another reference; it drops one *)
| KGive (o : nat) (more : bool)   (* gutil_idle_pool_add is called with the object; one more reference is taken for that purpose *)
| KRelease (f : func) (o : nat)   (* the pool calls this function *)
| KFree (o : nat).                (* the last reference is gone *)

(* The objects; those which are gone are None. The pointer and the function of an item of the pool are represented by the position
   in the list of such pairs; it is the data of the item (lines 230-231). *)
Record keep : Type := Keep { k_pool : state; k_objs : list (option obj); k_pairs : list (func * nat); k_log : list kevent }.

(* access to an object *)
Definition obj_at (m : list (option obj)) (o : nat) : res obj :=
  match nth_error m o with Some (Some b) => Ok b | Some None => Fail UseAfterFree | None => Fail OobRead end.
(* A reference is taken: g_object_ref, g_variant_ref, g_ptr_array_ref, g_bytes_ref, lines 347, 357, 367, 377 *)
Definition take (m : list (option obj)) (y : type) (o : nat) : res (list (option obj)) :=
  do b <- obj_at m o;
  if type_eqb (o_type b) y then Ok (upd m o (Some (Obj (o_type b) (o_refs b + 1)))) else Fail AssertFail.
(* A reference is dropped by the function for this type; an object without references is freed *)
Definition unref_obj (m : list (option obj)) (y : type) (o : nat) : res (list (option obj) * list kevent) :=
  do b <- obj_at m o;
  if type_eqb (o_type b) y then
    if o_refs b - 1 =? 0 then Ok (upd m o None, [KFree o]) else Ok (upd m o (Some (Obj (o_type b) (o_refs b - 1))), [])
  else Fail AssertFail.

(* The pool calls the functions, line 171 *)
Definition on_event (k : keep) (e : event) : res keep :=
  match e with
  | EDestroy _ _ d KClient =>
      match nth_error (k_pairs k) (Z.to_nat d) with
      | Some (f, o) => do (m, ev) <- unref_obj (k_objs k) (expects f) o; Ok (Keep (k_pool k) m (k_pairs k) (ev ++ KRelease f o :: k_log k))
      | None => Fail OobRead
      end
  | _ => Ok k
  end.
Fixpoint on_events (k : keep) (l : list event) : res keep :=
  match l with [] => Ok k | e :: l => do k <- on_event k e; on_events k l end.
(* The pool makes a step; what is new in its trace has happened *)
Definition pool_step (k : keep) (x : nat * action) : res keep :=
  do s <- step (k_pool k) x;
  on_events (Keep s (k_objs k) (k_pairs k) (k_log k)) (rev (firstn (length (s_trace s) - length (s_trace (k_pool k))) (s_trace s))).

(* The function which gutil_idle_pool_add_strv, _object, _variant, _ptr_array and _bytes pass to gutil_idle_pool_add,
   lines 271, 282, 300, 318, 336 *)
Definition func_of (y : type) : func :=
  match y with TStrv => FStrfree | TObject => FObjectUnref | TVariant => FVariantUnref | TArray => FArrayUnref | TBytes => FBytesUnref end.
(* These five functions given a pointer which may be NULL, lines 265-338; the result is the pointer returned. G_OBJECT looks into the
   object, line 282. *)
Definition add_plain (k : keep) (t : nat) (y : type) (p : option nat) (more : bool) : res (keep * option nat) :=
  match p with
  | None => Ok (k, p)
  | Some o =>
      do _ <- match y with
              | TObject => do b <- obj_at (k_objs k) o; if type_eqb (o_type b) TObject then Ok tt else Fail AssertFail
              | _ => Ok tt
              end;
      let d := Z.of_nat (length (k_pairs k)) in
      do k <- pool_step (Keep (k_pool k) (k_objs k) (k_pairs k ++ [(func_of y, o)]) (KGive o more :: k_log k)) (t, ACall (CAdd d));
      Ok (k, p)
  end.
(* gutil_idle_pool_add_object_ref, _variant_ref, _ptr_array_ref and _bytes_ref, lines 340-378 *)
Definition add_ref (k : keep) (t : nat) (y : type) (p : option nat) : res (keep * option nat) :=
  match p with
  | None => Ok (k, None)
  | Some o => do m <- take (k_objs k) y o; add_plain (Keep (k_pool k) m (k_pairs k) (k_log k)) t y p true
  end.

(* What happens next *)
Inductive deed : Type :=
| DPool (t : nat) (a : action)                         (* the pool or its client does something else than adding an item *)
| DNew (y : type)                                      (* the client creates an object *)
| DTake (y : type) (o : nat) | DDrop (y : type) (o : nat)    (* and calls the functions of GLib *)
| DAdd (t : nat) (y : type) (p : option nat)           (* gutil_idle_pool_add_strv and so on *)
| DAddRef (t : nat) (y : type) (p : option nat).       (* gutil_idle_pool_add_object_ref and so on *)

(* The client is running on this thread *)
Definition running (s : state) (t : nat) : bool :=
  match nth_error (s_stacks s) t with Some [] | Some (FCb _ _ _ :: _) => true | _ => false end.
Definition is_add (a : action) : bool := match a with ACall (CAdd _) => true | _ => false end.

Definition kstep (k : keep) (x : deed) : res keep :=
  match x with
  | DPool t a => if is_add a then Ok k else pool_step k (t, a)
  | DNew y => Ok (Keep (k_pool k) (k_objs k ++ [Some (Obj y 1)]) (k_pairs k) (KNew (length (k_objs k)) y :: k_log k))
  | DTake y o =>
      match y with
      | TStrv => Ok k
      | _ => do m <- take (k_objs k) y o; Ok (Keep (k_pool k) m (k_pairs k) (KTake o :: k_log k))
      end
  | DDrop y o => do (m, ev) <- unref_obj (k_objs k) y o; Ok (Keep (k_pool k) m (k_pairs k) (ev ++ KDrop o :: k_log k))
  | DAdd t y p => if running (k_pool k) t then do (k, _) <- add_plain k t y p false; Ok k else Ok k
  | DAddRef t y p =>
      match y with
      | TStrv => Ok k
      | _ => if running (k_pool k) t then do (k, _) <- add_ref k t y p; Ok k else Ok k
      end
  end.
Fixpoint krun (k : keep) (l : list deed) : res keep :=
  match l with [] => Ok k | x :: l => do k <- kstep k x; krun k l end.

(* A new pool (lines 60-69) or one created by gutil_idle_pool_get (lines 88-95), and no objects *)
Definition kstart (s : state) : keep := Keep s [] [] [].
