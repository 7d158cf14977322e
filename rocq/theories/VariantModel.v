(* Model of gutil_data_copy_as_variant, gutil_object_ref, gutil_object_unref (/repo/src/gutil_misc.c:63-82, 448-461) and of the
   functions which give variants and objects to an idle pool (/repo/src/gutil_idlepool.c:277-306, 344-363), with the floating
   references of variants. *)
From Verif Require Import Base.

Inductive kind : Set := KVariant | KObject.
Definition kind_eqb (a b : kind) : bool := match a, b with KVariant, KVariant | KObject, KObject => true | _, _ => false end.

(* A GVariant (an array of bytes) or a GObject: references, whether the variant is floating, its bytes *)
Record thing : Set := Thing { t_kind : kind; t_refs : Z; t_float : bool; t_bytes : list Z }.

(* Memory blocks of the client (None if freed), variants and objects (None if gone), what the pool has been given (oldest first,
   with the type of the function to be called), and the log of the variants and objects freed, newest first.
   Simplified: one pool, whose functions are called in the order of addition; finalizers of objects do nothing (module Keep has
   them); reference counts are not bounded. *)
Record state : Set := St { s_blocks : list (option (list Z)); s_things : list (option thing); s_pool : list (kind * nat); s_freed : list nat }.

Definition set_things (s : state) (t : list (option thing)) : state := St (s_blocks s) t (s_pool s) (s_freed s).
Definition set_pool (s : state) (p : list (kind * nat)) : state := St (s_blocks s) (s_things s) p (s_freed s).
Definition set_blocks (s : state) (b : list (option (list Z))) : state := St b (s_things s) (s_pool s) (s_freed s).

(* struct GUtilData, include/gutil_types.h: a pointer to the beginning of a block (or NULL) and a size *)
Record data : Set := Data { d_bytes : option nat; d_size : Z }.

Definition block (s : state) (b : nat) : res (list Z) :=
  match nth_error (s_blocks s) b with Some (Some l) => Ok l | Some None => Fail UseAfterFree | None => Fail OobRead end.
Definition get (s : state) (v : nat) : res thing :=
  match nth_error (s_things s) v with Some (Some t) => Ok t | Some None => Fail UseAfterFree | None => Fail OobRead end.
(* access as a variant or as an object *)
Definition get_as (s : state) (k : kind) (v : nat) : res thing :=
  do t <- get s v; if kind_eqb (t_kind t) k then Ok t else Fail AssertFail.

Definition create (s : state) (t : thing) : nat * state := (length (s_things s), set_things s (s_things s ++ [Some t])).

(* g_variant_new_fixed_array and g_variant_new_from_data (both copy or take nothing from the caller): a floating reference *)
(* gutil_data_copy_as_variant, gutil_misc.c:448-461 *)
Definition copy_as_variant (s : state) (d : option data) : res (option nat * state) :=
  match d with
  | None => Ok (None, s)
  | Some d =>
      if d_size d =? 0 then let (v, s) := create s (Thing KVariant 1 true []) in Ok (Some v, s)
      else
        match d_bytes d with
        | None => Fail NullDeref
        | Some b =>
            do l <- block s b;
            if d_size d <=? len l then
              let (v, s) := create s (Thing KVariant 1 true (firstn (Z.to_nat (d_size d)) l)) in Ok (Some v, s)
            else Fail OobRead
        end
  end.

(* g_variant_ref, g_object_ref *)
Definition take (s : state) (k : kind) (v : nat) : res state :=
  do t <- get_as s k v; Ok (set_things s (upd (s_things s) v (Some (Thing k (t_refs t + 1) (t_float t) (t_bytes t))))).
(* g_variant_unref, g_object_unref *)
Definition drop (s : state) (k : kind) (v : nat) : res state :=
  do t <- get_as s k v;
  if t_refs t - 1 =? 0 then Ok (St (s_blocks s) (upd (s_things s) v None) (s_pool s) (v :: s_freed s))
  else Ok (set_things s (upd (s_things s) v (Some (Thing k (t_refs t - 1) (t_float t) (t_bytes t))))).
(* g_variant_ref_sink: what functions do which take a variant *)
Definition sink (s : state) (v : nat) : res state :=
  do t <- get_as s KVariant v;
  if t_float t then Ok (set_things s (upd (s_things s) v (Some (Thing KVariant (t_refs t) false (t_bytes t)))))
  else Ok (set_things s (upd (s_things s) v (Some (Thing KVariant (t_refs t + 1) false (t_bytes t))))).

(* gutil_object_ref, gutil_misc.c:63-72 *)
Definition object_ref (s : state) (o : option nat) : res (option nat * state) :=
  match o with Some v => do s <- take s KObject v; Ok (o, s) | None => Ok (o, s) end.
(* gutil_object_unref, gutil_misc.c:74-82 *)
Definition object_unref (s : state) (o : option nat) : res state :=
  match o with Some v => drop s KObject v | None => Ok s end.

(* gutil_idle_pool_add_variant, gutil_idlepool.c:296-305, and gutil_idle_pool_add_object, 277-286 (G_OBJECT() checks the type;
   gutil_idle_pool_add itself: module IdlePool) *)
Definition pool_add (s : state) (k : kind) (o : option nat) : res (option nat * state) :=
  match o with
  | Some v =>
      do s <- match k with KObject => do _ <- get_as s k v; Ok s | KVariant => Ok s end;
      Ok (o, set_pool s (s_pool s ++ [(k, v)]))
  | None => Ok (o, s)
  end.
(* gutil_idle_pool_add_variant_ref, gutil_idlepool.c:354-362, gutil_idle_pool_add_object_ref, 344-352 *)
Definition pool_add_ref (s : state) (k : kind) (o : option nat) : res (option nat * state) :=
  match o with
  | Some v => do s <- take s k v; pool_add s k (Some v)
  | None => Ok (None, s)
  end.
(* gutil_idle_pool_drain calls g_object_unref and gutil_idle_pool_variant_unref (288-293) *)
Fixpoint drain_items (s : state) (l : list (kind * nat)) : res state :=
  match l with
  | [] => Ok s
  | (k, v) :: l => do s <- drop s k v; drain_items s l
  end.
Definition drain (s : state) : res state := drain_items (set_pool s []) (s_pool s).

(* ---------------- what a client does ---------------- *)

Inductive op : Set :=
| NewBlock (l : list Z) | SetBlock (b : nat) (l : list Z) | FreeBlock (b : nat)    (* memory of the client *)
| Copy (d : option data)
| NewObject | ObjRef (o : option nat) | ObjUnref (o : option nat)
| VarRef (v : nat) | VarUnref (v : nat) | VarSink (v : nat)
| Read (v : nat)                                                                    (* g_variant_get_fixed_array *)
| Add (k : kind) (o : option nat) | AddRef (k : kind) (o : option nat) | Drain.

Inductive out : Set := ONone | OPtr (p : option nat) | OBytes (l : list Z).

Definition step (s : state) (o : op) : res (out * state) :=
  match o with
  | NewBlock l => Ok (ONone, set_blocks s (s_blocks s ++ [Some l]))
  | SetBlock b l => do _ <- block s b; Ok (ONone, set_blocks s (upd (s_blocks s) b (Some l)))
  | FreeBlock b => do _ <- block s b; Ok (ONone, set_blocks s (upd (s_blocks s) b None))
  | Copy d => do (v, s) <- copy_as_variant s d; Ok (OPtr v, s)
  | NewObject => let (v, s) := create s (Thing KObject 1 false []) in Ok (OPtr (Some v), s)
  | ObjRef o => do (v, s) <- object_ref s o; Ok (OPtr v, s)
  | ObjUnref o => do s <- object_unref s o; Ok (ONone, s)
  | VarRef v => do s <- take s KVariant v; Ok (ONone, s)
  | VarUnref v => do s <- drop s KVariant v; Ok (ONone, s)
  | VarSink v => do s <- sink s v; Ok (ONone, s)
  | Read v => do t <- get_as s KVariant v; Ok (OBytes (t_bytes t), s)
  | Add k o => do (v, s) <- pool_add s k o; Ok (OPtr v, s)
  | AddRef k o => do (v, s) <- pool_add_ref s k o; Ok (OPtr v, s)
  | Drain => do s <- drain s; Ok (ONone, s)
  end.

Fixpoint run (s : state) (ops : list op) : res (list out * state) :=
  match ops with
  | [] => Ok ([], s)
  | o :: ops => do (x, s) <- step s o; do (xs, s) <- run s ops; Ok (x :: xs, s)
  end.

Definition init : state := St [] [] [] [].
