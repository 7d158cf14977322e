(* Model of NULL terminated arrays of pointers (gutil_misc.c, gutil_strv.c, gutil_objv.c) and of the
   helpers for source and handler ids in gutil_misc.c *)
From Verif Require Import Base.

(* ---------------- arrays of pointers ---------------- *)

(* A cell of an array: NULL, a pointer to object number n of some heap, or memory never written *)
Inductive cell : Set := CNull | CPtr (n : nat) | CJunk.
Definition blk := list cell.
(* A pointer to an array or NULL *)
Definition vec := option blk.

Definition as_ptr (c : cell) : res (option nat) :=
  match c with CNull => Ok None | CPtr n => Ok (Some n) | CJunk => Fail UninitRead end.
(* b[i] *)
Definition at_ (b : blk) (i : Z) : res (option nat) := do c <- rd b i; as_ptr c.

(* gutil_ptrv_length, gutil_misc.c:696-710: while( *ptr++ ) len++ *)
Fixpoint length_loop (b : blk) (n : Z) : res Z :=
  match b with
  | [] => Fail OobRead
  | c :: t => do p <- as_ptr c; match p with Some _ => length_loop t (u64 (n + 1)) | None => Ok n end
  end.
Definition ptrv_length (v : vec) : res Z := match v with Some b => length_loop b 0 | None => Ok 0 end.

(* gutil_ptrv_is_empty, gutil_misc.c:712-717 *)
Definition ptrv_is_empty (v : vec) : res bool :=
  match v with
  | None => Ok true
  | Some b => do p <- at_ b 0; Ok (match p with None => true | Some _ => false end)
  end.

(* A heap of objects of any kind, None if freed *)
Definition objects (A : Type) := list (option A).
Definition look {A} (h : objects A) (i : nat) : res A :=
  match nth_error h i with Some (Some a) => Ok a | Some None => Fail UseAfterFree | None => Fail NullDeref end.
(* g_free *)
Definition free_obj {A} (h : objects A) (i : nat) : res (objects A) :=
  match nth_error h i with Some (Some a) => Ok (upd h i None) | Some None => Fail DoubleFree | None => Fail NullDeref end.

(* a loop over the elements: while( *ptr ) f( *ptr++ ) *)
Fixpoint walk {W} (f : W -> nat -> res W) (w : W) (b : blk) : res W :=
  match b with
  | [] => Fail OobRead
  | c :: t => do p <- as_ptr c; match p with Some n => do w <- f w n; walk f w t | None => Ok w end
  end.

(* gutil_ptrv_free, gutil_misc.c:719-730; the array itself is gone afterwards *)
Definition ptrv_free {A} (h : objects A) (v : vec) : res (objects A) :=
  match v with Some b => walk free_obj h b | None => Ok h end.

(* memmove within an array *)
Definition move (b : blk) (dst src n : Z) : res blk :=
  if (0 <=? src) && (0 <=? n) && (src + n <=? len b) then
    if (0 <=? dst) && (dst + n <=? len b) then
      Ok (slice b 0 dst ++ slice b src (src + n) ++ slice b (dst + n) (len b))
    else Fail OobWrite
  else Fail OobRead.

(* g_renew, g_realloc to n cells (n is positive; the number of bytes does not overflow) *)
Definition renew (v : vec) (n : Z) : blk :=
  let b := match v with Some b => b | None => [] end in
  firstn (Z.to_nat n) b ++ repeat CJunk (Z.to_nat n - length b).

(* ---------------- common parts of gutil_strv.c and gutil_objv.c ---------------- *)

(* gutil_strv_find_last_impl, gutil_strv.c:111-124, gutil_objv_find_last_impl, gutil_objv.c:169-182:
   (test is the comparison, b + off the array, n the int i if positive, else 0) *)
Fixpoint find_last_impl (test : nat -> res bool) (b : blk) (off : Z) (n : nat) : res Z :=
  match n with
  | O => Ok (-1)
  | S m =>
      do p <- at_ b (off + Z.of_nat m);
      match p with
      | Some x => do e <- test x; if (e : bool) then Ok (Z.of_nat m) else find_last_impl test b off m
      | None => Fail NullDeref
      end
  end.

(* gutil_strv_remove_impl, gutil_strv.c:199-212, gutil_objv_remove_impl, gutil_objv.c:184-194:
   (drop releases the element, wrap is the type of the length: guint or gsize) *)
Definition remove_impl {W} (wrap : Z -> Z) (drop : W -> nat -> res W) (w : W) (b : blk) (pos n : Z) : res (W * blk) :=
  do p <- at_ b pos;
  match p with
  | None => Fail NullDeref
  | Some x =>
      do w <- drop w x;
      do b <- move b pos (wrap (pos + 1)) (wrap (n - pos));
      Ok (w, renew (Some b) n)
  end.

(* gutil_strv_remove, gutil_strv.c:254-257, gutil_objv_remove, gutil_objv.c:214-218: remove all others;
   the comparison may depend on the heap *)
Fixpoint remove_rest {W} (fuel : nat) (wrap : Z -> Z) (test : W -> nat -> res bool) (drop : W -> nat -> res W)
    (w : W) (b : blk) (pos n l : Z) : res (W * blk) :=
  match fuel with
  | O => Fail NoFuel
  | S f =>
      do i <- find_last_impl (test w) b pos (Z.to_nat l);
      if i >=? 0 then
        do (w, b) <- remove_impl wrap drop w b (pos + i) n;
        remove_rest f wrap test drop w b pos (wrap (n - 1)) i
      else Ok (w, b)
  end.

(* ---------------- sources and signal handlers ---------------- *)

(* The ids which are alive, and how often GLib was asked to remove another one (it complains) *)
Record ids := mkIds { alive : list Z; bad : Z }.

(* g_source_remove, g_signal_handler_disconnect *)
Definition remove_id (w : ids) (i : Z) : ids :=
  if existsb (Z.eqb i) (alive w) then mkIds (filter (fun x => negb (x =? i)) (alive w)) (bad w)
  else mkIds (alive w) (bad w + 1).

(* gutil_source_remove, gutil_misc.c:84-94 *)
Definition source_remove (w : ids) (i : Z) : ids * bool :=
  if negb (i =? 0) then (remove_id w i, true) else (w, false).

(* gutil_source_clear, gutil_misc.c:96-108: the variable (or NULL) and its new value *)
Definition source_clear (w : ids) (v : option Z) : ids * option Z * bool :=
  match v with
  | Some i => if negb (i =? 0) then (remove_id w i, Some 0, true) else (w, Some i, false)
  | None => (w, None, false)
  end.

(* gutil_disconnect_handlers, gutil_misc.c:51-59: the loop; n is count - i *)
Fixpoint disconnect_loop (n : nat) (w : ids) (v : list Z) (i : Z) : res (ids * list Z) :=
  match n with
  | O => Ok (w, v)
  | S m =>
      do x <- rd v i;
      if negb (x =? 0) then
        do v <- wr v i 0;
        disconnect_loop m (remove_id w x) v (i + 1)
      else disconnect_loop m w v (i + 1)
  end.

(* gutil_disconnect_handlers, gutil_misc.c:44-61; NULL is None *)
Definition disconnect_handlers (w : ids) (instance : bool) (v : option (list Z)) (count : Z) : res (ids * option (list Z)) :=
  match v with
  | Some v => if instance then do (w, v) <- disconnect_loop (Z.to_nat count) w v 0; Ok (w, Some v) else Ok (w, Some v)
  | None => Ok (w, None)
  end.
