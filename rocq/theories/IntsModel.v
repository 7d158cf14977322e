(* Model of /repo/src/gutil_ints.c *)
From Verif Require Import Base HexModel DataModel.

(* ---------------- the contents of blocks: pure functions ---------------- *)

(* A pointer to a GUtilInts: NULL, or its address and contents (never empty) *)
Definition iptr := option (Z * list Z).

(* the bytes of an array of ints in memory *)
Definition int_bytes (big : bool) (v : Z) : list Z :=
  let l := le_bytes 4 (u32 v) in if big then rev l else l.
Definition ints_bytes (big : bool) (l : list Z) : list Z := flat_map (int_bytes big) l.

(* the first n ints (n is a guint, the number of bytes a size_t) *)
Definition memcmp_ints (big : bool) (a b : list Z) (n : Z) : res Z :=
  memcmp Strict (Some (ints_bytes big a)) (Some (ints_bytes big b)) (u64 (n * 4)).

(* lines 215-219; the guint is returned as an int *)
Fixpoint ifind_loop (l : list Z) (i v : Z) : Z :=
  match l with
  | [] => -1
  | x :: t => if x =? v then s32 i else ifind_loop t (u32 (i + 1)) v
  end.

(* lines 207-222 *)
Definition ints_find (p : iptr) (v : Z) : Z :=
  match p with Some (_, l) => ifind_loop l 0 v | None => -1 end.

(* lines 224-244 *)
Definition ints_contains (p : iptr) (v : Z) : bool :=
  match p with Some (_, l) => existsb (fun x => x =? v) l | None => false end.

(* lines 254-256: int times guint is a guint *)
Fixpoint hash_loop (l : list Z) (i h : Z) : Z :=
  match l with
  | [] => h
  | x :: t => hash_loop t (u32 (i + 1)) (Z.lxor h (u32 (u32 x * u32 (i + 1))))
  end.

(* lines 246-261 *)
Definition ints_hash (p : iptr) : Z :=
  match p with Some (_, l) => hash_loop l 0 1234 | None => 0 end.

(* lines 263-279 *)
Definition ints_equal (big : bool) (p q : iptr) : res bool :=
  match p, q with
  | None, None => Ok true
  | Some (a, x), Some (b, y) =>
      if a =? b then Ok true
      else if len x =? len y then do c <- memcmp_ints big x y (len x); Ok (c =? 0)
      else Ok false
  | _, _ => Ok false
  end.

(* lines 287-309 *)
Definition ints_compare (big : bool) (p q : iptr) : res Z :=
  match p, q with
  | None, None => Ok 0
  | Some (a, x), Some (b, y) =>
      if a =? b then Ok 0
      else
        do r <- memcmp_ints big x y (Z.min (len x) (len y));
        if negb (r =? 0) || (len x =? len y) then Ok r
        else Ok (if len x >? len y then 1 else -1)
  | Some _, None => Ok 1
  | None, Some _ => Ok (-1)
  end.

(* ---------------- ownership ---------------- *)

(* free_func and user_data. KFree is g_free of the data, KUser a function of the caller which releases
   the data, KUnref gutil_ints_unref1 of the parent. *)
Inductive ffunc : Type := KNull | KFree | KUser | KUnref (parent : nat).

(* struct gutil_ints, lines 42-48; data is an offset in a memory block *)
Record obj := mkObj { o_blk : nat; o_off : Z; o_cnt : Z; o_refs : Z; o_free : ffunc }.

(* The objects ever allocated (None is freed memory) and the blocks of ints: contents, and 0 if the block
   is in use (or static), 1 if it has been released, 2 if it was handed to the caller *)
Record heap := mkHeap { objs : list (option obj); blks : list (list Z * Z) }.

Definition get (h : heap) (i : nat) : res obj :=
  match nth_error (objs h) i with
  | Some (Some o) => Ok o
  | Some None => Fail UseAfterFree
  | None => Fail NullDeref
  end.

Definition set_obj (h : heap) (i : nat) (x : option obj) : heap := mkHeap (upd (objs h) i x) (blks h).
Definition set_refs (o : obj) (n : Z) : obj := mkObj (o_blk o) (o_off o) (o_cnt o) n (o_free o).

Definition finish (how : Z) (h : heap) (b : nat) : res heap :=
  match nth_error (blks h) b with
  | Some (c, n) => if n =? 0 then Ok (mkHeap (objs h) (upd (blks h) b (c, how))) else Fail DoubleFree
  | None => Fail NullDeref
  end.
(* g_free, or the caller's function *)
Definition release : heap -> nat -> res heap := finish 1.
(* the caller becomes responsible for the block *)
Definition give : heap -> nat -> res heap := finish 2.

(* reading n ints *)
Definition read (h : heap) (b : nat) (off n : Z) : res (list Z) :=
  match nth_error (blks h) b with
  | Some (c, r) =>
      if r =? 0 then if (0 <=? off) && (off + n <=? len c) then Ok (slice c off (off + n)) else Fail OobRead
      else Fail UseAfterFree
  | None => Fail NullDeref
  end.

Definition add_blk (h : heap) (c : list Z) : heap * nat := (mkHeap (objs h) (blks h ++ [(c, 0)]), length (blks h)).

(* gutil_ints_new_with_free_func, lines 78-97, for data which is not NULL *)
Definition new_with_free_func (h : heap) (b : nat) (off n : Z) (f : ffunc) : heap * option nat :=
  if n =? 0 then (h, None)
  else (mkHeap (objs h ++ [Some (mkObj b off n 1 f)]) (blks h), Some (length (objs h))).

(* gutil_ints_ref, lines 125-134 *)
Definition ints_ref (h : heap) (i : nat) : res heap :=
  do o <- get h i;
  Ok (set_obj h i (Some (set_refs o (s32 (o_refs o + 1))))).

(* gutil_ints_unref, lines 136-148, and gutil_ints_unref1, 99-105: the depth of the recursion is the
   number of ancestors *)
Fixpoint ints_unref (fuel : nat) (h : heap) (i : nat) : res heap :=
  match fuel with
  | O => Fail NoFuel
  | S f =>
      do o <- get h i;
      let n := s32 (o_refs o - 1) in
      let h := set_obj h i (Some (set_refs o n)) in
      if n =? 0 then
        do h <- match o_free o with
                | KNull => Ok h
                | KFree | KUser => release h (o_blk o)
                | KUnref p => ints_unref f h p
                end;
        Ok (set_obj h i None)
      else Ok h
  end.

(* gutil_ints_new_from_ints, lines 107-123 *)
Definition new_from_ints (h : heap) (i : nat) (offset n : Z) : res (heap * option nat) :=
  do o <- get h i;
  if offset <? o_cnt o then
    let e := u32 (offset + n) in
    let e := if e >? o_cnt o then o_cnt o else e in
    do h <- ints_ref h i;
    Ok (new_with_free_func h (o_blk o) (o_off o + offset) (u32 (e - offset)) (KUnref i))
  else Ok (h, None).

(* gutil_ints_unref_to_data, lines 150-180: the returned pointer and the count *)
Definition unref_to_data (h : heap) (i : nat) : res (heap * (nat * Z) * Z) :=
  do o <- get h i;
  let n := s32 (o_refs o - 1) in
  let h := set_obj h i (Some (set_refs o n)) in
  if n =? 0 then
    match o_free o with
    | KFree =>
        (* the data now belongs to the caller *)
        do h <- give h (o_blk o);
        Ok (set_obj h i None, (o_blk o, o_off o), o_cnt o)
    | KNull => Fail NullCall
    | KUser =>
        do c <- read h (o_blk o) (o_off o) (o_cnt o);
        let (h, b) := add_blk h c in
        do h <- release h (o_blk o);
        Ok (set_obj h i None, (b, 0), o_cnt o)
    | KUnref p =>
        do c <- read h (o_blk o) (o_off o) (o_cnt o);
        let (h, b) := add_blk h c in
        do h <- ints_unref (length (objs h)) h p;
        Ok (set_obj h i None, (b, 0), o_cnt o)
    end
  else
    do c <- read h (o_blk o) (o_off o) (o_cnt o);
    let (h, b) := add_blk h c in
    Ok (h, (b, 0), o_cnt o).

(* gutil_ints_get_data, lines 182-198, and reading what it points to *)
Definition get_data (h : heap) (i : nat) : res (list Z) :=
  do o <- get h i; read h (o_blk o) (o_off o) (o_cnt o).

(* ---------------- all calls ---------------- *)

Inductive kind : Type := Static | Take | User.

Inductive call : Type :=
| CNew (k : kind) (c : list Z)   (* new_static, new_take (also gutil_ints_new), new_with_free_func *)
| CSlice (i : nat) (offset n : Z)
| CRef (i : nat)
| CUnref (i : nat)
| CToData (i : nat).

(* the result: nothing, a new object (or NULL) and its block, or data *)
Inductive ret : Type := RNone | RNew (i : option nat) (b : nat) | RData (b : nat) (off n : Z).

Definition step (h : heap) (c : call) : res (heap * ret) :=
  match c with
  | CNew k v =>
      let (h, b) := add_blk h v in
      let (h, i) := new_with_free_func h b 0 (len v) (match k with Static => KNull | Take => KFree | User => KUser end) in
      Ok (h, RNew i b)
  | CSlice i off n =>
      do (h, j) <- new_from_ints h i off n;
      Ok (h, RNew j O)
  | CRef i => do h <- ints_ref h i; Ok (h, RNone)
  | CUnref i => do h <- ints_unref (length (objs h)) h i; Ok (h, RNone)
  | CToData i => do (h, (b, off), n) <- unref_to_data h i; Ok (h, RData b off n)
  end.
