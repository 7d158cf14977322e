(* Model of /repo/src/gutil_intarray.c, with the GArray functions of GLib it calls *)
From Verif Require Import Base.

(* ---------------- GArray (GLib's garray.c, element size 4) ---------------- *)

(* The allocated cells (None was never written), the number of elements, the number of references
   and how many critical warnings (failed g_return_if_fail) were logged for this array *)
Record garray := mkArr { blk : list (option Z); count : Z; refs : Z; crit : Z }.

Definition set_bc (a : garray) (b : list (option Z)) (n : Z) : garray := mkArr b n (refs a) (crit a).
Definition warn (a : garray) : garray := mkArr (blk a) (count a) (refs a) (crit a + 1).

(* memmove within the block, in elements *)
Definition move (b : list (option Z)) (dst src n : Z) : res (list (option Z)) :=
  if (0 <=? n) && (0 <=? src) && (src + n <=? len b) then
    if (0 <=? dst) && (dst + n <=? len b)
    then Ok (firstn (Z.to_nat dst) b ++ slice b src (src + n) ++ skipn (Z.to_nat (dst + n)) b)
    else Fail OobWrite
  else Fail OobRead.

(* memcpy of n ints from the caller's memory, which does not overlap *)
Definition copy (b : list (option Z)) (dst : Z) (vals : option (list Z)) (n : Z) : res (list (option Z)) :=
  match vals with
  | None => Fail NullDeref
  | Some v =>
      if n <=? len v then
        if (0 <=? dst) && (dst + n <=? len b)
        then Ok (firstn (Z.to_nat dst) b ++ map Some (firstn (Z.to_nat n) v) ++ skipn (Z.to_nat (dst + n)) b)
        else Fail OobWrite
      else Fail OobRead
  end.

(* g_array_maybe_expand: room for n more elements. grow is GLib's policy (the next power of two):
   how many cells to allocate when so many are needed. *)
Definition maybe_expand (grow : Z -> Z) (a : garray) (n : Z) : res garray :=
  if 2^32 - 1 - count a <? n then Fail AllocAbort
  else
    let want := count a + n in
    if want >? len (blk a)
    then Ok (set_bc a (blk a ++ repeat None (Z.to_nat (grow want - len (blk a)))) (count a))
    else Ok a.

(* g_array_append_vals *)
Definition g_append_vals (grow : Z -> Z) (a : garray) (vals : option (list Z)) (n : Z) : res garray :=
  if n =? 0 then Ok a
  else
    do a <- maybe_expand grow a n;
    do b <- copy (blk a) (count a) vals n;
    Ok (set_bc a b (count a + n)).

(* g_array_prepend_vals *)
Definition g_prepend_vals (grow : Z -> Z) (a : garray) (vals : option (list Z)) (n : Z) : res garray :=
  if n =? 0 then Ok a
  else
    do a <- maybe_expand grow a n;
    do b <- move (blk a) n 0 (count a);
    do b <- copy b 0 vals n;
    Ok (set_bc a b (count a + n)).

(* g_array_remove_range; the critical warnings leave the array alone *)
Definition g_remove_range (a : garray) (index length : Z) : res garray :=
  if negb (index <=? count a) || negb (index <=? 2^32 - 1 - length) || negb (index + length <=? count a)
  then Ok (warn a)
  else
    do b <- (if index + length =? count a then Ok (blk a)
             else move (blk a) index (index + length) (count a - (index + length)));
    Ok (set_bc a b (count a - length)).

(* g_array_set_size; the array was created without the clear flag *)
Definition g_set_size (grow : Z -> Z) (a : garray) (n : Z) : res garray :=
  do a <- (if n >? count a then maybe_expand grow a (n - count a)
           else if n <? count a then g_remove_range a n (count a - n)
           else Ok a);
  Ok (set_bc a (blk a) n).

(* g_array_insert_vals: an index past the end extends the array with unspecified values *)
Definition g_insert_vals (grow : Z -> Z) (a : garray) (index : Z) (vals : option (list Z)) (n : Z) : res garray :=
  if n =? 0 then Ok a
  else if index >=? count a then
    do a <- maybe_expand grow a (u32 (index - count a + n));
    do a <- g_set_size grow a index;
    g_append_vals grow a vals n
  else
    do a <- maybe_expand grow a n;
    do b <- move (blk a) (n + index) index (count a - index);
    do b <- copy b index vals n;
    Ok (set_bc a b (count a + n)).

(* g_array_remove_index *)
Definition g_remove_index (a : garray) (index : Z) : res garray :=
  if negb (index <? count a) then Ok (warn a)
  else
    do b <- (if index =? count a - 1 then Ok (blk a)
             else move (blk a) index (index + 1) (count a - index - 1));
    Ok (set_bc a b (count a - 1)).

(* g_array_remove_index_fast *)
Definition g_remove_index_fast (a : garray) (index : Z) : res garray :=
  if negb (index <? count a) then Ok (warn a)
  else
    do b <- (if index =? count a - 1 then Ok (blk a) else move (blk a) index (count a - 1) 1);
    Ok (set_bc a b (count a - 1)).

(* g_array_sort: the stable merge sort of GLib (g_qsort_with_data, gqsort.c) *)
Fixpoint merge (cmp : Z -> Z -> res Z) (l1 : list Z) : list Z -> res (list Z) :=
  fix inner (l2 : list Z) : res (list Z) :=
    match l1, l2 with
    | [], _ => Ok l2
    | _, [] => Ok l1
    | a :: t1, b :: t2 =>
        do c <- cmp a b;
        if c <=? 0 then do r <- merge cmp t1 l2; Ok (a :: r)
        else do r <- inner t2; Ok (b :: r)
    end.

Fixpoint msort (cmp : Z -> Z -> res Z) (fuel : nat) (l : list Z) : res (list Z) :=
  match l with
  | [] | [_] => Ok l
  | _ =>
      match fuel with
      | O => Fail NoFuel
      | S f =>
          let n1 := Z.to_nat (len l / 2) in
          do a <- msort cmp f (firstn n1 l);
          do b <- msort cmp f (skipn n1 l);
          merge cmp a b
      end
  end.

(* the values of cells which are read *)
Fixpoint read_all (l : list (option Z)) : res (list Z) :=
  match l with
  | [] => Ok []
  | None :: _ => Fail UninitRead
  | Some v :: t => do r <- read_all t; Ok (v :: r)
  end.

Definition g_sort (cmp : Z -> Z -> res Z) (a : garray) : res garray :=
  if count a >? 0 then
    do l <- read_all (slice (blk a) 0 (count a));
    do r <- msort cmp (length l) l;
    Ok (set_bc a (map Some r ++ skipn (Z.to_nat (count a)) (blk a)) (count a))
  else Ok a.

(* g_array_free: the data (None is NULL) and, if there are other references, what they see *)
Definition g_free (a : garray) (free_segment : bool) : option (list (option Z)) * option garray :=
  let seg := if free_segment then None else Some (blk a) in
  if refs a - 1 =? 0 then (seg, None) else (seg, Some (mkArr [] 0 (refs a - 1) (crit a))).

(* ---------------- gutil_intarray.c; an array is None if NULL ---------------- *)

(* lines 43-47 *)
Definition int_array_new : garray := mkArr [] 0 1 0.

(* lines 49-55: the number of elements is multiplied by the element size, as a guint *)
Definition int_array_sized_new (grow : Z -> Z) (reserved : Z) : res garray :=
  let n := u32 (reserved * 4) in
  if n =? 0 then Ok int_array_new else maybe_expand grow int_array_new n.

Definition on (array : option garray) (f : garray -> res garray) : res (option garray) :=
  match array with
  | Some a => do a <- f a; Ok (Some a)
  | None => Ok None
  end.

(* lines 135-145 *)
Definition append_vals (grow : Z -> Z) (array : option garray) (vals : option (list Z)) (n : Z) :=
  on array (fun a => g_append_vals grow a vals n).

(* lines 127-133 *)
Definition append (grow : Z -> Z) (array : option garray) (v : Z) := append_vals grow array (Some [v]) 1.

(* lines 57-66 *)
Definition new_from_vals (grow : Z -> Z) (vals : option (list Z)) (n : Z) : res (option garray) :=
  do a <- int_array_sized_new grow n;
  append_vals grow (Some a) vals n.

(* lines 68-73 *)
Definition new_from_value (grow : Z -> Z) (v : Z) : res (option garray) := new_from_vals grow (Some [v]) 1.

(* lines 155-165 *)
Definition prepend_vals (grow : Z -> Z) (array : option garray) (vals : option (list Z)) (n : Z) :=
  on array (fun a => g_prepend_vals grow a vals n).

(* lines 147-153 *)
Definition prepend (grow : Z -> Z) (array : option garray) (v : Z) := prepend_vals grow array (Some [v]) 1.

(* lines 176-187 *)
Definition insert_vals (grow : Z -> Z) (array : option garray) (pos : Z) (vals : option (list Z)) (n : Z) :=
  on array (fun a => g_insert_vals grow a pos vals n).

(* lines 167-174 *)
Definition insert (grow : Z -> Z) (array : option garray) (pos v : Z) := insert_vals grow array pos (Some [v]) 1.

(* lines 189-198 *)
Definition set_count (grow : Z -> Z) (array : option garray) (n : Z) :=
  on array (fun a => g_set_size grow a n).

(* lines 208-212; the guint is returned as an int *)
Fixpoint find_loop (fuel : nat) (b : list (option Z)) (n i v : Z) : res Z :=
  if i <? n then
    match fuel with
    | O => Fail NoFuel
    | S f =>
        do c <- rd b i;
        match c with
        | None => Fail UninitRead
        | Some x => if x =? v then Ok (s32 i) else find_loop f b n (i + 1) v
        end
    end
  else Ok (-1).

(* lines 200-215 *)
Definition find (array : option garray) (v : Z) : res Z :=
  match array with
  | Some a => find_loop (Z.to_nat (count a)) (blk a) (count a) 0 v
  | None => Ok (-1)
  end.

(* lines 217-223 *)
Definition contains (array : option garray) (v : Z) : res bool := do i <- find array v; Ok (i >=? 0).

(* lines 225-237 *)
Definition remove (array : option garray) (v : Z) : res (option garray * bool) :=
  do pos <- find array v;
  if pos >=? 0 then
    match array with
    | Some a => do a <- g_remove_index a pos; Ok (Some a, true)
    | None => Fail NullDeref
    end
  else Ok (array, false).

(* lines 239-251 *)
Definition remove_fast (array : option garray) (v : Z) : res (option garray * bool) :=
  do pos <- find array v;
  if pos >=? 0 then
    match array with
    | Some a => do a <- g_remove_index_fast a pos; Ok (Some a, true)
    | None => Fail NullDeref
    end
  else Ok (array, false).

(* lines 260 and 271 *)
Fixpoint remove_loop (rm : option garray -> Z -> res (option garray * bool)) (fuel : nat)
    (array : option garray) (v n : Z) : res (option garray * Z) :=
  do (array, b) <- rm array v;
  if (b : bool) then
    match fuel with
    | O => Fail NoFuel
    | S f => remove_loop rm f array v (u32 (n + 1))
    end
  else Ok (array, n).

Definition size_of (array : option garray) : nat :=
  match array with Some a => Z.to_nat (count a) | None => O end.

(* lines 253-262 *)
Definition remove_all (array : option garray) (v : Z) := remove_loop remove (size_of array) array v 0.

(* lines 264-273 *)
Definition remove_all_fast (array : option garray) (v : Z) := remove_loop remove_fast (size_of array) array v 0.

(* lines 275-284 *)
Definition remove_index (array : option garray) (pos : Z) : res (option garray) :=
  on array (fun a => if pos <? count a then g_remove_index a pos else Ok a).

(* lines 286-295 *)
Definition remove_index_fast (array : option garray) (pos : Z) : res (option garray) :=
  on array (fun a => g_remove_index_fast a pos).

(* lines 297-312 *)
Definition remove_range (array : option garray) (pos n : Z) : res (option garray) :=
  on array (fun a =>
    if (pos <? count a) && negb (n =? 0) then
      let e := u32 (pos + n) in
      let e := if e >? count a then count a else e in
      g_remove_range a pos (u32 (e - pos))
    else Ok a).

(* lines 314-324 and 335-345 *)
Definition ascending_proc (d : dialect) (v1 v2 : Z) : res Z := arith32 d (v1 - v2).
Definition descending_proc (d : dialect) (v1 v2 : Z) : res Z := arith32 d (v2 - v1).

(* lines 326-333 and 347-354 *)
Definition sort_ascending (d : dialect) (array : option garray) := on array (g_sort (ascending_proc d)).
Definition sort_descending (d : dialect) (array : option garray) := on array (g_sort (descending_proc d)).

(* lines 75-89; returns the block (None is NULL) and what the other references see *)
Definition free (array : option garray) (free_data : bool) : option (list (option Z)) * option garray :=
  match array with
  | Some a => if count a =? 0 then g_free a true else g_free a free_data
  | None => (None, None)
  end.

(* lines 91-106: the block and its element count as passed to gutil_ints_new_take, None is NULL *)
Definition free_to_ints (array : option garray) : option (list (option Z) * Z) * option garray :=
  match array with
  | Some a =>
      if count a =? 0 then (None, snd (free array true))
      else
        let n := count a in
        let (values, rest) := free array false in
        (match values with Some b => Some (b, n) | None => None end, rest)
  | None => (None, None)
  end.

(* lines 108-116 *)
Definition ref (array : option garray) : option garray :=
  match array with
  | Some a => Some (mkArr (blk a) (count a) (refs a + 1) (crit a))
  | None => None
  end.

(* lines 118-125: what the other references see *)
Definition unref (array : option garray) : option garray :=
  match array with
  | Some a => if refs a - 1 =? 0 then None else Some (mkArr (blk a) (count a) (refs a - 1) (crit a))
  | None => None
  end.

(* ---------------- all calls, for statements about sequences of them ---------------- *)

Inductive op : Type :=
| OAppend (vals : list Z) | OPrepend (vals : list Z) | OInsert (pos : Z) (vals : list Z)
| OSetCount (n : Z) | ORemoveIndex (pos : Z) | ORemoveIndexFast (pos : Z) | ORemoveRange (pos n : Z)
| OFind (v : Z) | OContains (v : Z) | ORemove (v : Z) | ORemoveFast (v : Z)
| ORemoveAll (v : Z) | ORemoveAllFast (v : Z) | OAscending | ODescending.

Inductive result : Type := RNone | RBool (b : bool) | RInt (z : Z).

Definition quiet (x : res (option garray)) : res (option garray * result) := do a <- x; Ok (a, RNone).

Definition step (d : dialect) (grow : Z -> Z) (a : option garray) (o : op) : res (option garray * result) :=
  match o with
  | OAppend v => quiet (append_vals grow a (Some v) (len v))
  | OPrepend v => quiet (prepend_vals grow a (Some v) (len v))
  | OInsert p v => quiet (insert_vals grow a p (Some v) (len v))
  | OSetCount n => quiet (set_count grow a n)
  | ORemoveIndex p => quiet (remove_index a p)
  | ORemoveIndexFast p => quiet (remove_index_fast a p)
  | ORemoveRange p n => quiet (remove_range a p n)
  | OFind v => do i <- find a v; Ok (a, RInt i)
  | OContains v => do b <- contains a v; Ok (a, RBool b)
  | ORemove v => do (a, b) <- remove a v; Ok (a, RBool b)
  | ORemoveFast v => do (a, b) <- remove_fast a v; Ok (a, RBool b)
  | ORemoveAll v => do (a, n) <- remove_all a v; Ok (a, RInt n)
  | ORemoveAllFast v => do (a, n) <- remove_all_fast a v; Ok (a, RInt n)
  | OAscending => quiet (sort_ascending d a)
  | ODescending => quiet (sort_descending d a)
  end.

Fixpoint run (d : dialect) (grow : Z -> Z) (a : option garray) (os : list op) : res (option garray * list result) :=
  match os with
  | [] => Ok (a, [])
  | o :: t => do (a, r) <- step d grow a o; do (a, rs) <- run d grow a t; Ok (a, r :: rs)
  end.
