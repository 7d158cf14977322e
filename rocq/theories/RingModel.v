(* Model of /repo/src/gutil_ring.c *)
From Verif Require Import Base.

(* struct gutil_ring, gutil_ring.c:41-49. Pointers stored in the ring are integers, 0 is NULL.
   The block `data` is the list of its cells, None is a cell never written (g_new does not
   initialise); a NULL `data` is the empty block. The length of the block is the allocated
   size, it is not tied to the field alloc.
   Added for the model: gone (the memory has been released) and freed (the log of the calls
   of the free function: which function, which element).
   The free function is identified by a number, None is NULL. The ring pointer is not NULL. *)
Record ring := mkRing {
  ref_count : Z;
  alloc : Z;
  maxsiz : Z;
  start : Z;
  end_ : Z;
  data : list (option Z);
  free_func : option Z;
  gone : bool;
  freed : list (Z * Z)
}.

Definition set_se (r : ring) (s e : Z) : ring :=
  mkRing (ref_count r) (alloc r) (maxsiz r) s e (data r) (free_func r) (gone r) (freed r).
Definition set_buf (r : ring) (a s e : Z) (d : list (option Z)) : ring :=
  mkRing (ref_count r) a (maxsiz r) s e d (free_func r) (gone r) (freed r).
Definition set_max (r : ring) (m : Z) : ring :=
  mkRing (ref_count r) (alloc r) m (start r) (end_ r) (data r) (free_func r) (gone r) (freed r).
Definition set_ff (r : ring) (f : option Z) : ring :=
  mkRing (ref_count r) (alloc r) (maxsiz r) (start r) (end_ r) (data r) f (gone r) (freed r).
Definition set_refs (r : ring) (n : Z) : ring :=
  mkRing n (alloc r) (maxsiz r) (start r) (end_ r) (data r) (free_func r) (gone r) (freed r).
Definition set_gone (r : ring) : ring :=
  mkRing (ref_count r) (alloc r) (maxsiz r) (start r) (end_ r) (data r) (free_func r) true (freed r).
Definition log_free (r : ring) (f x : Z) : ring :=
  mkRing (ref_count r) (alloc r) (maxsiz r) (start r) (end_ r) (data r) (free_func r) (gone r)
         (freed r ++ [(f, x)]).

(* a C expression reading a field of the ring *)
Definition touch (r : ring) : res unit := if gone r then Fail UseAfterFree else Ok tt.

(* C remainder of ints *)
Definition crem (a b : Z) : res Z := if b =? 0 then Fail DivByZero else Ok (Z.rem a b).

(* reading an element: the cell must exist and have been written *)
Definition cell (l : list (option Z)) (i : Z) : res Z :=
  do c <- rd l i; match c with Some x => Ok x | None => Fail UninitRead end.

(* g_new(gpointer, n): a block of uninitialised cells. The allocator can deliver at most
   [limit] cells and aborts the process otherwise (also for negative n, whose size in bytes
   overflows) *)
Definition g_new (limit n : Z) : res (list (option Z)) :=
  if (0 <=? n) && (n <=? limit) then Ok (repeat None (Z.to_nat n)) else Fail AllocAbort.

(* memcpy(dst + doff, src + soff, sizeof(gpointer) * n) *)
Definition memcpy (dst : list (option Z)) (doff : Z) (src : list (option Z)) (soff n : Z)
  : res (list (option Z)) :=
  if (0 <=? n) && (0 <=? soff) && (soff + n <=? len src) then
    if (0 <=? doff) && (doff + n <=? len dst) then
      Ok (firstn (Z.to_nat doff) dst ++ slice src soff (soff + n) ++ skipn (Z.to_nat (doff + n)) dst)
    else Fail OobWrite
  else Fail OobRead.

(* What the free function does besides being logged: it may use the ring. The list holds its
   behaviour at the successive calls made during one API call; if it is exhausted, the function
   leaves the ring alone. *)
Definition callbacks := list (ring -> res ring).

(* free_func(x) *)
Definition call_free (f : Z) (x : Z) (cbs : callbacks) (r : ring) : res (callbacks * ring) :=
  let r := log_free r f x in
  match cbs with
  | [] => Ok ([], r)
  | k :: t => do r <- k r; Ok (t, r)
  end.

(* gutil_ring_new_full, gutil_ring.c:65-82 (gutil_ring_new and gutil_ring_sized_new, 51-63, are
   special cases) *)
Definition new_full (limit reserved max_size : Z) (f : option Z) : res ring :=
  let m := if max_size <? 0 then -1 else max_size in
  if negb (reserved =? 0) then
    do d <- g_new limit reserved;
    Ok (mkRing 1 reserved m (-1) (-1) d f false [])
  else Ok (mkRing 1 0 m (-1) (-1) [] f false []).

(* gutil_ring_ref, gutil_ring.c:84-93 *)
Definition ring_ref (r : ring) : ring := set_refs r (ref_count r + 1).

(* gutil_ring_set_free_func, gutil_ring.c:116-124 *)
Definition set_free_func (r : ring) (f : option Z) : ring := set_ff r f.

(* gutil_ring_size, gutil_ring.c:150-166 (the assertions are not compiled in) *)
Definition size (d : dialect) (r : ring) : res Z :=
  if start r >=? 0 then
    if start r >? end_ r then
      do x <- arith32 d (alloc r + end_ r); arith32 d (x - start r)
    else if end_ r >? start r then arith32 d (end_ r - start r)
    else Ok (alloc r)
  else Ok 0.

(* gutil_ring_get, gutil_ring.c:314-332 *)
Definition get (d : dialect) (r : ring) : res (Z * ring) :=
  if start r >=? 0 then
    do x <- cell (data r) (start r);
    do s <- arith32 d (start r + 1);
    if s =? end_ r then Ok (x, set_se r (-1) (-1))
    else
      do s <- crem s (alloc r);
      if s =? end_ r then Ok (x, set_se r (-1) (-1))
      else Ok (x, set_se r s (end_ r))
  else Ok (0, r).

(* gutil_ring_get_last, gutil_ring.c:334-349 *)
Definition get_last (d : dialect) (r : ring) : res (Z * ring) :=
  if start r >=? 0 then
    do a <- arith32 d (end_ r + alloc r);
    do a <- arith32 d (a - 1);
    do e <- crem a (alloc r);
    do x <- cell (data r) e;
    if start r =? e then Ok (x, set_se r (-1) (-1))
    else Ok (x, set_se r (start r) e)
  else Ok (0, r).

(* gutil_ring.c:178-181; n is the number of rounds still allowed *)
Fixpoint clear_loop (d : dialect) (n : nat) (f : Z) (cbs : callbacks) (r : ring) : res ring :=
  match n with
  | O => Ok r
  | S m =>
      do (x, r) <- get d r;
      do (cbs, r) <- call_free f x cbs r;
      match m with
      | O => Ok r
      | S _ =>
          do _ <- touch r;
          do s <- size d r;
          if s >? 0 then clear_loop d m f cbs r else Ok r
      end
  end.

(* gutil_ring_clear, gutil_ring.c:168-187 *)
Definition clear (d : dialect) (cbs : callbacks) (r : ring) : res ring :=
  do n <- size d r;
  if n >? 0 then
    match free_func r with
    | Some f => clear_loop d (Z.to_nat n) f cbs r
    | None => Ok (set_se r (-1) (-1))
    end
  else Ok r.

(* gutil_ring.c:365-369; r->free_func is read anew in each round *)
Fixpoint drop_loop (d : dialect) (n : nat) (cbs : callbacks) (r : ring) : res ring :=
  match n with
  | O => Ok r
  | S m =>
      do _ <- touch r;
      do x <- cell (data r) (start r);
      match free_func r with
      | None => Fail NullCall
      | Some f =>
          do (cbs, r) <- call_free f x cbs r;
          do _ <- touch r;
          do s <- arith32 d (start r + 1);
          do s <- crem s (alloc r);
          drop_loop d m cbs (set_se r s (end_ r))
      end
  end.

(* gutil_ring_drop, gutil_ring.c:351-377 *)
Definition drop (d : dialect) (cbs : callbacks) (r : ring) (n : Z) : res (Z * ring) :=
  if n >? 0 then
    do s <- size d r;
    if s >? 0 then
      if n >=? s then
        do r <- clear d cbs r; Ok (s, r)
      else
        match free_func r with
        | Some _ => do r <- drop_loop d (Z.to_nat n) cbs r; Ok (n, r)
        | None =>
            do a <- arith32 d (start r + n);
            do a <- crem a (alloc r);
            Ok (n, set_se r a (end_ r))
        end
    else Ok (0, r)
  else Ok (0, r).

(* gutil_ring.c:393-397 *)
Fixpoint drop_last_loop (d : dialect) (n : nat) (cbs : callbacks) (r : ring) : res ring :=
  match n with
  | O => Ok r
  | S m =>
      do _ <- touch r;
      do a <- arith32 d (end_ r + alloc r);
      do a <- arith32 d (a - 1);
      do e <- crem a (alloc r);
      do x <- cell (data r) e;
      let r := set_se r (start r) e in
      match free_func r with
      | None => Fail NullCall
      | Some f =>
          do (cbs, r) <- call_free f x cbs r;
          drop_last_loop d m cbs r
      end
  end.

(* gutil_ring_drop_last, gutil_ring.c:379-405 *)
Definition drop_last (d : dialect) (cbs : callbacks) (r : ring) (n : Z) : res (Z * ring) :=
  if n >? 0 then
    do s <- size d r;
    if s >? 0 then
      if n >=? s then
        do r <- clear d cbs r; Ok (s, r)
      else
        match free_func r with
        | Some _ => do r <- drop_last_loop d (Z.to_nat n) cbs r; Ok (n, r)
        | None =>
            do a <- arith32 d (end_ r + alloc r);
            do a <- arith32 d (a - n);
            do e <- crem a (alloc r);
            Ok (n, set_se r (start r) e)
        end
    else Ok (0, r)
  else Ok (0, r).

(* gutil_ring_set_max_size, gutil_ring.c:133-148 *)
Definition set_max_size (d : dialect) (cbs : callbacks) (r : ring) (m : Z) : res ring :=
  let m := if m <? 0 then -1 else m in
  if negb (maxsiz r =? m) then
    do s <- size d r;
    do r <- (if (m >=? 0) && (s >? m) then do (_, r) <- drop d cbs r (s - m); Ok r else Ok r);
    do _ <- touch r;
    Ok (set_max r m)
  else Ok r.

(* gutil_ring_compact, gutil_ring.c:189-220 *)
Definition compact (limit : Z) (d : dialect) (r : ring) : res ring :=
  do n <- size d r;
  if alloc r >? n then
    if n >? 0 then
      do buf <- g_new limit n;
      do buf <- (if start r <? end_ r then memcpy buf 0 (data r) (start r) n
                 else
                   do tail <- arith32 d (alloc r - start r);
                   do buf <- memcpy buf 0 (data r) (start r) tail;
                   memcpy buf tail (data r) 0 (end_ r));
      Ok (set_buf r n 0 0 buf)
    else Ok (set_buf r 0 (start r) (end_ r) [])
  else Ok r.

(* gutil_ring_reserve, gutil_ring.c:222-266 *)
Definition reserve (limit : Z) (d : dialect) (r : ring) (minsize : Z) : res (bool * ring) :=
  if minsize <=? alloc r then Ok (true, r)
  else if (maxsiz r >=? 0) && (alloc r >=? maxsiz r) then Ok (false, r)
  else
    do a2 <- arith32 d (alloc r * 2);
    let minsize := Z.max minsize a2 in
    let minsize := if (maxsiz r >? 0) && (minsize >? maxsiz r) then maxsiz r else minsize in
    do buf <- g_new limit minsize;
    if start r <? end_ r then
      do n <- arith32 d (end_ r - start r);
      do buf <- memcpy buf 0 (data r) (start r) n;
      Ok (true, set_buf r minsize 0 n buf)
    else if start r >=? 0 then
      do tail <- arith32 d (alloc r - start r);
      do buf <- memcpy buf 0 (data r) (start r) tail;
      do buf <- memcpy buf tail (data r) 0 (end_ r);
      do e <- arith32 d (end_ r + tail);
      Ok (true, set_buf r minsize 0 e buf)
    else Ok (true, set_buf r minsize (start r) (end_ r) buf).

(* gutil_ring_can_put, gutil_ring.c:268-277 *)
Definition can_put (d : dialect) (r : ring) (n : Z) : res bool :=
  if maxsiz r <? 0 then Ok true
  else
    do s <- size d r;
    do s <- arith32 d (s + n);
    Ok (s <=? maxsiz r).

(* gutil_ring_put, gutil_ring.c:279-294 *)
Definition put (limit : Z) (d : dialect) (r : ring) (x : Z) : res (bool * ring) :=
  do s <- size d r;
  do s <- arith32 d (s + 1);
  do (ok, r) <- reserve limit d r s;
  if ok then
    let r := if start r <? 0 then set_se r 0 0 else r in
    do buf <- wr (data r) (end_ r) (Some x);
    do e <- arith32 d (end_ r + 1);
    do e <- crem e (alloc r);
    Ok (true, set_buf r (alloc r) (start r) e buf)
  else Ok (false, r).

(* gutil_ring_put_front, gutil_ring.c:296-312 *)
Definition put_front (limit : Z) (d : dialect) (r : ring) (x : Z) : res (bool * ring) :=
  do s <- size d r;
  do s <- arith32 d (s + 1);
  do (ok, r) <- reserve limit d r s;
  if ok then
    do r <- (if start r >=? 0 then
               do a <- arith32 d (start r + alloc r);
               do a <- arith32 d (a - 1);
               do a <- crem a (alloc r);
               Ok (set_se r a (end_ r))
             else Ok (set_se r 0 1));
    do buf <- wr (data r) (start r) (Some x);
    Ok (true, set_buf r (alloc r) (start r) (end_ r) buf)
  else Ok (false, r).

(* gutil_ring_data_at, gutil_ring.c:407-417 *)
Definition data_at (d : dialect) (r : ring) (pos : Z) : res Z :=
  if pos >=? 0 then
    do s <- size d r;
    if pos <? s then
      do a <- arith32 d (start r + pos);
      do i <- crem a (alloc r);
      cell (data r) i
    else Ok 0
  else Ok 0.

(* gutil_ring_flatten, gutil_ring.c:419-443: the returned pointer is given as an offset into the
   block (None is NULL), followed by the number stored to *size *)
Definition flatten (limit : Z) (d : dialect) (r : ring) : res (option Z * Z * ring) :=
  do n <- size d r;
  if n >? 0 then
    do r <- (if (start r >? 0) && (start r >=? end_ r) then
               do buf <- g_new limit n;
               do n1 <- arith32 d (alloc r - start r);
               do buf <- memcpy buf 0 (data r) (start r) n1;
               do buf <- memcpy buf n1 (data r) 0 (end_ r);
               do e <- crem n (alloc r);
               Ok (set_buf r (alloc r) 0 e buf)
             else Ok r);
    Ok (Some (start r), n, r)
  else Ok (None, n, r).

(* gutil_ring.c:106-108 *)
Fixpoint unref_loop (d : dialect) (n : nat) (i : Z) (cbs : callbacks) (r : ring) : res ring :=
  match n with
  | O => Ok r
  | S m =>
      do _ <- touch r;
      do a <- arith32 d (start r + i);
      do j <- crem a (alloc r);
      do x <- cell (data r) j;
      match free_func r with
      | None => Fail NullCall
      | Some f =>
          do (cbs, r) <- call_free f x cbs r;
          unref_loop d m (i + 1) cbs r
      end
  end.

(* gutil_ring_unref, gutil_ring.c:95-114 (one thread) *)
Definition unref (d : dialect) (cbs : callbacks) (r : ring) : res ring :=
  let r := set_refs r (ref_count r - 1) in
  if ref_count r =? 0 then
    do r <- match free_func r with
            | Some _ => do n <- size d r; unref_loop d (Z.to_nat n) 0 cbs r
            | None => Ok r
            end;
    if gone r then Fail DoubleFree else Ok (set_gone r)
  else Ok r.

(* ---------------- API calls ---------------- *)

Inductive op : Set :=
| Put (x : Z) | PutFront (x : Z) | Get | GetLast
| Drop (n : Z) | DropLast (n : Z) | Clear | Compact | Reserve (n : Z)
| SetMaxSize (n : Z) | MaxSize | SetFree (f : option Z)
| DataAt (i : Z) | Size | CanPut (n : Z) | Flatten | Ref | Unref.

(* What the caller sees *)
Inductive out : Set :=
| ONone | OBool (b : bool) | OInt (z : Z) | OPtr (p : Z)
| OBlock (p : option Z) (n : Z).

(* one API call; the ring must not have been released. gutil_ring_max_size is gutil_ring.c:126-131 *)
Definition step (limit : Z) (d : dialect) (cbs : callbacks) (r : ring) (o : op) : res (out * ring) :=
  do _ <- touch r;
  match o with
  | Put x => do (b, r) <- put limit d r x; Ok (OBool b, r)
  | PutFront x => do (b, r) <- put_front limit d r x; Ok (OBool b, r)
  | Get => do (x, r) <- get d r; Ok (OPtr x, r)
  | GetLast => do (x, r) <- get_last d r; Ok (OPtr x, r)
  | Drop n => do (k, r) <- drop d cbs r n; Ok (OInt k, r)
  | DropLast n => do (k, r) <- drop_last d cbs r n; Ok (OInt k, r)
  | Clear => do r <- clear d cbs r; Ok (ONone, r)
  | Compact => do r <- compact limit d r; Ok (ONone, r)
  | Reserve n => do (b, r) <- reserve limit d r n; Ok (OBool b, r)
  | SetMaxSize n => do r <- set_max_size d cbs r n; Ok (ONone, r)
  | MaxSize => Ok (OInt (maxsiz r), r)
  | SetFree f => Ok (ONone, set_free_func r f)
  | DataAt i => do x <- data_at d r i; Ok (OPtr x, r)
  | Size => do n <- size d r; Ok (OInt n, r)
  | CanPut n => do b <- can_put d r n; Ok (OBool b, r)
  | Flatten => do (p, n, r) <- flatten limit d r; Ok (OBlock p n, r)
  | Ref => Ok (ONone, ring_ref r)
  | Unref => do r <- unref d cbs r; Ok (ONone, r)
  end.

(* a sequence of calls whose free functions leave the ring alone *)
Fixpoint run (limit : Z) (d : dialect) (r : ring) (ops : list op) : res (list out * ring) :=
  match ops with
  | [] => Ok ([], r)
  | o :: t =>
      do (x, r) <- step limit d [] r o;
      do (l, r) <- run limit d r t;
      Ok (x :: l, r)
  end.

(* a sequence of calls made by the client, with what the free function does at each of its calls
   (again a sequence of API calls, whose free functions ...) *)
Inductive script : Type := Script (calls : list (op * list script)).

Fixpoint play (limit : Z) (d : dialect) (s : script) (r : ring) : res ring :=
  match s with
  | Script l =>
      (fix go l r :=
         match l with
         | [] => Ok r
         | (o, inner) :: t =>
             do (_, r) <- step limit d (map (play limit d) inner) r o; go t r
         end) l r
  end.
