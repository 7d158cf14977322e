(* Model of /repo/src/gutil_history.c *)
From Verif Require Import Base.
From Verif Require RingModel.

(* struct gutil_int_history, gutil_history.c:42-55: an entry is (time, value). The reference count
   (89-110) and the time function are left out: the clock reading is an argument of each call,
   functions which do not read the clock ignore it. The history is not NULL. *)
Record hist := mkHist {
  max_interval : Z;
  first : Z;
  last : Z;
  max_size : Z;
  entry : list (Z * Z)
}.

Definition set_fl (h : hist) (f l : Z) : hist := mkHist (max_interval h) f l (max_size h) (entry h).
Definition set_entry (h : hist) (e : list (Z * Z)) : hist :=
  mkHist (max_interval h) (first h) (last h) (max_size h) e.

(* gutil_int_history_new_full, gutil_history.c:65-87 (gutil_int_history_new, 57-63, is the special
   case with the default clock). g_malloc0 fills the entries with zeros. *)
Definition new_full (size interval : Z) : option hist :=
  if (size >? 0) && (interval >? 0)
  then Some (mkHist interval (-1) (-1) size (repeat (0, 0) (Z.to_nat size)))
  else None.

(* gutil_history.c:122-124 *)
Fixpoint flush_loop (fuel : nat) (d : dialect) (h : hist) (cutoff : Z) : res hist :=
  match fuel with
  | O => Fail NoFuel
  | S n =>
      do e <- rd (entry h) (first h);
      if fst e <? cutoff then
        do f <- arith32 d (first h + 1);
        do f <- RingModel.crem f (max_size h);
        flush_loop n d (set_fl h f (last h)) cutoff
      else Ok h
  end.

(* gutil_int_history_flush, gutil_history.c:112-131 *)
Definition flush (d : dialect) (h : hist) (now : Z) : res (bool * hist) :=
  do cutoff <- arith64 d (now - max_interval h);
  do e <- rd (entry h) (last h);
  if fst e >=? cutoff then
    do h <- flush_loop (S (Z.to_nat (max_size h))) d h cutoff; Ok (true, h)
  else Ok (false, set_fl h (-1) (-1)).

(* gutil_int_history_size, gutil_history.c:133-148 *)
Definition size (d : dialect) (h : hist) (now : Z) : res (Z * hist) :=
  if last h >=? 0 then
    do (ok, h) <- flush d h now;
    if ok then
      if first h >? last h then
        do a <- arith32 d (max_size h + last h);
        do a <- arith32 d (a - first h);
        do a <- arith32 d (a + 1);
        Ok (u32 a, h)
      else
        do a <- arith32 d (last h - first h);
        do a <- arith32 d (a + 1);
        Ok (u32 a, h)
    else Ok (0, h)
  else Ok (0, h).

(* gutil_int_history_interval, gutil_history.c:150-162 *)
Definition interval (d : dialect) (h : hist) (now : Z) : res (Z * hist) :=
  if last h >=? 0 then
    do (ok, h) <- flush d h now;
    if ok then
      do e <- rd (entry h) (first h);
      do x <- arith64 d (now - fst e);
      Ok (x, h)
    else Ok (0, h)
  else Ok (0, h).

(* gutil_int_history_clear, gutil_history.c:164-171 *)
Definition clear (h : hist) : hist := set_fl h (-1) (-1).

(* gutil_history.c:190-201; returns dt and area *)
Fixpoint median_loop (fuel : nat) (d : dialect) (h : hist) (pos v t dt area : Z) : res (Z * Z) :=
  if pos =? last h then Ok (dt, area)
  else
    match fuel with
    | O => Fail NoFuel
    | S n =>
        do pos <- arith32 d (pos + 1);
        do pos <- RingModel.crem pos (max_size h);
        do e <- rd (entry h) pos;
        let (t1, v1) := (fst e, snd e) in
        do x <- arith64 d (t1 - t);
        do dt <- arith64 d (dt + x);
        do y <- arith32 d (v + v1);
        do z <- arith64 d (x * y);
        do area <- arith64 d (area + Z.quot z 2);
        median_loop n d h pos v1 t1 dt area
    end.

(* gutil_int_history_median_at, gutil_history.c:174-205. The quotient of two gint64 overflows only
   for the most negative area and dt = -1. *)
Definition median_at (d : dialect) (h : hist) : res Z :=
  if first h =? last h then do e <- rd (entry h) (last h); Ok (snd e)
  else
    do e <- rd (entry h) (first h);
    do (dt, area) <- median_loop (Z.to_nat (max_size h)) d h (first h) (snd e) (fst e) 0 0;
    if dt =? 0 then Fail DivByZero
    else do q <- arith64 d (Z.quot area dt); Ok (s32 q).

(* gutil_int_history_add, gutil_history.c:207-236 *)
Definition add (d : dialect) (h : hist) (value now : Z) : res (Z * hist) :=
  do (ok, h) <- (if last h <? 0 then Ok (false, h) else flush d h now);
  do (now, h) <-
    (if negb ok then Ok (now, set_fl h 0 0)
     else
       do e <- rd (entry h) (last h);
       if now >? fst e then
         do l <- arith32 d (last h + 1);
         do l <- RingModel.crem l (max_size h);
         let h := set_fl h (first h) l in
         if last h =? first h then
           do f <- arith32 d (first h + 1);
           do f <- RingModel.crem f (max_size h);
           Ok (now, set_fl h f (last h))
         else Ok (now, h)
       else if now <? fst e then Ok (fst e, h)
       else Ok (now, h));
  do ent <- wr (entry h) (last h) (now, value);
  let h := set_entry h ent in
  do m <- median_at d h;
  Ok (m, h).

(* gutil_int_history_median, gutil_history.c:238-251 *)
Definition median (d : dialect) (h : hist) (default now : Z) : res (Z * hist) :=
  if last h >=? 0 then
    do (ok, h) <- flush d h now;
    if ok then do m <- median_at d h; Ok (m, h) else Ok (default, h)
  else Ok (default, h).

(* ---------------- API calls ---------------- *)

Inductive op : Set := Add (v : Z) | Median (dflt : Z) | Size | Interval | Clear.

(* one call, made when the clock shows now; returns the result (0 for void) *)
Definition step (d : dialect) (h : hist) (o : op) (now : Z) : res (Z * hist) :=
  match o with
  | Add v => add d h v now
  | Median x => median d h x now
  | Size => size d h now
  | Interval => interval d h now
  | Clear => Ok (0, clear h)
  end.

Fixpoint run (d : dialect) (h : hist) (ops : list (op * Z)) : res (list Z * hist) :=
  match ops with
  | [] => Ok ([], h)
  | (o, now) :: t =>
      do (x, h) <- step d h o now;
      do (l, h) <- run d h t;
      Ok (x :: l, h)
  end.
