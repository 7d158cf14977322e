(* Model of /repo/src/gutil_objv.c *)
From Verif Require Import Base PtrvModel StrvModel.

(* The heap of objects: their numbers of references. Running finalizers is in FinalModel. *)
Definition objs := objects Z.

(* g_object_ref, g_object_unref *)
Definition obj_ref (h : objs) (x : nat) : res objs := do n <- look h x; Ok (upd h x (Some (n + 1))).
Definition obj_unref (h : objs) (x : nat) : res objs :=
  do n <- look h x; Ok (upd h x (if n =? 1 then None else Some (n - 1))).

(* lines 66-71: g_object_ref( *ptr++ = obj ) for all arguments *)
Fixpoint new_loop (h : objs) (b : blk) (k : Z) (args : list nat) : res (objs * blk * Z) :=
  match args with
  | [] => Ok (h, b, k)
  | x :: t => do b <- wr b k (CPtr x); do h <- obj_ref h x; new_loop h b (k + 1) t
  end.

(* lines 39-75; the arguments in front of the terminating NULL *)
Definition objv_new (h : objs) (args : list nat) : res (objs * vec) :=
  let n := u64 (len args) in
  let b := renew None (u64 (n + 1)) in
  do (h, b, k) <- new_loop h b 0 args;
  do b <- wr b k CNull;
  Ok (h, Some b).

(* lines 77-87; the array is gone afterwards *)
Definition objv_free (h : objs) (v : vec) : res objs :=
  match v with Some b => walk obj_unref h b | None => Ok h end.

(* lines 98-101 *)
Fixpoint copy_loop (h : objs) (b : blk) (n : Z) : res (objs * Z) :=
  match b with
  | [] => Fail OobRead
  | c :: t =>
      do p <- as_ptr c;
      match p with Some x => do h <- obj_ref h x; copy_loop h t (u64 (n + 1)) | None => Ok (h, n) end
  end.

(* lines 89-106; gutil_memdup (gutil_misc.c:733-747) of n + 1 > 0 cells *)
Definition objv_copy (h : objs) (v : vec) : res (objs * vec) :=
  match v with
  | Some b =>
      do (h, n) <- copy_loop h b 0;
      let m := u64 (n + 1) in
      if m <=? len b then Ok (h, Some (slice b 0 m)) else Fail OobRead
  | None => Ok (h, None)
  end.

(* lines 108-121 *)
Definition objv_add (h : objs) (v : vec) (obj : option nat) : res (objs * vec) :=
  match obj with
  | Some x =>
      do n <- ptrv_length v;
      let b := renew v (u64 (n + 2)) in
      do b <- wr b n (CPtr x);
      do h <- obj_ref h x;
      do b <- wr b (u64 (n + 1)) CNull;
      Ok (h, Some b)
  | None => Ok (h, v)
  end.

(* lines 123-145 *)
Definition objv_insert (h : objs) (v : vec) (obj : option nat) (pos : Z) : res (objs * vec) :=
  match obj with
  | Some x =>
      do n <- ptrv_length v;
      let b := renew v (u64 (n + 2)) in
      if pos >=? n then
        do b <- wr b n (CPtr x);
        do h <- obj_ref h x;
        do b <- wr b (u64 (n + 1)) CNull;
        Ok (h, Some b)
      else
        do b <- move b (u64 (pos + 1)) pos (u64 (u64 (n - pos) + 1));
        do b <- wr b pos (CPtr x);
        do h <- obj_ref h x;
        Ok (h, Some b)
  | None => Ok (h, v)
  end.

(* line 162-164 *)
Fixpoint append_loop (h : objs) (b : blk) (k : Z) (src : blk) : res (objs * blk * Z) :=
  match src with
  | [] => Fail OobRead
  | c :: t =>
      do p <- as_ptr c;
      match p with
      | Some x => do h <- obj_ref h x; do b <- wr b k (CPtr x); append_loop h b (k + 1) t
      | None => Ok (h, b, k)
      end
  end.

(* lines 147-168; a1 and a2 are the addresses of the arrays: g_renew has freed (or moved) the first one *)
Definition objv_append (h : objs) (a1 : Z) (v : vec) (a2 : Z) (objs : vec) : res (objects Z * vec) :=
  do n2 <- ptrv_length objs;
  if n2 >? 0 then
    do n1 <- ptrv_length v;
    let b := renew v (u64 (u64 (n1 + n2) + 1)) in
    match objs with
    | Some src =>
        if a1 =? a2 then Fail UseAfterFree
        else
          do (h, b, k) <- append_loop h b n1 src;
          do b <- wr b k CNull;
          Ok (h, Some b)
    | None => Fail NullDeref
    end
  else Ok (h, v).

(* lines 303-309 and 330-336 *)
Fixpoint ofind_loop (x : nat) (b : blk) (i : Z) : res Z :=
  match b with
  | [] => Fail OobRead
  | c :: t =>
      do p <- as_ptr c;
      match p with Some y => if Nat.eqb y x then Ok i else ofind_loop x t (i + 1) | None => Ok (-1) end
  end.

(* lines 297-313 *)
Definition objv_find (v : vec) (obj : option nat) : res Z :=
  match v, obj with
  | Some b, Some x => ofind_loop x b 0
  | _, _ => Ok (-1)
  end.

(* objv[--i] == obj, line 177 *)
Definition is_obj (x y : nat) : res bool := Ok (Nat.eqb y x).

(* lines 196-224 *)
Definition objv_remove (h : objs) (v : vec) (obj : option nat) (all : bool) : res (objs * vec) :=
  match v, obj with
  | Some b, Some x =>
      do pos <- objv_find v obj;
      if pos >=? 0 then
        do n <- ptrv_length v;
        do (h, b) <- remove_impl u64 obj_unref h b pos n;
        if all then
          let n := u64 (n - 1) in
          let l := u64 (n - pos) in
          do (h, b) <- remove_rest (length b) u64 (fun _ => is_obj x) obj_unref h b pos n l;
          Ok (h, Some b)
        else Ok (h, Some b)
      else Ok (h, v)
  | _, _ => Ok (h, v)
  end.

(* lines 226-239 *)
Definition objv_remove_at (h : objs) (v : vec) (pos : Z) : res (objs * vec) :=
  match v with
  | Some b =>
      do n <- ptrv_length v;
      if pos <? n then
        do (h, b) <- remove_impl u64 obj_unref h b pos n;
        Ok (h, Some b)
      else Ok (h, v)
  | None => Ok (h, v)
  end.

(* lines 241-257; the loop is that of gutil_strv_at and may not end: i is a guint and pos a gsize *)
Definition objv_at (fuel : nat) (v : vec) (pos : Z) : res (option nat) :=
  match v with
  | Some b => do i <- at_loop fuel b 0 pos; if i =? pos then at_ b pos else Ok None
  | None => Ok None
  end.

(* line 272 *)
Fixpoint oequal_loop (fuel : nat) (b1 b2 : blk) (n : Z) : res Z :=
  match fuel with
  | O => Fail NoFuel
  | S f =>
      do p <- at_ b1 n;
      match p with
      | None => Ok n
      | Some x =>
          do q <- at_ b2 n;
          match q with
          | Some y => if Nat.eqb x y then oequal_loop f b1 b2 (u64 (n + 1)) else Ok n
          | None => Ok n
          end
      end
  end.

(* lines 259-276; a1 and a2 are the addresses of the arrays *)
Definition objv_equal (a1 : Z) (v1 : vec) (a2 : Z) (v2 : vec) : res bool :=
  match v1, v2 with
  | None, None => Ok true
  | None, Some b => do p <- at_ b 0; Ok (match p with None => true | _ => false end)
  | Some b, None => do p <- at_ b 0; Ok (match p with None => true | _ => false end)
  | Some b1, Some b2 =>
      if a1 =? a2 then Ok true
      else
        do n <- oequal_loop (S (length b1)) b1 b2 0;
        do p <- at_ b1 n;
        match p with
        | None => do q <- at_ b2 n; Ok (match q with None => true | Some _ => false end)
        | Some _ => Ok false
        end
  end.

(* lines 278-283 *)
Definition objv_first (v : vec) : res (option nat) := match v with Some b => at_ b 0 | None => Ok None end.

(* lines 291-292: while (ptr[1]) ptr++; return *ptr *)
Fixpoint olast_loop (b : blk) : res (option nat) :=
  match b with
  | [] => Fail OobRead
  | c :: t => do p <- at_ t 0; match p with Some _ => olast_loop t | None => as_ptr c end
  end.

(* lines 285-296 *)
Definition objv_last (v : vec) : res (option nat) :=
  match v with
  | Some b => do p <- at_ b 0; match p with Some _ => olast_loop b | None => Ok None end
  | None => Ok None
  end.

(* lines 315-323 *)
Definition objv_find_last (v : vec) (obj : option nat) : res Z :=
  match v, obj with
  | Some b, Some x => do n <- ptrv_length v; find_last_impl (is_obj x) b 0 (Z.to_nat n)
  | _, _ => Ok (-1)
  end.

(* lines 325-341 *)
Definition objv_contains (v : vec) (obj : option nat) : res bool :=
  match v, obj with
  | Some b, Some x => do i <- ofind_loop x b 0; Ok (negb (i =? -1))
  | _, _ => Ok false
  end.

(* ---------------- programs ---------------- *)
(* A program with any number of arrays and references of its own *)
Inductive cmd : Set :=
| ONew (args : list nat) | OCopy (i : nat) | OAdd (i x : nat) | OInsert (i x : nat) (pos : Z) | OAppend (i j : nat)
| ORemove (i x : nat) (all : bool) | ORemoveAt (i : nat) (pos : Z) | OFree (i : nat)
| ORef (x : nat) | OUnref (x : nat).

(* objects and arrays (None: freed). The address of array i is i. *)
Definition state := (objs * list (option vec))%type.
Definition arr (vs : list (option vec)) (i : nat) : res vec := look vs i.

Definition run1 (s : state) (c : cmd) : res state :=
  let (h, vs) := s in
  match c with
  | ONew args => do (h, v) <- objv_new h args; Ok (h, vs ++ [Some v])
  | OCopy i => do v <- arr vs i; do (h, v) <- objv_copy h v; Ok (h, vs ++ [Some v])
  | OAdd i x => do v <- arr vs i; do (h, v) <- objv_add h v (Some x); Ok (h, upd vs i (Some v))
  | OInsert i x pos => do v <- arr vs i; do (h, v) <- objv_insert h v (Some x) pos; Ok (h, upd vs i (Some v))
  | OAppend i j =>
      do v <- arr vs i; do w <- arr vs j;
      do (h, v) <- objv_append h (Z.of_nat i) v (Z.of_nat j) w; Ok (h, upd vs i (Some v))
  | ORemove i x all => do v <- arr vs i; do (h, v) <- objv_remove h v (Some x) all; Ok (h, upd vs i (Some v))
  | ORemoveAt i pos => do v <- arr vs i; do (h, v) <- objv_remove_at h v pos; Ok (h, upd vs i (Some v))
  | OFree i => do v <- arr vs i; do h <- objv_free h v; Ok (h, upd vs i None)
  | ORef x => do h <- obj_ref h x; Ok (h, vs)
  | OUnref x => do h <- obj_unref h x; Ok (h, vs)
  end.
