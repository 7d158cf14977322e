(* Model of the data block functions of /repo/src/gutil_misc.c *)
From Verif Require Import Base HexModel.

(* a pointer: NULL, or the memory readable from there *)
Definition ptr := option (list Z).

(* GUtilData, include/gutil_types.h; a GBytes has the same form (g_bytes_get_data delivers a pointer,
   NULL or not for an empty one, and a size) *)
Record gdata := mkData { bytes : ptr; size : Z }.

(* a pointer to such a structure: NULL, or an address and what is there *)
Definition dptr := option (Z * gdata).

(* memcmp of libc. ISO C: the pointers must be valid even if n is 0 (Strict); in practice they are
   not looked at (Wrap). All n bytes must be readable. *)
Fixpoint first_diff (a b : list Z) : Z :=
  match a, b with
  | x :: a, y :: b => if x =? y then first_diff a b else x - y
  | _, _ => 0
  end.

Definition memcmp (d : dialect) (a b : ptr) (n : Z) : res Z :=
  match a, b with
  | Some x, Some y =>
      if (n <=? len x) && (n <=? len y)
      then Ok (first_diff (firstn (Z.to_nat n) x) (firstn (Z.to_nat n) y))
      else Fail OobRead
  | _, _ =>
      match d with
      | Wrap => if n =? 0 then Ok 0 else Fail NullDeref
      | Strict => Fail NullDeref
      end
  end.

(* p + n; arithmetic on NULL delivers NULL here, whose use is caught by memcmp *)
Definition advance (p : ptr) (n : Z) : ptr :=
  match p with Some x => Some (skipn (Z.to_nat n) x) | None => None end.

(* gutil_data_equal, gutil_misc.c:364-378 *)
Definition data_equal (d : dialect) (p q : dptr) : res bool :=
  match p, q with
  | None, None => Ok true
  | Some (a, x), Some (b, y) =>
      if a =? b then Ok true
      else if size x =? size y then do c <- memcmp d (bytes x) (bytes y) (size x); Ok (c =? 0)
      else Ok false
  | _, _ => Ok false
  end.

(* gutil_data_has_prefix, gutil_misc.c:463-481 *)
Definition data_has_prefix (d : dialect) (p q : dptr) : res bool :=
  match p with
  | Some (_, x) =>
      match q with
      | Some (_, y) =>
          if size y <=? size x then do c <- memcmp d (bytes x) (bytes y) (size y); Ok (c =? 0)
          else Ok false
      | None => Ok false
      end
  | None => Ok (match q with None => true | Some _ => false end)
  end.

(* gutil_data_has_suffix, gutil_misc.c:483-501 *)
Definition data_has_suffix (d : dialect) (p q : dptr) : res bool :=
  match p with
  | Some (_, x) =>
      match q with
      | Some (_, y) =>
          if size y <=? size x then
            do c <- memcmp d (advance (bytes x) (size x - size y)) (bytes y) (size y); Ok (c =? 0)
          else Ok false
      | None => Ok false
      end
  | None => Ok (match q with None => true | Some _ => false end)
  end.

(* gutil_bytes_equal, gutil_misc.c:609-628 *)
Definition bytes_equal (d : dialect) (p : dptr) (data : ptr) (n : Z) : res bool :=
  match p, data with
  | Some (_, x), Some _ =>
      if size x =? n then
        if size x =? 0 then Ok true else do c <- memcmp d (bytes x) data n; Ok (c =? 0)
      else Ok false
  | None, None => Ok true
  | _, _ => Ok false
  end.

(* gutil_bytes_equal_data, gutil_misc.c:630-648 *)
Definition bytes_equal_data (d : dialect) (p q : dptr) : res bool :=
  match p, q with
  | Some (_, x), Some (_, y) =>
      if size x =? size y then
        if size x =? 0 then Ok true else do c <- memcmp d (bytes x) (bytes y) (size y); Ok (c =? 0)
      else Ok false
  | None, None => Ok true
  | _, _ => Ok false
  end.

(* gutil_bytes_has_prefix, gutil_misc.c:650-674 *)
Definition bytes_has_prefix (d : dialect) (p : dptr) (data : ptr) (n : Z) : res bool :=
  match p with
  | None => Ok false
  | Some (_, x) =>
      if n =? 0 then Ok true
      else if size x >=? n then do c <- memcmp d (bytes x) data n; Ok (c =? 0)
      else Ok false
  end.

(* gutil_bytes_has_suffix, gutil_misc.c:676-694 *)
Definition bytes_has_suffix (d : dialect) (p : dptr) (data : ptr) (n : Z) : res bool :=
  match p with
  | None => Ok false
  | Some (_, x) =>
      if n =? 0 then Ok true
      else if size x >=? n then
        do c <- memcmp d (advance (bytes x) (size x - n)) data n; Ok (c =? 0)
      else Ok false
  end.

(* ---------------- concatenation ---------------- *)

(* the result of a function that returns a GBytes: NULL, a new reference to an existing GBytes
   (by its address), or a new one with the given contents *)
Inductive gbytes : Type := NullBytes | RefBytes (addr : Z) | NewBytes (contents : list (option Z)).

(* memcpy into a fresh block at offset p. ISO C: NULL is not allowed even if n is 0 (Strict). *)
Definition copy_in (d : dialect) (buf : list (option Z)) (p : Z) (src : ptr) (n : Z) : res (list (option Z)) :=
  match src with
  | None => match d with Wrap => if n =? 0 then Ok buf else Fail NullDeref | Strict => Fail NullDeref end
  | Some x =>
      if n <=? len x then
        if (0 <=? p) && (p + n <=? len buf)
        then Ok (firstn (Z.to_nat p) buf ++ map Some (firstn (Z.to_nat n) x) ++ skipn (Z.to_nat (p + n)) buf)
        else Fail OobWrite
      else Fail OobRead
  end.

(* gutil_misc.c:525-535: total size, number of non-empty arrays, the last non-empty one *)
Fixpoint concat_count (args : list (Z * gdata)) (total count : Z) (non_empty : option Z) : Z * Z * option Z :=
  match args with
  | [] => (total, count, non_empty)
  | (a, x) :: t =>
      let total := u64 (total + size x) in
      if size x =? 0 then concat_count t total count non_empty
      else concat_count t total (u32 (count + 1)) (Some a)
  end.

(* gutil_misc.c:553-561 *)
Fixpoint concat_copy (d : dialect) (args : list (Z * gdata)) (buf : list (option Z)) (p : Z) : res (list (option Z)) :=
  match args with
  | [] => Ok buf
  | (_, x) :: t => do buf <- copy_in d buf p (bytes x) (size x); concat_copy d t buf (p + size x)
  end.

(* gutil_bytes_concat, gutil_misc.c:503-567; args are the arguments after the first, without the
   terminating NULL *)
Definition bytes_concat (d : dialect) (bytes1 : dptr) (args : list (Z * gdata)) : res gbytes :=
  match bytes1 with
  | None => Ok NullBytes
  | Some (a, x) =>
      let '(total, count, non_empty) :=
        if size x =? 0 then concat_count args (size x) 0 None else concat_count args (size x) 1 (Some a) in
      if count =? 0 then Ok (RefBytes a)
      else if count =? 1 then
        match non_empty with Some b => Ok (RefBytes b) | None => Fail NullDeref end
      else
        let buf := malloc total in
        do buf <- copy_in d buf 0 (bytes x) (size x);
        do buf <- concat_copy d args buf (size x);
        Ok (NewBytes buf)
  end.

(* ---------------- exclusive or ---------------- *)

(* the machine: size of an unsigned long and byte order *)
Record machine := mkMachine { word_size : Z; big_endian : bool }.

Fixpoint le_word (l : list Z) : Z := match l with [] => 0 | b :: t => b + 256 * le_word t end.
Fixpoint le_bytes (n : nat) (w : Z) : list Z :=
  match n with O => [] | S m => w mod 256 :: le_bytes m (w / 256) end.

(* loading an unsigned long from offset i of a block at the given address. ISO C: undefined if not
   aligned (Strict); most machines do not care (Wrap). *)
Definition load (d : dialect) (mc : machine) (addr : Z) (l : list Z) (i : Z) : res Z :=
  if match d with Strict => (addr + i) mod word_size mc =? 0 | Wrap => true end then
    if (0 <=? i) && (i + word_size mc <=? len l) then
      let b := slice l i (i + word_size mc) in
      Ok (le_word (if big_endian mc then rev b else b))
    else Fail OobRead
  else Fail Misaligned.

(* storing one; a fresh block from g_malloc is aligned *)
Definition save (mc : machine) (l : list (option Z)) (i : Z) (w : Z) : res (list (option Z)) :=
  if (0 <=? i) && (i + word_size mc <=? len l) then
    let b := le_bytes (Z.to_nat (word_size mc)) w in
    Ok (firstn (Z.to_nat i) l ++ map Some (if big_endian mc then rev b else b) ++ skipn (Z.to_nat (i + word_size mc)) l)
  else Fail OobWrite.

(* gutil_misc.c:589-592; i cannot wrap since size is at most the size of an object *)
Fixpoint xor_words (fuel : nat) (d : dialect) (mc : machine) (a1 : Z) (l1 : list Z) (a2 : Z) (l2 : list Z)
    (n i : Z) (out : list (option Z)) : res (Z * list (option Z)) :=
  if i + word_size mc <=? n then
    match fuel with
    | O => Fail NoFuel
    | S f =>
        do x <- load d mc a1 l1 i;
        do y <- load d mc a2 l2 i;
        do out <- save mc out i (Z.lxor x y);
        xor_words f d mc a1 l1 a2 l2 n (i + word_size mc) out
    end
  else Ok (i, out).

(* gutil_misc.c:598-600 *)
Fixpoint xor_bytes (fuel : nat) (l1 l2 : list Z) (n i : Z) (out : list (option Z)) : res (list (option Z)) :=
  if i <? n then
    match fuel with
    | O => Fail NoFuel
    | S f =>
        do x <- rd l1 i;
        do y <- rd l2 i;
        do out <- wr out i (Some (Z.lxor x y));
        xor_bytes f l1 l2 n (i + 1) out
    end
  else Ok out.

Definition block (p : ptr) : list Z := match p with Some l => l | None => [] end.

(* gutil_bytes_xor, gutil_misc.c:569-607. The addresses of the data (not of the GBytes) matter for
   the alignment. *)
Definition bytes_xor (d : dialect) (mc : machine) (data1 data2 : Z) (p q : dptr) : res gbytes :=
  match p, q with
  | Some (a, x), Some (b, y) =>
      let n := Z.min (size x) (size y) in
      if n =? 0 then Ok (RefBytes (if size x =? 0 then a else b))
      else
        do (i, out) <- xor_words (Z.to_nat n) d mc data1 (block (bytes x)) data2 (block (bytes y)) n 0 (malloc n);
        do out <- xor_bytes (Z.to_nat n) (block (bytes x)) (block (bytes y)) n i out;
        Ok (NewBytes out)
  | _, _ => Ok NullBytes
  end.

(* ---------------- ranges ---------------- *)

(* GUtilRange: offsets into a memory block; NULL is None *)
Record range := mkRange { r_ptr : option Z; r_end : Z }.

(* gutil_range_has_prefix, gutil_misc.c:773-787 *)
Definition range_has_prefix (d : dialect) (mem : list Z) (r : option range) (prefix : option gdata) : res bool :=
  match r, prefix with
  | Some r, Some p =>
      match r_ptr r with
      | None => Ok false
      | Some s =>
          if r_end r >? s then
            if r_end r - s >=? size p then
              do c <- memcmp d (Some (skipn (Z.to_nat s) mem)) (bytes p) (size p); Ok (c =? 0)
            else Ok false
          else Ok (size p =? 0)
      end
  | _, _ => Ok false
  end.

(* gutil_range_skip_prefix, gutil_misc.c:789-800 *)
Definition range_skip_prefix (d : dialect) (mem : list Z) (r : option range) (prefix : option gdata)
    : res (bool * option range) :=
  do b <- range_has_prefix d mem r prefix;
  match b, r, prefix with
  | true, Some r, Some p =>
      match r_ptr r with
      | Some s => Ok (true, Some (mkRange (Some (s + size p)) (r_end r)))
      | None => Fail NullDeref
      end
  | _, _, _ => Ok (false, r)
  end.

(* ---------------- copies and views ---------------- *)

(* gutil_data_new, gutil_misc.c:413-435: len is a guint. Returns the data pointer's target and the
   size; sizeof(GUtilData) is 16 and gsize has 64 bits. *)
Definition data_new (b : ptr) (n : Z) : res (option (list (option Z)) * Z) :=
  let total := u64 (n + 16) in
  match b with
  | Some _ =>
      do buf <- copy_in Strict (malloc (total - 16)) 0 b n;
      Ok (Some buf, n)
  | None => Ok (None, 0)
  end.

(* gutil_data_copy, gutil_misc.c:437-446: the gsize is converted to guint. None is NULL. *)
Definition data_copy (p : dptr) : res (option (option (list (option Z)) * Z)) :=
  match p with
  | Some (_, x) => do r <- data_new (bytes x) (u32 (size x)); Ok (Some r)
  | None => Ok None
  end.

(* gutil_data_from_string, gutil_misc.c:380-395 *)
Definition data_from_string (str : ptr) : res gdata :=
  match str with
  | Some s => do n <- strlen_loop s; Ok (mkData str n)
  | None => Ok (mkData None 0)
  end.

(* gutil_data_from_bytes, gutil_misc.c:397-411 *)
Definition data_from_bytes (p : dptr) : gdata :=
  match p with Some (_, x) => x | None => mkData None 0 end.

(* gutil_memdup, gutil_misc.c:733-747 *)
Definition memdup (p : ptr) (n : Z) : res (option (list (option Z))) :=
  match p with
  | Some _ => if n =? 0 then Ok None else do b <- copy_in Strict (malloc n) 0 p n; Ok (Some b)
  | None => Ok None
  end.

(* gutil_strlen0, gutil_misc.c:749-754 *)
Definition strlen0 (str : ptr) : res Z := match str with Some s => strlen_loop s | None => Ok 0 end.
