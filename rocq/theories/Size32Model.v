(* Model of the functions of /repo/src/gutil_misc.c which compute the size of what they allocate, on a platform where
   pointers and gsize have 32 bits. Everything else is the same as in HexModel and DataModel. *)
From Verif Require Import Base HexModel DataModel.

(* gutil_bin2hex, gutil_misc.c:144-167. Line 155: the size is computed modulo 2^32. *)
Definition bin2hex32 (data : list Z) (n : Z) (upper : bool) : res (list (option Z)) :=
  let map := if upper then hex_upper else hex_lower in
  do (out, p) <- bin2hex_loop (Z.to_nat n) map data 0 n (malloc (u32 (2 * n + 1))) 0;
  wr out p (Some 0).

(* gutil_data2hex, gutil_misc.c:169-175 *)
Definition data2hex32 (data : option (list Z * Z)) (upper : bool) : res (option (list (option Z))) :=
  match data with
  | None => Ok None
  | Some (b, n) => do x <- bin2hex32 b n upper; Ok (Some x)
  end.

(* gutil_misc.c:525-535 *)
Fixpoint concat_count32 (args : list (Z * gdata)) (total count : Z) (non_empty : option Z) : Z * Z * option Z :=
  match args with
  | [] => (total, count, non_empty)
  | (a, x) :: t =>
      let total := u32 (total + size x) in
      if size x =? 0 then concat_count32 t total count non_empty
      else concat_count32 t total (u32 (count + 1)) (Some a)
  end.

(* gutil_bytes_concat, gutil_misc.c:503-567; args are the arguments after the first, without the terminating NULL *)
Definition bytes_concat32 (d : dialect) (bytes1 : dptr) (args : list (Z * gdata)) : res gbytes :=
  match bytes1 with
  | None => Ok NullBytes
  | Some (a, x) =>
      let '(total, count, non_empty) := if size x =? 0 then concat_count32 args (size x) 0 None else concat_count32 args (size x) 1 (Some a) in
      if count =? 0 then Ok (RefBytes a)
      else if count =? 1 then match non_empty with Some b => Ok (RefBytes b) | None => Fail NullDeref end
      else
        let buf := malloc total in
        do buf <- copy_in d buf 0 (bytes x) (size x);
        do buf <- concat_copy d args buf (size x);
        Ok (NewBytes buf)
  end.

(* gutil_data_new, gutil_misc.c:413-435: sizeof(GUtilData) is 8. A block which is too small for the structure is a fault. *)
Definition data_new32 (b : ptr) (n : Z) : res (option (list (option Z)) * Z) :=
  let total := u32 (n + 8) in
  if total <? 8 then Fail OobWrite
  else
    match b with
    | Some _ =>
        do buf <- copy_in Strict (malloc (total - 8)) 0 b n;
        Ok (Some buf, n)
    | None => Ok (None, 0)
    end.

(* gutil_data_copy, gutil_misc.c:437-446: gsize and guint have the same size *)
Definition data_copy32 (p : dptr) : res (option (option (list (option Z)) * Z)) :=
  match p with
  | Some (_, x) => do r <- data_new32 (bytes x) (u32 (size x)); Ok (Some r)
  | None => Ok None
  end.
