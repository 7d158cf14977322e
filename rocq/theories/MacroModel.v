(* Model of the macros of /repo/include/gutil_macros.h and /repo/include/gutil_version.h *)
From Coq Require Import String Ascii.
From Verif Require Import Base.
From Coq Require Import List.
Import ListNotations.
Open Scope Z_scope.

(* The types an operand has after the integer promotions: int, unsigned int, and the 64 bit ones *)
Inductive ctype : Set := TInt | TUint | TInt64 | TUint64.

(* a value converted to an unsigned type, or the result of an operation of a signed type *)
Definition fit (d : dialect) (t : ctype) (z : Z) : res Z :=
  match t with
  | TInt => arith32 d z
  | TUint => Ok (u32 z)
  | TInt64 => arith64 d z
  | TUint64 => Ok (u64 z)
  end.

(* gutil_macros.h:41-43: ((value)+k) & ~k. k and ~k (which is -k-1) are int and are converted to the
   type of the value, which is the type of the result. *)
Definition g_align (d : dialect) (t : ctype) (k value : Z) : res Z :=
  do s <- fit d t (value + k);
  do m <- fit d t (- k - 1);
  Ok (Z.land s m).
Definition G_ALIGN2 (d : dialect) (t : ctype) (value : Z) : res Z := g_align d t 1 value.
Definition G_ALIGN4 (d : dialect) (t : ctype) (value : Z) : res Z := g_align d t 3 value.
Definition G_ALIGN8 (d : dialect) (t : ctype) (value : Z) : res Z := g_align d t 7 value.

(* gutil_version.h:57-60, the arguments having the type t. Shifting an int so that the result does
   not fit is undefined. *)
Definition version_ (d : dialect) (t : ctype) (v1 v2 v3 : Z) : res Z :=
  do a <- fit d t (Z.shiftl (Z.land v1 127) 24);
  do b <- fit d t (Z.shiftl (Z.land v2 4095) 12);
  Ok (Z.lor (Z.lor a b) (Z.land v3 4095)).
(* gutil_version.h:62-64 *)
Definition version_major_ (v : Z) : Z := Z.land (Z.shiftr v 24) 127.
Definition version_minor_ (v : Z) : Z := Z.land (Z.shiftr v 12) 4095.
Definition version_micro_ (v : Z) : Z := Z.land v 4095.

(* gutil_version.h:47-50 and the words made of them, lines 67-72; gutil_version.c:39-41 has the same
   numbers, of type guint *)
Definition MAJOR : Z := 1.
Definition MINOR : Z := 0.
Definition MICRO : Z := 79.
Definition VERSION_STRING : string := "1.0.79".
Definition GUTIL_VERSION (d : dialect) : res Z := version_ d TInt MAJOR MINOR MICRO.
Definition gutil_version (d : dialect) : res Z := version_ d TUint MAJOR MINOR MICRO.

(* gutil_version.h:75-85: the micro version in the name GUTIL_VERSION_1_0_x and what it stands for *)
Definition specific_versions : list (Z * string) :=
  [(69, "GUTIL_VERSION_(1,0,69)"); (70, "GUTIL_VERSION_(1,0,70)"); (71, "GUTIL_VERSION_(1,0,71)");
   (72, "GUTIL_VERSION_(1,0,72)"); (73, "GUTIL_VERSION_(1,0,73)"); (74, "GUTIL_VERSION_(1,0,74)");
   (75, "GUTIL_VERSION_(1,0,75))"); (76, "GUTIL_VERSION_(1,0,76))"); (77, "GUTIL_VERSION_(1,0,77))");
   (78, "GUTIL_VERSION_(1,0,78))"); (79, "GUTIL_VERSION_(1,0,79))")]%string.
