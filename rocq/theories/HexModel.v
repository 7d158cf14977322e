(* Model of the hexadecimal functions of /repo/src/gutil_misc.c *)
From Verif Require Import Base.

(* A char is stored as its byte 0..255; reading it as a (signed) char *)
Definition s8 (b : Z) : Z := if b <? 128 then b else b - 256.

(* GLib's g_ascii_isxdigit looks at the byte only *)
Definition isxdigit (c : Z) : bool :=
  ((48 <=? c) && (c <=? 57)) || ((65 <=? c) && (c <=? 70)) || ((97 <=? c) && (c <=? 102)).

(* the table hex[], gutil_misc.c:121-129 *)
Definition hex_table : list Z :=
  [0; 1; 2; 3; 4; 5; 6; 7;  8; 9; 0; 0; 0; 0; 0; 0;
   0;10;11;12;13;14;15; 0;  0; 0; 0; 0; 0; 0; 0; 0;
   0; 0; 0; 0; 0; 0; 0; 0;  0; 0; 0; 0; 0; 0; 0; 0;
   0;10;11;12;13;14;15].

(* gutil_misc.c:120-138: the loop from index i of str, writing at p; returns whether it succeeded.
   A gssize i never exceeds the (even) len, it cannot overflow. *)
Fixpoint hex2bin_loop (fuel : nat) (str : list Z) (n : Z) (data : list (option Z)) (i p : Z)
    : res (bool * list (option Z)) :=
  if i <? n then
    match fuel with
    | O => Fail NoFuel
    | S f =>
        do x1 <- rd str i;
        do x2 <- rd str (i + 1);
        if isxdigit x1 && isxdigit x2 then
          do h <- rd hex_table (s8 x1 - 48);
          do l <- rd hex_table (s8 x2 - 48);
          do data <- wr data p (Some (u8 (Z.shiftl h 4 + l)));
          hex2bin_loop f str n data (i + 2) (p + 1)
        else Ok (false, data)
    end
  else Ok (true, data).

(* gutil_hex2bin, gutil_misc.c:110-142. None is a NULL pointer. The cells of the destination which
   were never written are None. *)
Definition hex2bin (str : option (list Z)) (n : Z) (data : option (list (option Z)))
    : res (bool * option (list (option Z))) :=
  match str, data with
  | Some s, Some b =>
      if (n >? 0) && Z.even n then
        do (ok, b) <- hex2bin_loop (Z.to_nat n) s n b 0 0;
        Ok (ok, Some b)
      else Ok (false, data)
  | _, _ => Ok (false, data)
  end.

Definition malloc (n : Z) : list (option Z) := repeat None (Z.to_nat n).

Definition hex_lower : list Z := [48;49;50;51;52;53;54;55;56;57;97;98;99;100;101;102].
Definition hex_upper : list Z := [48;49;50;51;52;53;54;55;56;57;65;66;67;68;69;70].

(* gutil_misc.c:158-163 *)
Fixpoint bin2hex_loop (fuel : nat) (map data : list Z) (i e : Z) (out : list (option Z)) (p : Z)
    : res (list (option Z) * Z) :=
  if i <? e then
    match fuel with
    | O => Fail NoFuel
    | S f =>
        do b <- rd data i;
        do c1 <- rd map (Z.land (Z.shiftr b 4) 15);
        do out <- wr out p (Some c1);
        do c2 <- rd map (Z.land b 15);
        do out <- wr out (p + 1) (Some c2);
        bin2hex_loop f map data (i + 1) e out (p + 2)
    end
  else Ok (out, p).

(* gutil_bin2hex, gutil_misc.c:144-167; returns the allocated block *)
Definition bin2hex (data : list Z) (n : Z) (upper : bool) : res (list (option Z)) :=
  let map := if upper then hex_upper else hex_lower in
  do (out, p) <- bin2hex_loop (Z.to_nat n) map data 0 n (malloc (u64 (2 * n + 1))) 0;
  wr out p (Some 0).

(* gutil_data2hex, gutil_misc.c:169-175 *)
Definition data2hex (data : option (list Z * Z)) (upper : bool) : res (option (list (option Z))) :=
  match data with
  | None => Ok None
  | Some (b, n) => do x <- bin2hex b n upper; Ok (Some x)
  end.

(* libc strlen on a block *)
Fixpoint strlen_loop (l : list Z) : res Z :=
  match l with
  | [] => Fail OobRead
  | c :: t => if c =? 0 then Ok 0 else do n <- strlen_loop t; Ok (1 + n)
  end.

(* gutil_hex2bytes, gutil_misc.c:177-195; returns the contents of the new GBytes. The size of a
   string fits gssize. *)
Definition hex2bytes (str : option (list Z)) (n : Z) : res (option (list (option Z))) :=
  match str with
  | None => Ok None
  | Some s =>
      do n <- (if n <? 0 then strlen_loop s else Ok n);
      if (n >? 0) && Z.even n then
        do (ok, d) <- hex2bin str n (Some (malloc (n / 2)));
        Ok (if ok then d else None)
      else Ok None
  end.

(* isprint of libc in the current locale; ISO C: the argument must be EOF (-1) or an unsigned char.
   glibc's tables also cover -128..-2: that is the reading Wrap. *)
Definition libc_isprint (d : dialect) (isp : Z -> bool) (c : Z) : res bool :=
  match d with
  | Wrap => Ok (isp c)
  | Strict => if c <? -1 then Fail OobRead else Ok (isp c)
  end.

(* gutil_misc.c:216-230; i counts up to GUTIL_HEXDUMP_MAXBYTES (16), n iterations are left *)
Fixpoint hexdump_loop (n : nat) (data : list Z) (sz i : Z) (buf : list (option Z)) (p : Z)
    : res (list (option Z) * Z) :=
  match n with
  | O => Ok (buf, p)
  | S m =>
      do (buf, p) <-
        (if i >? 0 then
           do buf <- wr buf p (Some 32);
           if i =? 8 then do buf <- wr buf (p + 1) (Some 32); Ok (buf, p + 2)
           else Ok (buf, p + 1)
         else Ok (buf, p));
      do (buf, p) <-
        (if i <? sz then
           do b <- rd data i;
           do c1 <- rd hex_lower (Z.land (Z.shiftr b 4) 15);
           do buf <- wr buf p (Some c1);
           do c2 <- rd hex_lower (Z.land b 15);
           do buf <- wr buf (p + 1) (Some c2);
           Ok (buf, p + 2)
         else
           do buf <- wr buf p (Some 32);
           do buf <- wr buf (p + 1) (Some 32);
           Ok (buf, p + 2));
      hexdump_loop m data sz (i + 1) buf p
  end.

(* gutil_misc.c:236-240; n iterations are left *)
Fixpoint hexdump_text (d : dialect) (isp : Z -> bool) (n : nat) (data : list Z) (i : Z)
    (buf : list (option Z)) (p : Z) : res (list (option Z) * Z) :=
  match n with
  | O => Ok (buf, p)
  | S m =>
      do c <- rd data i;
      do (buf, p) <- (if i =? 8 then do buf <- wr buf p (Some 32); Ok (buf, p + 1) else Ok (buf, p));
      do pr <- libc_isprint d isp (s8 c);
      do buf <- wr buf p (Some (if pr then c else 46));
      hexdump_text d isp m data (i + 1) buf (p + 1)
  end.

(* gutil_hexdump, gutil_misc.c:204-244 *)
Definition hexdump (d : dialect) (isp : Z -> bool) (buf : list (option Z)) (data : list Z) (sz : Z)
    : res (Z * list (option Z)) :=
  let dumped := Z.min sz 16 in
  do (buf, p) <- hexdump_loop 16 data sz 0 buf 0;
  do buf <- wr buf p (Some 32);
  do buf <- wr buf (p + 1) (Some 32);
  do buf <- wr buf (p + 2) (Some 32);
  do buf <- wr buf (p + 3) (Some 32);
  do (buf, p) <- hexdump_text d isp (Z.to_nat dumped) data 0 buf (p + 4);
  do buf <- wr buf p (Some 0);
  Ok (dumped, buf).
