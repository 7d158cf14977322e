(* Model of /repo/src/gutil_datapack.c *)
From Verif Require Import Base.

(* GUtilRange (include/gutil_types.h:58-61): a memory block and two offsets into it.
   Simplification: pointers are offsets (any integer) from the start of one block; the
   address space is flat and wrap-around of the address itself is not modelled.
   Forming an out of bounds pointer is not a fault, dereferencing it is. *)
Record range := mkRange { r_mem : list Z; r_ptr : Z; r_end : Z }.

(* GUtilData (include/gutil_types.h:53-56) whose bytes are at an offset of a block;
   d_off = None is the NULL pointer. *)
Record data := mkData { d_off : option Z; d_size : Z }.

(* An output parameter: None if the caller passes NULL, otherwise the variable's value.
   [store] is `if (out) *out = v` *)
Definition store {A} (out : option A) (v : A) : option A :=
  match out with None => None | Some _ => Some v end.

(* ---------------- sizes ---------------- *)

(* gutil_datapack.c:67-71: while (value != -1) *)
Fixpoint ssize_neg (fuel : nat) (value msc n : Z) : res (Z * Z) :=
  match fuel with
  | O => Fail NoFuel
  | S f =>
      if value =? -1 then Ok (msc, n)
      else ssize_neg f (Z.shiftr value 7) (Z.land value 0x7f) (n + 1)
  end.

(* gutil_datapack.c:76-80: while (value) *)
Fixpoint ssize_pos (fuel : nat) (value msc n : Z) : res (Z * Z) :=
  match fuel with
  | O => Fail NoFuel
  | S f =>
      if value =? 0 then Ok (msc, n)
      else ssize_pos f (Z.shiftr value 7) (Z.land value 0x7f) (n + 1)
  end.

(* gutil_signed_mbn_size, gutil_datapack.c:59-86. Fuel 11 covers all 64-bit values. *)
Definition signed_mbn_size (value : Z) : res Z :=
  let msc := Z.land value 0x7f in
  let value := Z.shiftr value 7 in
  if value <? 0 then
    do (msc, n) <- ssize_neg 11 value msc 1;
    Ok (if Z.land msc 0x40 =? 0 then n + 1 else n)
  else
    do (msc, n) <- ssize_pos 11 value msc 1;
    Ok (if negb (Z.land msc 0x40 =? 0) then n + 1 else n).

(* gutil_datapack.c:247-249: for (n = 1; value; n++) *)
Fixpoint usize_loop (fuel : nat) (value n : Z) : res Z :=
  match fuel with
  | O => Fail NoFuel
  | S f => if value =? 0 then Ok n else usize_loop f (Z.shiftr value 7) (n + 1)
  end.

(* gutil_unsigned_mbn_size, gutil_datapack.c:240-251 *)
Definition unsigned_mbn_size (value : Z) : res Z :=
  usize_loop 11 (Z.shiftr value 7) 1.

(* ---------------- encoders ---------------- *)

(* gutil_datapack.c:111-114 and 276-279: while (n) { ptr[--n] = value | 0x80; ... }
   ptr is buf + off. >> on gint64 is an arithmetic shift (gcc), Z.shiftr is the same. *)
Fixpoint enc_loop (n : nat) (buf : list Z) (off value : Z) : res (list Z * Z) :=
  match n with
  | O => Ok (buf, value)
  | S m =>
      do buf <- wr buf (off + Z.of_nat m) (u8 (Z.lor value 0x80));
      enc_loop m buf off (Z.shiftr value 7)
  end.

(* gutil_unsigned_mbn_encode2, gutil_datapack.c:262-282; buf + off is the C buf *)
Definition unsigned_mbn_encode2 (buf : list Z) (off value size : Z) : res (list Z * Z) :=
  if size >? 0 then
    do buf <- wr buf (off + (size - 1)) (u8 (Z.land value 0x7f));
    do (buf, _) <- enc_loop (Z.to_nat (size - 1)) buf off (Z.shiftr value 7);
    Ok (buf, size)
  else Ok (buf, size).

(* gutil_unsigned_mbn_encode, gutil_datapack.c:253-260 *)
Definition unsigned_mbn_encode (buf : list Z) (off value : Z) : res (list Z * Z) :=
  do size <- unsigned_mbn_size value;
  unsigned_mbn_encode2 buf off value size.

(* gutil_signed_mbn_encode2, gutil_datapack.c:97-127. size * 7 is computed in guint. *)
Definition signed_mbn_encode2 (buf : list Z) (off value size : Z) : res (list Z * Z) :=
  if size >? 0 then
    do buf <- wr buf (off + (size - 1)) (u8 (Z.land value 0x7f));
    do (buf, value) <- enc_loop (Z.to_nat (size - 1)) buf off (Z.shiftr value 7);
    if value <? 0 then
      if u32 (size * 7) >? 64 then
        do s <- one_shl32 (u32 (64 - u32 ((size - 1) * 7)));
        do b <- rd buf off;
        do buf <- wr buf off (u8 (Z.lor b (Z.lnot (s - 1))));
        Ok (buf, size)
      else Ok (buf, size)
    else Ok (buf, size)
  else Ok (buf, size).

(* gutil_signed_mbn_encode, gutil_datapack.c:88-95 *)
Definition signed_mbn_encode (buf : list Z) (off value : Z) : res (list Z * Z) :=
  do size <- signed_mbn_size value;
  signed_mbn_encode2 buf off value size.

(* ---------------- decoders ---------------- *)

(* How the loop of the decoders ends *)
Inductive loop_end : Set :=
| TooMany                              (* return FALSE from inside the loop *)
| LoopEnd (last off nbits value : Z).

(* gutil_datapack.c:144-153 and 299-308 (the two loops are identical).
   The loop ends after 9 rounds at the latest, hence fuel 11 is given by the callers. *)
Fixpoint dec_loop (fuel : nat) (r : range) (last off nbits value : Z) : res loop_end :=
  match fuel with
  | O => Fail NoFuel
  | S f =>
      if r_ptr r + off <? r_end r then
        do last <- rd (r_mem r) (r_ptr r + off);
        let off := off + 1 in
        if Z.land last 0x80 =? 0 then Ok (LoopEnd last off nbits value)
        else
          let value := Z.lor (u64 (Z.shiftl value 7)) (Z.land last 0x7f) in
          if nbits + 7 <=? 64 then dec_loop f r last off (nbits + 7) value
          else Ok TooMany
      else Ok (LoopEnd last off nbits value)
  end.

(* in->ptr += off *)
Definition advance (r : range) (off : Z) : range :=
  mkRange (r_mem r) (r_ptr r + off) (r_end r).

(* gutil_unsigned_mbn_decode, gutil_datapack.c:284-334 *)
Definition unsigned_mbn_decode (r : range) (out : option Z) : res (bool * range * option Z) :=
  if r_ptr r <? r_end r then
    do last <- rd (r_mem r) (r_ptr r);
    if negb (Z.land last 0x80 =? 0) then
      let msc := last in
      do e <- dec_loop 11 r last 1 7 (Z.land last 0x7f);
      match e with
      | TooMany => Ok (false, r, out)
      | LoopEnd last off nbits value =>
          if Z.land last 0x80 =? 0 then
            let value := Z.lor (u64 (Z.shiftl value 7)) last in
            do fits <- (if nbits + 7 <? 64 then Ok true
                        else do s <- one_shl32 (64 - nbits);
                             Ok (Z.land msc (Z.lnot (s - 1)) =? 0x80));
            if fits then Ok (true, advance r off, store out value)
            else Ok (false, r, out)
          else Ok (false, r, out)
      end
    else Ok (true, advance r 1, store out last)
  else Ok (false, r, out).

(* gutil_signed_mbn_decode, gutil_datapack.c:129-205. The conversion of guint64 to gint64
   (implementation defined) is modulo 2^64 as in gcc. *)
Definition signed_mbn_decode (d : dialect) (r : range) (out : option Z)
  : res (bool * range * option Z) :=
  if r_ptr r <? r_end r then
    do last <- rd (r_mem r) (r_ptr r);
    if negb (Z.land last 0x80 =? 0) then
      let msc := last in
      do e <- dec_loop 11 r last 1 7 (Z.land last 0x7f);
      match e with
      | TooMany => Ok (false, r, out)
      | LoopEnd last off nbits value =>
          if Z.land last 0x80 =? 0 then
            let value := Z.lor (u64 (Z.shiftl value 7)) last in
            if negb (Z.land msc 0x40 =? 0) then
              (* Negative number *)
              if nbits + 7 <? 64 then
                match out with
                | Some _ =>
                    do s <- one_shl64 d (nbits + 7);
                    do m <- arith64 d (s - 1);
                    Ok (true, advance r off, Some (s64 (Z.lor value (u64 (Z.lnot m)))))
                | None => Ok (true, advance r off, None)
                end
              else
                do s <- one_shl32 (64 - nbits);
                if Z.lor msc (s - 1) =? 0xff then
                  Ok (true, advance r off, store out (s64 value))
                else Ok (false, r, out)
            else
              do fits <- (if nbits + 7 <? 64 then Ok true
                          else do s <- one_shl32 (64 - nbits);
                               Ok (Z.land msc (Z.lnot (s - 1)) =? 0x80));
              if fits then Ok (true, advance r off, store out (s64 value))
              else Ok (false, r, out)
          else Ok (false, r, out)
      end
    else
      (* line 196: *out |= (-1 ^ 0x7f) *)
      Ok (true, advance r 1,
          store out (if negb (Z.land last 0x40 =? 0)
                     then Z.lor last (Z.lxor (-1) 0x7f) else last))
  else Ok (false, r, out).

(* The range set up by decode2 and tlvs_decode (gutil_datapack.c:216, 345, 439).
   The block is given by its contents; None is a NULL GUtilData. *)
Definition whole (bytes : list Z) : range := mkRange bytes 0 (len bytes).

(* gutil_unsigned_mbn_decode2, gutil_datapack.c:336-354.
   The local variable `value` is uninitialised before the call: 0 stands for it and is
   never returned. *)
Definition unsigned_mbn_decode2 (bytes : option (list Z)) (out : option Z) : res (bool * option Z) :=
  match bytes with
  | None => Ok (false, out)
  | Some b =>
      if len b =? 0 then Ok (false, out)
      else
        do (ok, r, v) <- unsigned_mbn_decode (whole b) (Some 0);
        if ok && (r_ptr r =? r_end r) then
          match v with
          | Some value => Ok (true, store out value)
          | None => Fail UninitRead
          end
        else Ok (false, out)
  end.

(* gutil_signed_mbn_decode2, gutil_datapack.c:207-225 *)
Definition signed_mbn_decode2 (d : dialect) (bytes : option (list Z)) (out : option Z)
  : res (bool * option Z) :=
  match bytes with
  | None => Ok (false, out)
  | Some b =>
      if len b =? 0 then Ok (false, out)
      else
        do (ok, r, v) <- signed_mbn_decode d (whole b) (Some 0);
        if ok && (r_ptr r =? r_end r) then
          match v with
          | Some value => Ok (true, store out value)
          | None => Fail UninitRead
          end
        else Ok (false, out)
  end.

(* ---------------- TLV ---------------- *)

(* gutil_tlv_size, gutil_datapack.c:375-381; the sum is gsize, the result guint *)
Definition tlv_size (tag l : Z) : res Z :=
  do a <- unsigned_mbn_size tag;
  do b <- unsigned_mbn_size l;
  Ok (u32 (u64 (u32 (a + b) + l))).

(* memcpy of a whole block into buf at off *)
Fixpoint copy_to (buf : list Z) (off : Z) (bytes : list Z) : res (list Z) :=
  match bytes with
  | [] => Ok buf
  | b :: t => do buf <- wr buf off b; copy_to buf (off + 1) t
  end.

(* gutil_tlv_encode, gutil_datapack.c:383-402. val = None is a NULL GUtilData.
   Simplification: the value block does not overlap the output buffer. *)
Definition tlv_encode (buf : list Z) (off tag : Z) (val : option (list Z)) : res (list Z * Z) :=
  do (buf, tag_size) <- unsigned_mbn_encode buf off tag;
  match val with
  | Some ((_ :: _) as bytes) =>
      do (buf, len_size) <- unsigned_mbn_encode buf (off + tag_size) (len bytes);
      do buf <- copy_to buf (off + tag_size + len_size) bytes;
      Ok (buf, u64 (u32 (tag_size + len_size) + len bytes))
  | _ =>
      do buf <- wr buf (off + tag_size) 0;
      Ok (buf, u64 (u32 (tag_size + 1)))
  end.

(* gutil_tlv_decode, gutil_datapack.c:404-423. Adding len to the pointer wraps modulo 2^64,
   so a len of 2^63 or more moves the pointer back. *)
Definition tlv_decode (r : range) (val : option data) : res (Z * range * option data) :=
  do (ok, tmp, tag) <- unsigned_mbn_decode r (Some 0);
  match ok, tag with
  | true, Some tag =>
      if tag <=? 2^31 - 1 then
        do (ok, tmp, l) <- unsigned_mbn_decode tmp (Some 0);
        match ok, l with
        | true, Some l =>
            if r_end tmp - r_ptr tmp >=? s64 l then
              Ok (u32 tag,
                  mkRange (r_mem r) (r_ptr tmp + s64 l) (r_end r),
                  store val (mkData (Some (r_ptr tmp)) l))
            else Ok (0, r, val)
        | _, _ => Ok (0, r, val)
        end
      else Ok (0, r, val)
  | _, _ => Ok (0, r, val)
  end.

Definition TLVS_ERROR : Z := -1.         (* include/gutil_datapack.h:169 *)
Definition TLVS_DUPLICATE_TAG : Z := -2. (* include/gutil_datapack.h:170 *)
Definition TLVS_UNKNOWN_TAG : Z := -3.   (* include/gutil_datapack.h:171 *)

(* gutil_datapack.c:453-458: index of the tag among the first 31 tags.
   The zero-terminated tags array is modelled by the list of its non-zero entries. *)
Fixpoint find_tag (tags : list Z) (i : Z) (tag : Z) : option Z :=
  match tags with
  | [] => None
  | t :: rest =>
      if i <? 31 then
        if t =? tag then Some i else find_tag rest (i + 1) tag
      else None
  end.

(* gutil_datapack.c:450-474. [skip] is the flag GUTIL_TLVS_DECODE_FLAG_SKIP_UNKNOWN_TAGS. *)
Fixpoint tlvs_loop (fuel : nat) (r : range) (tags : list Z) (vals : option (list data))
         (skip : bool) (mask : Z) : res (Z * option (list data)) :=
  match fuel with
  | O => Fail NoFuel
  | S f =>
      do (tag, r, val) <- tlv_decode r (Some (mkData None 0));
      if tag =? 0 then
        Ok (if r_ptr r =? r_end r then mask else TLVS_ERROR, vals)
      else
        match val with
        | None => Fail UninitRead
        | Some val =>
            match find_tag tags 0 tag with
            | Some i =>
                if negb (Z.land mask (2^i) =? 0) then Ok (TLVS_DUPLICATE_TAG, vals)
                else
                  let mask := Z.lor mask (2^i) in
                  match vals with
                  | Some v => do v <- wr v i val; tlvs_loop f r tags (Some v) skip mask
                  | None => tlvs_loop f r tags None skip mask
                  end
            | None =>
                if skip then tlvs_loop f r tags vals skip mask
                else Ok (TLVS_UNKNOWN_TAG, vals)
            end
        end
  end.

(* memset(vals, 0, sizeof(vals[0]) * n), gutil_datapack.c:441-448 *)
Fixpoint clear_vals (n : nat) (vals : list data) : res (list data) :=
  match n, vals with
  | O, _ => Ok vals
  | S m, [] => Fail OobWrite
  | S m, _ :: t => do t <- clear_vals m t; Ok (mkData None 0 :: t)
  end.

(* gutil_tlvs_decode, gutil_datapack.c:425-475 *)
Definition tlvs_decode (fuel : nat) (bytes : list Z) (tags : list Z)
           (vals : option (list data)) (skip : bool) : res (Z * option (list data)) :=
  do vals <- match vals with
             | Some v => do v <- clear_vals (length tags) v; Ok (Some v)
             | None => Ok None
             end;
  tlvs_loop fuel (whole bytes) tags vals skip 0.
