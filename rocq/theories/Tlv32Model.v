(* Model of the TLV functions of /repo/src/gutil_datapack.c on a platform where pointers, gsize and gssize have 32 bits.
   guint64 and the functions for numbers are the same as in DatapackModel. *)
From Verif Require Import Base DatapackModel.

(* gutil_tlv_size, gutil_datapack.c:375-381: guint and gsize have the same size *)
Definition tlv_size32 (tag l : Z) : res Z :=
  do a <- unsigned_mbn_size tag;
  do b <- unsigned_mbn_size l;
  Ok (u32 (u32 (a + b) + l)).

(* gutil_tlv_encode, gutil_datapack.c:383-402. val = None is a NULL GUtilData.
   Simplification: the value block does not overlap the output buffer. *)
Definition tlv_encode32 (buf : list Z) (off tag : Z) (val : option (list Z)) : res (list Z * Z) :=
  do (buf, tag_size) <- unsigned_mbn_encode buf off tag;
  match val with
  | Some ((_ :: _) as bytes) =>
      do (buf, len_size) <- unsigned_mbn_encode buf (off + tag_size) (len bytes);
      do buf <- copy_to buf (off + tag_size + len_size) bytes;
      Ok (buf, u32 (u32 (tag_size + len_size) + len bytes))
  | _ =>
      do buf <- wr buf (off + tag_size) 0;
      Ok (buf, u32 (tag_size + 1))
  end.

(* gutil_tlv_decode, gutil_datapack.c:404-423. Lines 415, 418: the guint64 len is cast to a 32-bit type. Line 420: adding
   it to the pointer wraps modulo 2^32. *)
Definition tlv_decode32 (r : range) (val : option data) : res (Z * range * option data) :=
  do (ok, tmp, tag) <- unsigned_mbn_decode r (Some 0);
  match ok, tag with
  | true, Some tag =>
      if tag <=? 2^31 - 1 then
        do (ok, tmp, l) <- unsigned_mbn_decode tmp (Some 0);
        match ok, l with
        | true, Some l =>
            if r_end tmp - r_ptr tmp >=? s32 l then
              Ok (u32 tag, mkRange (r_mem r) (r_ptr tmp + s32 l) (r_end r), store val (mkData (Some (r_ptr tmp)) (u32 l)))
            else Ok (0, r, val)
        | _, _ => Ok (0, r, val)
        end
      else Ok (0, r, val)
  | _, _ => Ok (0, r, val)
  end.

(* gutil_datapack.c:450-474. [skip] is the flag GUTIL_TLVS_DECODE_FLAG_SKIP_UNKNOWN_TAGS. *)
Fixpoint tlvs_loop32 (fuel : nat) (r : range) (tags : list Z) (vals : option (list data)) (skip : bool) (mask : Z) : res (Z * option (list data)) :=
  match fuel with
  | O => Fail NoFuel
  | S f =>
      do (tag, r, val) <- tlv_decode32 r (Some (mkData None 0));
      if tag =? 0 then Ok (if r_ptr r =? r_end r then mask else TLVS_ERROR, vals)
      else
        match val with
        | None => Fail UninitRead
        | Some val =>
            match find_tag tags 0 tag with
            | Some i =>
                if negb (Z.land mask (2^i) =? 0) then Ok (TLVS_DUPLICATE_TAG, vals)
                else
                  let mask := Z.lor mask (2^i) in
                  match vals with
                  | Some v => do v <- wr v i val; tlvs_loop32 f r tags (Some v) skip mask
                  | None => tlvs_loop32 f r tags None skip mask
                  end
            | None => if skip then tlvs_loop32 f r tags vals skip mask else Ok (TLVS_UNKNOWN_TAG, vals)
            end
        end
  end.

(* gutil_tlvs_decode, gutil_datapack.c:425-475 *)
Definition tlvs_decode32 (fuel : nat) (bytes : list Z) (tags : list Z) (vals : option (list data)) (skip : bool) : res (Z * option (list data)) :=
  do vals <- match vals with
             | Some v => do v <- clear_vals (length tags) v; Ok (Some v)
             | None => Ok None
             end;
  tlvs_loop32 fuel (whole bytes) tags vals skip 0.
