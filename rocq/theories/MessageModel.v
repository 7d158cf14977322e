(* Model of a client which puts the fields of a message into a buffer one after another and reads them back from a GBytes, with the functions of
   /repo/src/gutil_datapack.c and the range functions of /repo/src/gutil_misc.c. The functions of the library are those of DatapackModel and DataModel,
   and gutil_range_init_with_bytes; the loops around them are the client's. *)
From Verif Require Import Base DatapackModel.
From Verif Require DataModel.

(* gutil_range_init_with_bytes, /repo/src/gutil_misc.c:756-771. NULL pointers are None; what the range was is lost. *)
Definition range_init_with_bytes (range : option DataModel.range) (b : option DataModel.gdata) : option DataModel.range * Z :=
  match range with
  | None => (None, 0)
  | Some _ =>
      match b with
      | Some x => (Some (DataModel.mkRange (match DataModel.bytes x with Some _ => Some 0 | None => None end) (DataModel.size x)), DataModel.size x)
      | None => (Some (DataModel.mkRange None 0), 0)
      end
  end.

(* A field: a number with the size chosen for it, a TLV, or bytes which are known to both sides *)
Inductive field : Set := FU (v size : Z) | FS (v size : Z) | FT (tag : Z) (val : list Z) | FM (bytes : list Z).
(* What is asked for when reading, and what comes out *)
Inductive op : Set := OU | OS | OT | OM (bytes : list Z).
Inductive result : Set := RU (v : Z) | RS (v : Z) | RT (tag : Z) (d : data) | RM.

(* gutil_unsigned_mbn_encode2 (gutil_datapack.c:262-282), gutil_signed_mbn_encode2 (97-127), gutil_tlv_encode (383-402), memcpy *)
Definition write_field (buf : list Z) (off : Z) (f : field) : res (list Z * Z) :=
  match f with
  | FU v size => unsigned_mbn_encode2 buf off v size
  | FS v size => signed_mbn_encode2 buf off v size
  | FT tag val => tlv_encode buf off tag (Some val)
  | FM m => do buf <- copy_to buf off m; Ok (buf, len m)
  end.
Fixpoint write (buf : list Z) (off : Z) (fs : list field) : res (list Z * Z) :=
  match fs with [] => Ok (buf, off) | f :: fs => do (buf, n) <- write_field buf off f; write buf (off + n) fs end.

(* How much room that takes; gutil_tlv_size, gutil_datapack.c:375-381 *)
Definition field_size (f : field) : res Z :=
  match f with FU _ size => Ok size | FS _ size => Ok size | FT tag val => tlv_size tag (len val) | FM m => Ok (len m) end.
Fixpoint message_size (fs : list field) : res Z :=
  match fs with [] => Ok 0 | f :: fs => do n <- field_size f; do m <- message_size fs; Ok (n + m) end.

(* Reading: mem is the memory of the GBytes. A NULL pointer is at 0 for the decoders, which compare it with the end of the range and look no further. *)
Definition view (mem : list Z) (r : DataModel.range) : range :=
  mkRange mem (match DataModel.r_ptr r with Some p => p | None => 0 end) (DataModel.r_end r).
Definition moved (r : DataModel.range) (r' : range) : DataModel.range :=
  match DataModel.r_ptr r with Some _ => DataModel.mkRange (Some (r_ptr r')) (r_end r') | None => r end.

(* gutil_unsigned_mbn_decode (284-334), gutil_signed_mbn_decode (129-205), gutil_tlv_decode (404-423), gutil_range_skip_prefix (gutil_misc.c:789-800) *)
Definition read_field (mem : list Z) (r : DataModel.range) (o : op) : res (option result * DataModel.range) :=
  match o with
  | OU => do (ok, r', v) <- unsigned_mbn_decode (view mem r) (Some 0);
          Ok (match ok, v with true, Some v => Some (RU v) | _, _ => None end, moved r r')
  | OS => do (ok, r', v) <- signed_mbn_decode Wrap (view mem r) (Some 0);
          Ok (match ok, v with true, Some v => Some (RS v) | _, _ => None end, moved r r')
  | OT => do (tag, r', d) <- tlv_decode (view mem r) (Some (mkData None 0));
          Ok (match d with Some d => if tag =? 0 then None else Some (RT tag d) | None => None end, moved r r')
  | OM m => do (ok, r') <- DataModel.range_skip_prefix Strict mem (Some r) (Some (DataModel.mkData (Some m) (len m)));
            match r' with Some r' => Ok (if (ok : bool) then Some RM else None, r') | None => Fail NullDeref end
  end.
(* Until one is not there *)
Fixpoint read (mem : list Z) (r : DataModel.range) (os : list op) : res (list result * bool * DataModel.range) :=
  match os with
  | [] => Ok ([], true, r)
  | o :: os =>
      do (x, r) <- read_field mem r o;
      match x with
      | None => Ok ([], false, r)
      | Some x => do (xs, ok, r) <- read mem r os; Ok (x :: xs, ok, r)
      end
  end.
(* and nothing may be left: the message is this GBytes *)
Definition read_bytes (b : DataModel.gdata) (os : list op) : res (list result * bool) :=
  match range_init_with_bytes (Some (DataModel.mkRange None 0)) (Some b) with
  | (Some r, _) =>
      do (xs, ok, r) <- read (match DataModel.bytes b with Some m => m | None => [] end) r os;
      Ok (xs, ok && match DataModel.r_ptr r with Some p => p =? DataModel.r_end r | None => 0 =? DataModel.r_end r end)
  | _ => Fail NullDeref
  end.
