(* Specification of the MBN and TLV formats. Independent of the model's functions:
   only its types range and data are used. *)
From Verif Require Import Base DatapackModel. (* for the types range and data *)

(* A multi-byte number: zero or more bytes with the top bit set, then one without. *)
Definition mbn_shape (l : list Z) : Prop :=
  exists c t, l = c ++ [t] /\ Forall (fun b => 128 <= b < 256) c /\ 0 <= t < 128.

(* The number denoted by the 7-bit groups, most significant first *)
Definition uval (l : list Z) : Z := fold_left (fun a b => a * 128 + b mod 128) l 0.

(* The same bits read as two's complement: the sign is bit 6 of the first byte *)
Definition sval (l : list Z) : Z :=
  uval l - (if 64 <=? hd 0 l mod 128 then 128 ^ len l else 0).

Definition starts_with (bytes enc : list Z) : Prop := exists rest, bytes = enc ++ rest.

(* enc is an acceptable encoding of the 64-bit number v *)
Definition ubn (enc : list Z) (v : Z) : Prop :=
  mbn_shape enc /\ len enc <= 10 /\ uval enc = v /\ v < 2^64.
Definition sbn (enc : list Z) (v : Z) : Prop :=
  mbn_shape enc /\ len enc <= 10 /\ sval enc = v /\ in_s64 v.

(* v fits into n groups of 7 bits *)
Definition fits_u (v n : Z) : Prop := 0 <= v < 2 ^ (7 * n).
Definition fits_s (v n : Z) : Prop := - 2 ^ (7 * n - 1) <= v < 2 ^ (7 * n - 1).

(* n is the least positive number of groups that is enough *)
Definition least_size (fits : Z -> Prop) (n : Z) : Prop :=
  1 <= n /\ fits n /\ forall m, 1 <= m < n -> ~ fits m.

(* enc is an encoding of one TLV. Tag and length may be padded. *)
Definition tlv_of (enc : list Z) (tag : Z) (v : list Z) : Prop :=
  exists t l, ubn t tag /\ ubn l (len v) /\ enc = t ++ l ++ v.

(* enc is the encoding of one TLV with the shortest tag and length *)
Definition tlv_min (enc : list Z) (tag : Z) (v : list Z) : Prop :=
  exists t l, ubn t tag /\ least_size (fits_u tag) (len t) /\
              ubn l (len v) /\ least_size (fits_u (len v)) (len l) /\ enc = t ++ l ++ v.

(* bytes is a concatenation of TLVs with tags in 1..INT_MAX *)
Inductive tlv_seq : list (Z * list Z) -> list Z -> Prop :=
| tlv_seq_nil : tlv_seq [] []
| tlv_seq_cons tag v enc es bytes :
    1 <= tag <= 2^31 - 1 -> tlv_of enc tag v -> tlv_seq es bytes ->
    tlv_seq ((tag, v) :: es) (enc ++ bytes).

(* the tag is one of those considered by gutil_tlvs_decode *)
Definition requested (tags : list Z) (t : Z) : Prop := In t (firstn 31 tags).

(* no requested tag occurs twice, and unknown tags occur only if they are to be skipped *)
Definition fine (tags : list Z) (skip : bool) (es : list (Z * list Z)) : Prop :=
  (forall t pre post, map fst es = pre ++ t :: post -> requested tags t -> ~ In t pre) /\
  (skip = true \/ forall t, In t (map fst es) -> requested tags t).

(* t is at position i of the tags array and at no earlier one *)
Definition first_at (tags : list Z) (i : nat) (t : Z) : Prop :=
  nth_error tags i = Some t /\ ~ In t (firstn i tags).

(* no number of 2^63 or more is encoded anywhere in the input *)
Definition no_huge (bytes : list Z) : Prop :=
  forall pre enc rest v, bytes = pre ++ enc ++ rest -> ubn enc v -> v < 2^63.

(* The range delimits a part of its memory block, which consists of bytes *)
Definition valid_range (r : range) : Prop :=
  0 <= r_ptr r /\ r_ptr r <= r_end r <= len (r_mem r) /\ Forall is_byte (r_mem r).

(* the bytes between ptr and end *)
Definition content (r : range) : list Z := slice (r_mem r) (r_ptr r) (r_end r).

(* what the signed decoder really accepts: one bit too much *)
Definition wide (enc : list Z) : Prop :=
  mbn_shape enc /\ len enc <= 10 /\ - 2^64 <= sval enc < 2^64.

(* negative numbers of nine bytes *)
Definition ub_form (enc : list Z) : Prop :=
  mbn_shape enc /\ len enc = 9 /\ 64 <= hd 0 enc mod 128.

(* block d of memory mem holds the bytes v *)
Definition holds (mem : list Z) (d : data) (v : list Z) : Prop :=
  exists o, d = mkData (Some o) (len v) /\ 0 <= o /\ o + len v <= len mem /\ slice mem o (o + len v) = v.

(* bit i of m is set iff the i-th tag (at its first position) occurs in es *)
Definition mask_ok (tags : list Z) (es : list (Z * list Z)) (m : Z) : Prop :=
  0 <= m < 2^31 /\
  forall i, 0 <= i ->
    (Z.testbit m i = true <->
     exists t, i < 31 /\ first_at tags (Z.to_nat i) t /\ In t (map fst es)).

(* the output array: slots of present tags hold the values, slots of absent tags
   are zeroed, slots beyond the tags array are untouched *)
Definition vals_ok (mem tags : list Z) (es : list (Z * list Z)) (old new : option (list data)) : Prop :=
  match old, new with
  | None, None => True
  | Some o, Some n =>
      length n = length o /\
      forall i, (i < length o)%nat ->
        (forall t v, first_at tags i t -> (i < 31)%nat -> In (t, v) es ->
                     exists d, nth_error n i = Some d /\ holds mem d v) /\
        ((i < length tags)%nat ->
         (forall t, first_at tags i t -> (i < 31)%nat -> ~ In t (map fst es)) ->
         nth_error n i = Some (mkData None 0)) /\
        ((length tags <= i)%nat -> nth_error n i = nth_error o i)
  | _, _ => False
  end.

(* the caller provides a slot for each tag *)
Definition slots_enough (tags : list Z) (old : option (list data)) : Prop :=
  match old with Some o => (length tags <= length o)%nat | None => True end.

