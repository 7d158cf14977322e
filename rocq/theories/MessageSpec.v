(* Specification of messages. Uses the types of the model and the formats of numbers and TLVs of DatapackSpec. *)
From Verif Require Import Base DatapackModel DatapackSpec MessageModel.
From Verif Require DataModel.

(* The fields which can be written *)
Definition writable (f : field) : Prop :=
  match f with
  | FU v size => in_u64 v /\ size <= 10 /\ 1 <= size /\ fits_u v size
  | FS v size => in_s64 v /\ size <= 10 /\ 1 <= size /\ fits_s v size
  | FT tag val => 1 <= tag <= 2^31 - 1 /\ len val < 2^32 - 20 /\ Forall is_byte val
  | FM m => m <> [] /\ Forall is_byte m
  end.

(* enc is an encoding of the field, not necessarily the one that is written *)
Definition encodes (f : field) (enc : list Z) : Prop :=
  match f with
  | FU v size => ubn enc v /\ size = len enc
  | FS v size => wide enc /\ v = s64 (sval enc) /\ size = len enc
  | FT tag val => 1 <= tag <= 2^31 - 1 /\ len val < 2^63 /\ tlv_of enc tag val
  | FM m => m <> [] /\ enc = m
  end.
Inductive message : list field -> list Z -> Prop :=
| message_nil : message [] []
| message_cons f enc fs rest : encodes f enc -> message fs rest -> message (f :: fs) (enc ++ rest).

(* What to ask for, and what is the answer *)
Definition asks (f : field) : op := match f with FU _ _ => OU | FS _ _ => OS | FT _ _ => OT | FM m => OM m end.
Definition answers (mem : list Z) (f : field) (x : result) : Prop :=
  match f, x with
  | FU v _, RU w => v = w
  | FS v _, RS w => v = w
  | FT tag val, RT t d => t = tag /\ holds mem d val
  | FM _, RM => True
  | _, _ => False
  end.

(* A GBytes with these bytes. An empty one may have a NULL pointer. *)
Definition gbytes_of (b : DataModel.gdata) (m : list Z) : Prop :=
  Forall is_byte m /\ DataModel.size b = len m /\ (DataModel.bytes b = Some m \/ (m = [] /\ DataModel.bytes b = None)).

(* The lengths that were read are below 2^63 *)
Definition small (x : result) : Prop := match x with RT _ d => d_size d < 2^63 | _ => True end.
(* Nothing empty is asked for *)
Definition sensible (o : op) : Prop := match o with OM m => m <> [] | _ => True end.
