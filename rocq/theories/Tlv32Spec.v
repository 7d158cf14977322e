(* Specification of the TLV functions on 32-bit platforms. Independent of the model. *)
From Verif Require Import Base DatapackModel DatapackSpec.

(* no number of 2^31 or more is encoded anywhere in the input *)
Definition no_long (bytes : list Z) : Prop := forall pre enc rest v, bytes = pre ++ enc ++ rest -> ubn enc v -> v < 2^31.
(* a 64-bit number as seen through 32 bits, without and with sign *)
Definition low32 (v n : Z) : Prop := 0 <= n < 2^32 /\ exists k, v = n + k * 2^32.
Definition low32s (v n : Z) : Prop := -2^31 <= n < 2^31 /\ exists k, v = n + k * 2^32.
