(* Specification of numerals. Does not use the model. *)
From Verif Require Import Base.

(* c is the digit v *)
Definition digit (c v : Z) : Prop :=
  (48 <= c <= 57 /\ v = c - 48) \/ (65 <= c <= 90 /\ v = c - 55) \/ (97 <= c <= 122 /\ v = c - 87).

(* s is a non-empty sequence of digits in base b with the value v *)
Inductive digits (b : Z) : list Z -> Z -> Prop :=
| digits_one c v : digit c v -> v < b -> digits b [c] v
| digits_snoc s c u v : digits b s u -> digit c v -> v < b -> digits b (s ++ [c]) (b * u + v).

Definition starts_with_0 (s : list Z) : Prop := exists t, s = 48 :: t.

(* an unsigned number in the notation of C for the given base; base 0 means that the prefix tells *)
Definition magnitude (base : Z) (s : list Z) (v : Z) : Prop :=
  (2 <= base <= 36 /\ digits base s v) \/
  ((base = 16 \/ base = 0) /\ exists x t, s = 48 :: x :: t /\ (x = 88 \/ x = 120) /\ digits 16 t v) \/
  (base = 0 /\ starts_with_0 s /\ digits 8 s v) \/
  (base = 0 /\ ~ starts_with_0 s /\ digits 10 s v).

Definition plus_numeral (base : Z) (s : list Z) (v : Z) : Prop :=
  magnitude base s v \/ exists t, s = 43 :: t /\ magnitude base t v.

Definition minus_numeral (base : Z) (s : list Z) (v : Z) : Prop :=
  exists t, s = 45 :: t /\ magnitude base t v.

Definition numeral (base : Z) (s : list Z) (v : Z) : Prop :=
  plus_numeral base s v \/ minus_numeral base s (- v).

(* space, tab, newline, form feed, carriage return *)
Definition blank (c : Z) : Prop := c = 32 \/ c = 9 \/ c = 10 \/ c = 12 \/ c = 13.
Definition vtab : Z := 11.

(* core with white space around; vertical tabs are allowed only in front *)
Definition padded (l core r s : list Z) : Prop :=
  s = l ++ core ++ r /\ Forall (fun c => blank c \/ c = vtab) l /\ Forall blank r.
