(* Specification of the hexadecimal functions. Does not use the model. *)
From Verif Require Import Base.

(* v is the value of the hexadecimal digit c *)
Definition hex_digit (c v : Z) : Prop :=
  (48 <= c <= 57 /\ v = c - 48) \/ (65 <= c <= 70 /\ v = c - 55) \/ (97 <= c <= 102 /\ v = c - 87).

(* s is a sequence of pairs of hex digits with the values bs *)
Inductive hex_of : list Z -> list Z -> Prop :=
| hex_nil : hex_of [] []
| hex_pair c1 c2 v1 v2 s bs : hex_digit c1 v1 -> hex_digit c2 v2 -> hex_of s bs ->
    hex_of (c1 :: c2 :: s) (16 * v1 + v2 :: bs).

(* lower or upper case digits only *)
Definition in_case (upper : bool) (c : Z) : Prop :=
  if upper then ~ (97 <= c <= 102) else ~ (65 <= c <= 70).

(* the digit of a number below 16 *)
Definition digit (upper : bool) (v : Z) : Z :=
  if v <? 10 then 48 + v else (if upper then 55 else 87) + v.

Definition hex2 (upper : bool) (b : Z) : list Z := [digit upper (b / 16); digit upper (b mod 16)].

Definition space : Z := 32.

(* byte number i of a dump: its two digits or two spaces *)
Definition byte_field (data : list Z) (i : nat) : list Z :=
  match nth_error data i with Some b => hex2 false b | None => [space; space] end.

(* the layout of a dump line: sixteen fields separated by spaces with an additional space in the
   middle, four spaces, then the text with a space in the middle *)
Definition sep (i : nat) : list Z :=
  match i with O => [] | 8%nat => [space; space] | _ => [space] end.

Definition hex_part (data : list Z) : list Z :=
  flat_map (fun i => sep i ++ byte_field data i) (seq 0 16).

Definition text_part (printable : Z -> bool) (data : list Z) : list Z :=
  let t := map (fun b => if printable b then b else 46) (firstn 16 data) in
  if (8 <? length t)%nat then firstn 8 t ++ [space] ++ skipn 8 t else t.

Definition dump_line (printable : Z -> bool) (data : list Z) : list Z :=
  hex_part data ++ [space; space; space; space] ++ text_part printable data.
