(* What the macros are for. Uses the model for its types only. *)
From Coq Require Import String Ascii.
From Verif Require Import Base MacroModel.
From Coq Require Import List.
Import ListNotations.
Open Scope Z_scope.

Definition in_type (t : ctype) (z : Z) : Prop :=
  match t with TInt => in_s32 z | TUint => in_u32 z | TInt64 => in_s64 z | TUint64 => in_u64 z end.
Definition is_signed (t : ctype) : bool := match t with TInt | TInt64 => true | _ => false end.

(* r is the least multiple of n which is not below v *)
Definition aligned (n v r : Z) : Prop := (exists q, r = n * q) /\ v <= r /\ forall q, v <= n * q -> r <= n * q.

(* A version comes before another one *)
Definition before (a b : Z * Z * Z) : Prop :=
  let '(a1, a2, a3) := a in let '(b1, b2, b3) := b in a1 < b1 \/ (a1 = b1 /\ (a2 < b2 \/ (a2 = b2 /\ a3 < b3))).
Definition proper (v : Z * Z * Z) : Prop := let '(a, b, c) := v in 0 <= a < 128 /\ 0 <= b < 4096 /\ 0 <= c < 4096.

(* how many parentheses are open after the text if n are open before it; None if one is closed which
   is not open *)
Fixpoint open_after (n : nat) (s : string) : option nat :=
  match s with
  | EmptyString => Some n
  | String "(" s => open_after (S n) s
  | String ")" s => match n with O => None | S n => open_after n s end
  | String _ s => open_after n s
  end.
Definition balanced (s : string) : Prop := open_after 0 s = Some O.

(* the text may be used wherever a number may *)
Definition usable (text : string) : Prop := forall pre post, balanced (pre ++ "0" ++ post) -> balanced (pre ++ text ++ post).

(* decimal digits of a number with one or two digits *)
Definition digit (n : Z) : string := String (ascii_of_N (Z.to_N (48 + n))) EmptyString.
Definition decimal (n : Z) : string := if n <? 10 then digit n else (digit (n / 10) ++ digit (n mod 10))%string.
