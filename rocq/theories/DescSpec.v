(* What somebody reads in the description. Independent of the model. *)
From Coq Require Import String.
From Verif Require Import Base LogSpec.

(* the lines of a text, each with a newline at the end *)
Inductive lines : list Z -> list (list Z) -> Prop :=
| li_nil : lines [] []
| li_cons l t ls : ~ In 10 l -> lines t ls -> lines (l ++ 10 :: t) (l :: ls).

(* blanks, a number, a comma, blanks, a word, a blank, blanks, a text *)
Definition level_line (line number word text : list Z) : Prop :=
  exists a b c, line = a ++ number ++ chars "," ++ b ++ word ++ chars " " ++ c ++ text /\ Forall (eq 32) a /\ Forall (eq 32) b /\ Forall (eq 32) c /\
    number <> [] /\ word <> [] /\ Forall (fun x => 48 <= x <= 57) number /\ Forall (fun x => 97 <= x <= 122) word /\ hd 32 text <> 32.
(* blanks, a name *)
Definition module_line (line name : list Z) : Prop := exists a, line = a ++ name /\ Forall (eq 32) a.
Definition is_default (text : list Z) : Prop := exists a, text = a ++ chars " (default)".
