(* Specification of the history: a list of samples (time, value), oldest first.
   Uses the model only for the type of API calls. *)
From Verif Require Import Base.
From Verif Require Import HistoryModel.

Notation sample := (Z * Z)%type (only parsing).

(* samples not older than w at the time now *)
Definition recent (w now : Z) (s : list sample) : list sample :=
  filter (fun e => now - w <=? fst e) s.

(* the newest n samples *)
Definition newest (n : Z) (s : list sample) : list sample := skipn (Z.to_nat (len s - n)) s.

(* adding a sample: it replaces the newest one if the clock has not advanced since *)
Definition added (n w now v : Z) (s : list sample) : list sample :=
  let s := recent w now s in
  match rev s with
  | (t, _) :: older => if t <? now then newest n (s ++ [(now, v)]) else rev older ++ [(t, v)]
  | [] => [(now, v)]
  end.

(* the contents after one call *)
Definition after (n w : Z) (s : list sample) (o : op) (now : Z) : list sample :=
  match o with
  | Add v => added n w now v s
  | Clear => []
  | _ => recent w now s
  end.

Fixpoint afters (n w : Z) (s : list sample) (ops : list (op * Z)) : list sample :=
  match ops with
  | [] => s
  | (o, now) :: t => afters n w (after n w s o now) t
  end.

(* twice the integral of the piecewise linear curve through the samples *)
Fixpoint area2 (s : list sample) : Z :=
  match s with
  | (t, v) :: (((t1, v1) :: _) as r) => (t1 - t) * (v + v1) + area2 r
  | _ => 0
  end.

(* the time between the first and the last sample *)
Definition span (s : list sample) : Z :=
  match s, rev s with
  | (t, _) :: _, (t1, _) :: _ => t1 - t
  | _, _ => 0
  end.

(* z is the average of the samples s: between the smallest and the largest value, and within
   3/2 of the average height of the curve *)
Definition average (s : list sample) (z : Z) : Prop :=
  (exists e, In e s /\ snd e <= z) /\ (exists e, In e s /\ z <= snd e) /\
  Z.abs (2 * span s * z - area2 s) <= 3 * span s.

(* What the calls return; the averages only if the values are not extreme (mild) *)
Definition returns (mild : list sample -> Prop) (s' : list sample) (o : op) (now x : Z) : Prop :=
  match o with
  | Add _ => mild s' -> average s' x
  | Median dflt => match s' with [] => x = dflt | _ => mild s' -> average s' x end
  | Size => x = len s'
  | Interval => match s' with [] => x = 0 | (t, _) :: _ => x = now - t end
  | Clear => x = 0
  end.

Fixpoint all_return (mild : list sample -> Prop) (n w : Z) (s : list sample) (ops : list (op * Z)) (xs : list Z) : Prop :=
  match ops, xs with
  | [], [] => True
  | (o, now) :: t, x :: xt =>
      let s' := after n w s o now in
      returns mild s' o now x /\ all_return mild n w s' t xt
  | _, _ => False
  end.

(* values bounded by b *)
Definition mild_by (b : Z) (s : list sample) : Prop := Forall (fun e => - b <= snd e <= b) s.

(* values are ints, the clock is not negative *)
Definition fair (p : op * Z) : Prop :=
  0 <= snd p < 2^63 /\
  match fst p with Add v => in_s32 v | Median v => in_s32 v | _ => True end.

Fixpoint increasing (s : list sample) : Prop :=
  match s with
  | (t, _) :: (((t1, _) :: _) as r) => t < t1 /\ increasing r
  | _ => True
  end.
