(* What the singleton is. Uses the model for its types, and the step function where executions are quantified over. *)
From Verif Require Import Base TimeModel.

(* The references clients have *)
Fixpoint strong (o : nat) (l : list event) : Z :=
  match l with
  | [] => 0
  | EGot p :: l | ERef p :: l => (if Nat.eqb p o then 1 else 0) + strong o l
  | EUnref p :: l => strong o l - (if Nat.eqb p o then 1 else 0)
  | _ :: l => strong o l
  end.
(* How many times the signal is being emitted *)
Fixpoint firing (o : nat) (l : list event) : Z :=
  match l with
  | [] => 0
  | EFire p :: l => (if Nat.eqb p o then 1 else 0) + firing o l
  | EEnd p :: l => firing o l - (if Nat.eqb p o then 1 else 0)
  | _ :: l => firing o l
  end.
(* somebody may use the object: clients with a reference, handlers *)
Definition usable (o : nat) (l : list event) : Prop := strong o l > 0 \/ firing o l > 0.
Definition use (s : state) (o : option nat) : Prop := match o with Some o => usable o (s_trace s) | None => True end.

(* The main loop calls sources which are there and not running *)
Definition ready (s : state) (c : nat) : Prop := exists y, nth_error (s_io s) c = Some y /\ i_on y = true /\ i_running y = false.
Definition fair (s : state) (a : action) : Prop :=
  match a with
  | ANew _ | AEmit | AEnd => True
  | ARef o | AAdd o | ARemove o _ => use s o
  | AUnref (Some o) => strong o (s_trace s) > 0
  | AUnref None => True
  | AError c | ABegin c => ready s c
  end.

Fixpoint all_along (P : state -> action -> Prop) (s : state) (l : list action) : Prop :=
  match l with
  | [] => True
  | a :: l => P s a /\ match step s a with Ok s => all_along P s l | Fail _ => True end
  end.

Fixpoint number (f : event -> bool) (l : list event) : Z := match l with [] => 0 | e :: l => (if f e then 1 else 0) + number f l end.
(* What is counted *)
Definition is_new (o : nat) (e : event) : bool := match e with ENew p => Nat.eqb p o | _ => false end.
Definition is_final (o : nat) (e : event) : bool := match e with EFinal p => Nat.eqb p o | _ => false end.
Definition is_open (c : nat) (e : event) : bool := match e with EOpen p => Nat.eqb p c | _ => false end.
Definition is_close (c : nat) (e : event) : bool := match e with EClose p => Nat.eqb p c | _ => false end.
Definition is_attach (c : nat) (e : event) : bool := match e with EAttach p => Nat.eqb p c | _ => false end.
Definition is_destroy (c : nat) (e : event) : bool := match e with EDestroy p => Nat.eqb p c | _ => false end.
Definition is_free (c : nat) (e : event) : bool := match e with EFree p => Nat.eqb p c | _ => false end.
Definition is_bad (e : event) : bool := match e with EBadClose _ | EBadRemove _ => true | _ => false end.
Definition is_error (c : nat) (e : event) : bool := match e with EError p => Nat.eqb p c | _ => false end.
(* The object whose creation has opened the file *)
Fixpoint maker (c : nat) (l : list event) : option nat :=
  match l with
  | [] => None
  | e :: l =>
      match e with
      | EOpen d => if Nat.eqb d c then match l with ENew o :: _ => Some o | _ => None end else maker c l
      | _ => maker c l
      end
  end.

(* The handlers which are connected *)
Fixpoint conn (o : nat) (l : list event) : list nat :=
  match l with
  | [] => []
  | EAdd p h :: l => if Nat.eqb p o then conn o l ++ [h] else conn o l
  | ERemove p h :: l => if Nat.eqb p o then filter (fun g => negb (Nat.eqb g h)) (conn o l) else conn o l
  | _ :: l => conn o l
  end.
Fixpoint after (h : nat) (l : list nat) : list nat := match l with [] => [] | g :: l => if Nat.eqb g h then l else after h l end.
(* While the signal is emitted: the handlers which were connected when the emission began, and whose
   turn comes after the one called last *)
Fixpoint left (o : nat) (l : list event) : option (list nat) :=
  match l with
  | [] => None
  | EFire p :: l => if Nat.eqb p o then Some (conn o l) else left o l
  | EEnd p :: l => if Nat.eqb p o then None else left o l
  | ECall p h :: l => if Nat.eqb p o then match left o l with Some t => Some (after h t) | None => None end else left o l
  | _ :: l => left o l
  end.
(* The one called is the first of them which is connected; when the emission ends, none of them is. Emissions are not nested. *)
Fixpoint good (l : list event) : Prop :=
  match l with
  | [] => True
  | e :: l =>
      match e with
      | ECall o h => exists k t, left o l = Some (k ++ h :: t) /\ In h (conn o l) /\ forall g, In g k -> ~ In g (conn o l)
      | EEnd o => exists t, left o l = Some t /\ forall g, In g t -> ~ In g (conn o l)
      | EFire o => left o l = None /\ NoDup (conn o l)
      | _ => True
      end /\ good l
  end.
(* Which handlers are called, the first one first *)
Fixpoint calls (o : nat) (l : list event) : list nat :=
  match l with [] => [] | ECall p h :: l => if Nat.eqb p o then calls o l ++ [h] else calls o l | _ :: l => calls o l end.
Inductive sublist : list nat -> list nat -> Prop :=
| Sub_nil : sublist [] []
| Sub_skip x l m : sublist l m -> sublist l (x :: m)
| Sub_keep x l m : sublist l m -> sublist (x :: l) (x :: m).
