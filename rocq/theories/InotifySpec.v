(* What inotify watches are for, told in terms of the events alone. Uses the model for its types, and
   the step function where executions are quantified over. *)
From Verif Require Import Base InotifyModel.

(* ---------------- the data from the kernel ---------------- *)

Definition le32 (z : Z) : list Z := [z mod 256; (z / 2^8) mod 256; (z / 2^16) mod 256; (z / 2^24) mod 256].
(* the name, followed by at least one NUL up to a multiple of 16 *)
Definition name_field (name : option (list Z)) (f : list Z) : Prop :=
  match name with
  | None => f = []
  | Some t => Forall (fun c => 0 < c < 256) t /\ exists n, (1 <= n)%nat /\ f = t ++ repeat 0 n /\ len f mod 16 = 0 /\ len f < 2^32
  end.
(* the events one after another *)
Inductive encodes : list iev -> list Z -> Prop :=
| enc_nil : encodes [] []
| enc_cons e f l d : in_s32 (e_wd e) -> in_u32 (e_mask e) -> in_u32 (e_cookie e) -> name_field (e_name e) f -> encodes l d ->
    encodes (e :: l) (le32 (e_wd e mod 2^32) ++ le32 (e_mask e) ++ le32 (e_cookie e) ++ le32 (len f) ++ f ++ d).

(* ---------------- what the client has done ---------------- *)

(* The watch which has been created for the descriptor last, unless a watch has been stopped since
   which had the same descriptor *)
Fixpoint registered (tr : list event) (i : nat) (wd : Z) : option nat :=
  match tr with
  | [] => None
  | ENew w j _ v :: tr => if Nat.eqb i j && (wd =? v) then Some w else registered tr i wd
  | EStop _ j v :: tr => if Nat.eqb i j && (wd =? v) then None else registered tr i wd
  | _ :: tr => registered tr i wd
  end.
(* The handlers of a watch, in the order of connection *)
Fixpoint connected (tr : list event) (w : nat) : list nat :=
  match tr with
  | [] => []
  | EConnect v id :: tr => if Nat.eqb w v then connected tr w ++ [id] else connected tr w
  | EDisconnect v id :: tr => if Nat.eqb w v then filter (fun j => negb (Nat.eqb j id)) (connected tr w) else connected tr w
  | _ :: tr => connected tr w
  end.
(* The references to a watch the client has *)
Fixpoint owned (tr : list event) (w : nat) : Z :=
  match tr with
  | [] => 0
  | ENew v _ _ _ :: tr | ERef v :: tr => (if Nat.eqb w v then 1 else 0) + owned tr w
  | EUnref v :: tr | EDestroy v :: tr => owned tr w - (if Nat.eqb w v then 1 else 0)
  | _ :: tr => owned tr w
  end.

(* ---------------- delivery ---------------- *)

(* What has to come: nothing; the events of a read; the handlers which have to be called for an event
   and then the other events of the read *)
Inductive todo : Type :=
| Idle
| Reading (i : nat) (l : list iev)
| Telling (i w : nat) (e : iev) (ids : list nat) (l : list iev).

Definition disconnect (w id : nat) (c : todo) : todo :=
  match c with Telling i v e ids l => Telling i v e (if Nat.eqb w v then filter (fun j => negb (Nat.eqb j id)) ids else ids) l | _ => c end.
Definition telling (e : event) : bool := match e with ERead _ _ | EReadEnd _ | ELook _ _ _ | ECall _ _ _ | EDisconnect _ _ => true | _ => false end.

(* What has happened (the last event first) is in order, and c has to come *)
Inductive follows : list event -> todo -> Prop :=
| fo_start : follows [] Idle
| fo_read i d l tr : follows tr Idle -> encodes l d -> follows (ERead i d :: tr) (Reading i l)
(* each event of the read goes to the watch registered at that time, if any *)
| fo_none i e l tr : follows tr (Reading i (e :: l)) -> registered tr i (e_wd e) = None -> follows (ELook i (e_wd e) None :: tr) (Reading i l)
| fo_some i e w l tr : follows tr (Reading i (e :: l)) -> registered tr i (e_wd e) = Some w ->
    follows (ELook i (e_wd e) (Some w) :: tr) (Telling i w e (connected tr w) l)
(* to all its handlers, unless they are disconnected before *)
| fo_call i w e id ids l tr : follows tr (Telling i w e (id :: ids) l) -> follows (ECall w id e :: tr) (Telling i w e ids l)
| fo_disconnect w id c tr : follows tr c -> follows (EDisconnect w id :: tr) (disconnect w id c)
| fo_told i w e l tr : follows tr (Telling i w e [] l) -> follows tr (Reading i l)
| fo_end i tr : follows tr (Reading i []) -> follows (EReadEnd i :: tr) Idle
| fo_other e c tr : follows tr c -> telling e = false -> follows (e :: tr) c.

(* ---------------- clients ---------------- *)

(* The client has a reference, or is in a handler of the watch *)
Definition usable (s : state) (w : nat) : Prop := 1 <= owned (s_trace s) w \/ exists id, In (FHandler w id) (s_stack s).
(* It drops only references it has. The kernel writes complete events only. *)
Definition fair (s : state) (a : action) : Prop :=
  match a with
  | ACall (CRef w) | ACall (CConnect w) | ACall (CDisconnect w _) => usable s w
  | ACall (CUnref w) | ACall (CDestroy w) => 1 <= owned (s_trace s) w
  | ADispatch _ (RData d) => exists l, encodes l d
  | _ => True
  end.
(* The client has no other watch for an object when it creates one *)
Definition distinct (s : state) (a : action) : Prop :=
  match a with
  | ACall (CNew (Some n)) => forall w i wd, In (ENew w i n wd) (s_trace s) -> In (EStop w i wd) (s_trace s)
  | _ => True
  end.
(* Other threads do not open files while an instance is being closed *)
Definition quiet (s : state) (a : action) : Prop :=
  match a with AOpen => forall i, ~ In (FClose i) (s_stack s) | _ => True end.
(* The descriptor has no errors *)
Definition sound (a : action) : Prop := match a with ADispatch _ RHup | ADispatch _ RError => False | _ => True end.

(* all actions are allowed *)
Fixpoint all_along (P : state -> action -> Prop) (s : state) (l : list action) : Prop :=
  match l with
  | [] => True
  | a :: l => P s a /\ match step s a with Ok s => all_along P s l | Fail _ => True end
  end.

(* An instance is there *)
Definition exists_inst (tr : list event) (i : nat) : Prop := (exists fd, In (EInit i fd) tr) /\ ~ In (EGoneInst i) tr.
