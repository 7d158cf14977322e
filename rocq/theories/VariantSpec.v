(* What a client has to know about variants made of data, objects and the pool: who owns references. Uses the model only for the
   types of calls and results. *)
From Verif Require Import Base VariantModel.

(* Floating: nobody has claimed the first reference yet. Floated: it was given to the pool, or dropped, without being claimed,
   hence the variant looks floating ever since, although there is nothing to claim. *)
Inductive first_ref : Set := Floating | Floated | Claimed.

(* the references of the client and of the pool *)
Record account : Set := Acct { a_kind : kind; a_client : Z; a_pool : Z; a_first : first_ref; a_bytes : list Z }.

Definition unclaimed (f : first_ref) : Z := match f with Floating => 1 | _ => 0 end.
Definition owners (a : account) : Z := a_client a + a_pool a + unclaimed (a_first a).

(* the memory of the client, and everything ever created *)
Record world : Set := World { w_blocks : list (option (list Z)); w_accts : list account }.

Definition account_of (w : world) (v : nat) : option account := nth_error (w_accts w) v.

(* v is a variant or object of this kind and exists, i.e. has an owner *)
Definition exists_ (w : world) (k : kind) (v : nat) : Prop :=
  exists a, account_of w v = Some a /\ a_kind a = k /\ 0 < owners a.
(* the client has a reference which it may give away: one of its own or the floating one *)
Definition mine (w : world) (k : kind) (v : nat) : Prop :=
  exists a, account_of w v = Some a /\ a_kind a = k /\ (0 < a_client a \/ a_first a = Floating).
Definition has_block (w : world) (b : nat) : Prop := exists l, nth_error (w_blocks w) b = Some (Some l).

Definition valid_data (w : world) (d : data) : Prop :=
  d_size d = 0 \/
  0 < d_size d /\ exists b l, d_bytes d = Some b /\ nth_error (w_blocks w) b = Some (Some l) /\ d_size d <= len l.
Definition bytes_of (w : world) (d : data) : list Z :=
  match d_bytes d with
  | Some b => match nth_error (w_blocks w) b with Some (Some l) => firstn (Z.to_nat (d_size d)) l | _ => [] end
  | None => []
  end.

(* What a client may do: use what exists, give away what it has, and not claim a variant whose first reference was given away
   or dropped unclaimed *)
Definition allowed (w : world) (o : op) : Prop :=
  match o with
  | NewBlock _ | NewObject | Drain => True
  | SetBlock b _ | FreeBlock b => has_block w b
  | Copy d => forall x, d = Some x -> valid_data w x
  | ObjRef o => forall v, o = Some v -> exists_ w KObject v
  | ObjUnref o => forall v, o = Some v -> mine w KObject v
  | VarRef v | Read v => exists_ w KVariant v
  | VarUnref v => mine w KVariant v
  | VarSink v => exists_ w KVariant v /\ forall a, account_of w v = Some a -> a_first a <> Floated
  | Add k o => forall v, o = Some v -> mine w k v
  | AddRef k o => forall v, o = Some v -> exists_ w k v
  end.

Definition change (w : world) (v : nat) (f : account -> account) : world :=
  match account_of w v with Some a => World (w_blocks w) (upd (w_accts w) v (f a)) | None => w end.

Definition more (a : account) : account := Acct (a_kind a) (a_client a + 1) (a_pool a) (a_first a) (a_bytes a).
(* a reference of the client is gone; the floating one if it has no other *)
Definition less (a : account) : account :=
  if 0 <? a_client a then Acct (a_kind a) (a_client a - 1) (a_pool a) (a_first a) (a_bytes a)
  else Acct (a_kind a) (a_client a) (a_pool a) Floated (a_bytes a).
Definition claimed (a : account) : account := Acct (a_kind a) (a_client a + 1) (a_pool a) Claimed (a_bytes a).
Definition given (a : account) : account :=
  if 0 <? a_client a then Acct (a_kind a) (a_client a - 1) (a_pool a + 1) (a_first a) (a_bytes a)
  else Acct (a_kind a) (a_client a) (a_pool a + 1) Floated (a_bytes a).
Definition lent (a : account) : account := Acct (a_kind a) (a_client a) (a_pool a + 1) (a_first a) (a_bytes a).
Definition drained (a : account) : account := Acct (a_kind a) (a_client a) 0 (a_first a) (a_bytes a).

Definition created (w : world) (a : account) : world := World (w_blocks w) (w_accts w ++ [a]).

Definition after (w : world) (o : op) : world :=
  match o with
  | NewBlock l => World (w_blocks w ++ [Some l]) (w_accts w)
  | SetBlock b l => World (upd (w_blocks w) b (Some l)) (w_accts w)
  | FreeBlock b => World (upd (w_blocks w) b None) (w_accts w)
  | Copy (Some d) => created w (Acct KVariant 0 0 Floating (if d_size d =? 0 then [] else bytes_of w d))
  | NewObject => created w (Acct KObject 1 0 Claimed [])
  | ObjRef (Some v) | VarRef v => change w v more
  | ObjUnref (Some v) | VarUnref v => change w v less
  | VarSink v => change w v claimed
  | Add _ (Some v) => change w v given
  | AddRef _ (Some v) => change w v lent
  | Drain => World (w_blocks w) (map drained (w_accts w))
  | _ => w
  end.

(* what the call returns *)
Definition result (w : world) (o : op) : out :=
  match o with
  | Copy (Some _) | NewObject => OPtr (Some (length (w_accts w)))
  | Copy None => OPtr None
  | ObjRef o | Add _ o | AddRef _ o => OPtr o
  | Read v => match account_of w v with Some a => OBytes (a_bytes a) | None => ONone end
  | _ => ONone
  end.

Fixpoint all_allowed (w : world) (ops : list op) : Prop :=
  match ops with [] => True | o :: ops => allowed w o /\ all_allowed (after w o) ops end.
Fixpoint results (w : world) (ops : list op) : list out :=
  match ops with [] => [] | o :: ops => result w o :: results (after w o) ops end.
Fixpoint afters (w : world) (ops : list op) : world :=
  match ops with [] => w | o :: ops => afters (after w o) ops end.

Definition start : world := World [] [].

(* v was created, and has no owner any more *)
Definition gone (w : world) (v : nat) : Prop := exists a, account_of w v = Some a /\ owners a = 0.
