(* What int blocks are for. Uses only the types of the model. *)
From Verif Require Import Base IntsModel.
From Verif Require Export Lex.

(* ---------------- values ---------------- *)

(* blocks of ints, none is empty and less than 2^32 long *)
Definition valid_ptr (p : iptr) : Prop :=
  match p with None => True | Some (_, l) => l <> [] /\ len l < 2^32 /\ Forall in_s32 l end.

(* the same address means the same block *)
Definition coherent (p q : iptr) : Prop :=
  match p, q with Some (a, x), Some (b, y) => a = b -> x = y | _, _ => True end.

Definition contents (p : iptr) : list Z := match p with Some (_, l) => l | None => [] end.

(* ---------------- ownership ---------------- *)

(* What a caller knows of an object: what it is a slice of, the memory block it was created from and
   whether it is to be released, and its values *)
Record node := mkNode { n_up : option nat; n_blk : nat; n_own : bool; n_vals : list Z }.

(* the objects made so far, and the references the caller has (one entry for each) *)
Definition world := (list node * list nat)%type.

(* how a call with its result changes that *)
Fixpoint drop (i : nat) (own : list nat) : list nat :=
  match own with
  | [] => []
  | j :: t => if Nat.eqb i j then t else j :: drop i t
  end.

Definition after (w : world) (c : call) (r : ret) : world :=
  let (nodes, own) := w in
  match c, r with
  | CNew k v, RNew (Some i) b => (nodes ++ [mkNode None b (match k with Static => false | _ => true end) v], i :: own)
  | CSlice i off n, RNew (Some j) _ =>
      match nth_error nodes i with
      | Some p => (nodes ++ [mkNode (Some i) (n_blk p) false (slice (n_vals p) off (Z.min (off + n) (len (n_vals p))))], j :: own)
      | None => w
      end
  (* NULL for an empty slice, and nevertheless one more reference which the caller does not get to see *)
  | CSlice i off n, RNew None _ =>
      match nth_error nodes i with
      | Some p => if off <? len (n_vals p) then (nodes, i :: own) else w
      | None => w
      end
  | CRef i, _ => (nodes, i :: own)
  | CUnref i, _ | CToData i, _ => (nodes, drop i own)
  | _, _ => w
  end.

(* k is j or j is a slice of (a slice of ...) k *)
Inductive desc (nodes : list node) (k : nat) : nat -> Prop :=
| desc_refl : desc nodes k k
| desc_up j p n : nth_error nodes j = Some n -> n_up n = Some p -> desc nodes k p -> desc nodes k j.

(* some reference to k or to a slice of it is left *)
Definition needed (w : world) (k : nat) : Prop := exists j, In j (snd w) /\ desc (fst w) k j.

(* correct use: a caller has the references it uses; the end of a slice does not overflow; unref_to_data is not used to drop
   the last reference to static data; there are less than 2^31 references *)
Definition correct (w : world) (c : call) : Prop :=
  let (nodes, own) := w in
  match c with
  | CNew _ v => len v < 2^32
  | CSlice i off n => In i own /\ 0 <= off /\ 0 <= n /\ off + n < 2^32 /\ len own + len nodes < 2^31 - 1
  | CRef i => In i own /\ len own + len nodes < 2^31 - 1
  | CUnref i => In i own
  | CToData i => In i own /\ forall n, nth_error nodes i = Some n -> n_up n = None -> n_own n = false -> needed (nodes, drop i own) i
  end.

(* all calls of a sequence succeed *)
Inductive history : heap -> world -> Prop :=
| history_nil : history (mkHeap [] []) ([], [])
| history_cons h w c h' r : history h w -> correct w c -> step h c = Ok (h', r) -> history h' (after w c r).

(* what is to be true after any sequence of calls *)
Definition sound (h : heap) (w : world) : Prop :=
  let (nodes, own) := w in
  (* what the caller has references to can be read and has the right values *)
  (forall j, In j own -> exists n, nth_error nodes j = Some n /\ get_data h j = Ok (n_vals n)) /\
  (* objects exist as long as they are needed and no longer *)
  (forall k, (k < length nodes)%nat -> (needed w k <-> exists o, nth_error (objs h) k = Some (Some o))) /\
  (* data which is no longer needed has been released (or given to the caller by unref_to_data), no
     other data has; doing it twice would be an error *)
  (forall k n, nth_error nodes k = Some n -> n_up n = None ->
     exists c r, nth_error (blks h) (n_blk n) = Some (c, r) /\
       (needed w k -> r = 0) /\ (~ needed w k -> if n_own n then r = 1 \/ r = 2 else r = 0)).

(* the number by which memcmp orders the bytes of an int: its unsigned value if the most significant byte is first, otherwise the
   unsigned value with the bytes in the opposite order *)
Definition order_key (big : bool) (v : Z) : Z :=
  if big then v mod 2^32
  else (v mod 256) * 2^24 + (v / 2^8 mod 256) * 2^16 + (v / 2^16 mod 256) * 2^8 + v / 2^24 mod 256.
